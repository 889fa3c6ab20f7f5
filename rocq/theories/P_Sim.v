(** * Properties C16-C21: vehicles, links and their ids over whole histories *)
From Coq Require Import List Bool ZArith NArith Arith Lia.
From Verif Require Import Arith F64 Base BaseProofs SlotMap Util Geom Light Accel Net Path Vehicle LinkOps Sim SpecSim SlotMapProofs Safe NetInv SimInv StepSafe OpSafe Evo StepEvo SimProofs SimExample.
Import ListNotations.

(** ** The running example (SimExample.v): its states are reachable. *)
Lemma ex_states : exists s0 s1 s2 s6 s12 : @sim F64,
  reachable s0 /\ step ex_env s0 (fz 1) = Ok s1 /\ step ex_env s1 (fz 1) = Ok s2 /\ history s2 (ex_steps 4) s6 /\ history s6 (ex_steps 6) s12 /\
  is_on s0 car1 lane2 = true /\ is_on s0 car3 side = true /\ is_on s1 car1 lane2 = true /\ is_on s2 car1 lane1 = true /\
  is_on s6 car1 exit1 = true /\ is_on s6 car3 exit2 = true /\ is_gone s12 car1 = true /\ is_gone s12 car2 = true.
Proof.
  pose proof ex_story_ok as H.
  apply okb_ok in H. destruct H as (s0 & H0 & H). rewrite !andb_true_iff in H. destruct H as (((Q1 & Q2) & Q3) & H).
  apply okb_ok in H. destruct H as (s1 & H1 & H). rewrite !andb_true_iff in H. destruct H as (Q4 & H).
  apply okb_ok in H. destruct H as (s2 & H2 & H). rewrite !andb_true_iff in H. destruct H as (Q5 & H).
  apply okb_ok in H. destruct H as (s6 & H6 & H). rewrite !andb_true_iff in H. destruct H as ((Q6 & Q7) & H).
  apply okb_ok in H. destruct H as (s12 & H12 & H). rewrite !andb_true_iff in H. destruct H as ((Q8 & Q9) & Q10).
  exists s0, s1, s2, s6, s12.
  assert (reachable s0). { eapply history_reachable; [eapply run_history; eauto|constructor]. }
  cbn [run ex_steps repeat exec] in H1, H2. bok H1 x Hx. injection H1 as <-. bok H2 y Hy. injection H2 as <-.
  repeat (split; [assumption|]). split; [eapply run_history; eauto|]. split; [eapply run_history; eauto|]. repeat (split; try assumption).
Qed.
Lemma is_on_link (s : @sim F64) k lid : is_on s k lid = true -> exists v, vehicle_at s k = Some v /\ v_link v = Some lid.
Proof.
  unfold is_on, vehicle_at. destruct (sm_get (s_vehicles s) k) as [v|]; [|discriminate]. destruct (v_link v) as [l|] eqn:E; [|discriminate].
  intros H. apply key_eqb_eq in H. subst. eauto.
Qed.

(** ** C16: every vehicle is on exactly one link, which lists it exactly once; no link lists
    anything else. *)
Theorem C16_occupancy :
  forall (A : Arith) (s : sim), reachable s ->
    (forall k v, vehicle_at s k = Some v ->
       exists lid l, v_link v = Some lid /\ link_at s lid = Some l /\ count_occ key_eq_dec (lk_vehicles l) k = 1 /\
         forall lid' l', link_at s lid' = Some l' -> In k (lk_vehicles l') -> lid' = lid) /\
    (forall lid l k, link_at s lid = Some l -> In k (lk_vehicles l) -> exists v, vehicle_at s k = Some v /\ v_link v = Some lid).
Proof.
  intros A s R. destruct (reachable_Inv s R) as [[N W V O] _ _ _ _ _]. unfold vehicle_at, link_at.
  assert (forall lid l k, sm_get (s_links s) lid = Some l -> In k (lk_vehicles l) -> exists v, sm_get (s_vehicles s) k = Some v /\ v_link v = Some lid) as K.
  { intros lid l k Hl Hin. apply (O _ _ Hl) in Hin. unfold at_of in Hin. destruct (sm_get (s_vehicles s) k); [eauto|discriminate]. }
  split; auto. intros k v Hk. destruct (vbase_link _ _ _ _ (V _ _ Hk)) as (lid & Hl & Hv & _).
  apply sm_mem_get in Hv. destruct Hv as (l & Gl). exists lid, l. repeat split; auto.
  - destruct (O _ _ Gl) as (Nd & Hin). apply NoDup_count_occ'; auto. apply Hin. unfold at_of. rewrite Hk. auto.
  - intros lid' l' Gl' Hin. destruct (K _ _ _ Gl' Hin) as (v' & Gv' & Hl'). congruence.
Qed.
Print Assumptions C16_occupancy.

Example C16_example : exists s : @sim F64, reachable s /\ exists l, link_at s lane1 = Some l /\ In car1 (lk_vehicles l).
Proof.
  destruct ex_states as (s0 & s1 & s2 & s6 & s12 & R0 & H1 & H2 & _ & _ & _ & _ & _ & E & _).
  assert (reachable s2) as R2. { eapply (reach_call ex_env _ (OStep _)); [|exact H2]. eapply (reach_call ex_env _ (OStep _)); eauto. }
  exists s2. split; auto. apply is_on_link in E. destruct E as (v & Gv & Hl).
  destruct (C16_occupancy _ _ R2) as (K & _). destruct (K _ _ Gv) as (lid & l & Hl' & Gl & C & _).
  assert (lid = lane1) by congruence. subst. exists l. split; auto. apply (count_occ_In key_eq_dec). rewrite C. auto.
Qed.

(** ** C17: vehicles appear and disappear only when they should *)

(** [add_vehicle] creates one vehicle, at the start of the link and at rest, and changes no other;
    its id was never returned before. *)
Theorem C17_add_vehicle :
  forall (A : Arith) e s a lid s' id, reachable s -> add_vehicle e s a lid = Ok (s', id) ->
    vehicle_at s id = None /\
    (exists v, vehicle_at s' id = Some v /\ v_link v = Some lid /\ v_pos v = n0 /\ v_vel v = n0) /\
    (forall k, k <> id -> vehicle_at s' k = vehicle_at s k).
Proof.
  intros A e s a lid s' id R H. pose proof (reachable_Inv s R) as I. destruct (add_vehicle_ok _ _ _ _ _ _ H) as (-> & v & E & Hv).
  unfold vehicle_at. rewrite E. split; [apply next_key_fresh, I|]. split.
  - exists v. rewrite sm_get_insert by apply I. rewrite key_eqb_refl. auto.
  - intros k Hk. rewrite sm_get_insert by apply I. destruct (key_eqb_spec (sm_next_key (s_vehicles s)) k); congruence.
Qed.
Print Assumptions C17_add_vehicle.

Theorem C17_fresh_ids :
  forall (A : Arith) e1 s1 a1 l1 s2 id1 ops s3 e2 a2 l2 s4 id2, reachable s1 ->
    add_vehicle e1 s1 a1 l1 = Ok (s2, id1) -> history s2 ops s3 -> add_vehicle e2 s3 a2 l2 = Ok (s4, id2) ->
    id2 <> id1.
Proof.
  intros A e1 s1 a1 l1 s2 id1 ops s3 e2 a2 l2 s4 id2 R H1 Hh H2 E. pose proof (reachable_Inv _ R) as I.
  assert (exec e1 s1 (OAddVehicle a1 l1) = Ok s2) as X by (simpl; rewrite H1; auto).
  pose proof (exec_Inv _ _ _ _ I X) as I2. pose proof (history_Inv _ _ _ Hh I2) as I3.
  destruct (add_vehicle_ok _ _ _ _ _ _ H1) as (E1 & v1 & V1 & _). destruct (add_vehicle_ok _ _ _ _ _ _ H2) as (E2 & _).
  apply (next_key_not_issued (s_vehicles s3)); [apply I3|]. rewrite <- E2, E.
  eapply history_issued; eauto. rewrite V1. apply issued_insert; auto. apply I.
Qed.
Print Assumptions C17_fresh_ids.

Theorem C17_remove_vehicle :
  forall (A : Arith) e s id s', reachable s -> exec e s (ORemoveVehicle id) = Ok s' ->
    vehicle_at s' id = None /\ forall k, k <> id -> vehicle_at s' k = vehicle_at s k.
Proof.
  intros A e s id s' R H. pose proof (remove_vehicle_ok _ _ _ (reachable_Inv _ R) H) as K. unfold vehicle_at. split.
  - rewrite K, key_eqb_refl. auto.
  - intros k Hk. rewrite K. destruct (key_eqb_spec id k); congruence.
Qed.
Print Assumptions C17_remove_vehicle.

(** A step creates no vehicle, and a vehicle is gone after it exactly if its centre passed the end
    of the last link of its route. *)
Theorem C17_step :
  forall (A : Arith) e s dt s', reachable s -> step e s dt = Ok s' ->
    (forall k, vehicle_at s' k <> None -> vehicle_at s k <> None) /\
    exists s4, pre_advance e s dt = Ok s4 /\
      forall k, vehicle_at s k <> None ->
        (vehicle_at s' k = None <->
         exists v lid l, vehicle_at s4 k = Some v /\ v_route v = [lid] /\ link_at s4 lid = Some l /\ nltb (lk_length l) (v_pos v) = true).
Proof.
  intros A e s dt s' R H. destruct (step_vehicles _ _ _ _ (reachable_Inv _ R) H) as (_ & s4 & H4 & Sh & S4 & _ & V1 & V2). unfold vehicle_at, link_at.
  assert (forall (m : vehset) k, sm_get m k <> None <-> sm_mem m k = true) as M. { intros m k. unfold sm_mem. destruct (sm_get m k); intuition congruence. }
  split.
  - intros k Hk. apply M. rewrite (shape_mem _ _ k Sh). apply M. destruct (sm_get (s_vehicles s') k) as [v'|] eqn:G; [|congruence].
    destruct (V1 _ _ G) as (v4 & v5 & G4 & _). congruence.
  - exists s4. split; auto. intros k Hk. apply M in Hk. rewrite (shape_mem _ _ k Sh) in Hk. apply sm_mem_get in Hk. destruct Hk as (v4 & G4).
    destruct (V2 _ _ G4) as (v5 & (lid & l & L1 & L2 & D) & [(E5 & M5)|(E5 & v' & G5 & _)]).
    + split.
      * intros _. exists v4, lid, l. split; auto. destruct D as [(_ & ->)|(Lt & _ & Hr & _)].
        { unfold v_link in L1. rewrite E5 in L1. discriminate. }
        split; auto. rewrite E5 in Hr. unfold v_link in L1. destruct (v_route v4) as [|x [|y r]]; simpl in *; congruence.
      * intros _. unfold sm_mem in M5. destruct (sm_get (s_vehicles s') k); congruence.
    + split; [congruence|]. intros (v & lid2 & l2 & Gv & Hr & Gl & Lt). assert (v = v4) by congruence. subst v.
      unfold v_link in L1. rewrite Hr in L1. simpl in L1. assert (lid2 = lid) by congruence. subst lid2. assert (l2 = l) by congruence. subst l2.
      destruct D as [(Lf & _)|(_ & _ & Hr2 & _)]; [congruence|]. rewrite Hr in Hr2. simpl in Hr2. congruence.
Qed.
Print Assumptions C17_step.

(** No other call changes the set of vehicles. *)
Theorem C17_other_calls :
  forall (A : Arith) e s o s', exec e s o = Ok s' ->
    (forall a l, o <> OAddVehicle a l) -> (forall k, o <> ORemoveVehicle k) -> (forall dt, o <> OStep dt) ->
    forall k, vehicle_at s k = None <-> vehicle_at s' k = None.
Proof.
  intros A e s o s' H N1 N2 N3 k. assert (no_vehicle_call o = true) as N. { destruct o; auto; exfalso; [eapply N1|eapply N2|eapply N3]; eauto. }
  pose proof (shape_mem _ _ k (exec_shape _ _ _ _ N H)) as M. unfold sm_mem in M. unfold vehicle_at.
  destruct (sm_get (s_vehicles s) k), (sm_get (s_vehicles s') k); intuition congruence.
Qed.
Print Assumptions C17_other_calls.

(** A vehicle that left or was removed never comes back. *)
Theorem C17_never_back :
  forall (A : Arith) s1 ops1 s2 ops2 s3 k, reachable s1 -> history s1 ops1 s2 -> history s2 ops2 s3 ->
    vehicle_at s1 k <> None -> vehicle_at s2 k = None -> vehicle_at s3 k = None.
Proof.
  intros A s1 ops1 s2 ops2 s3 k R H1 H2 V1 V2. pose proof (reachable_Inv _ R) as I. unfold vehicle_at in *.
  destruct (sm_get (s_vehicles s1) k) as [v|] eqn:G1; [|congruence]. apply issued_mem in G1.
  assert (sm_mem (s_vehicles s3) k = false) as M.
  { eapply (history_gone s2); eauto; [eapply history_Inv; eauto|eapply history_issued; eauto|]. unfold sm_mem. rewrite V2. auto. }
  unfold sm_mem in M. destruct (sm_get (s_vehicles s3) k); congruence.
Qed.
Print Assumptions C17_never_back.

(** In the example, cars leave the simulation on their own. *)
Example C17_example : exists s ops s' : _, @reachable F64 s /\ history s ops s' /\ vehicle_at s car1 <> None /\ vehicle_at s' car1 = None.
Proof.
  destruct ex_states as (s0 & s1 & s2 & s6 & s12 & R0 & H1 & H2 & H6 & H12 & _ & _ & _ & _ & E6 & _ & E12 & _).
  exists s6, (ex_steps 6), s12. split.
  - eapply history_reachable; eauto. eapply (reach_call ex_env _ (OStep _)); [|exact H2]. eapply (reach_call ex_env _ (OStep _)); eauto.
  - split; auto. apply is_on_link in E6. destruct E6 as (v & G & _). split; [congruence|]. unfold is_gone, sm_mem in E12. unfold vehicle_at.
    destruct (sm_get (s_vehicles s12) car1); auto. discriminate.
Qed.

(** ** C18: vehicles move only along connections and permitted lane changes *)
Theorem C18_step_moves :
  forall (A : Arith) e s dt s' k v v', reachable s -> step e s dt = Ok s' ->
    vehicle_at s k = Some v -> vehicle_at s' k = Some v' ->
    exists a mid b, v_link v = Some a /\ v_link v' = Some b /\
      (mid = a \/ chg_of (s_links s) a mid) /\ (b = mid \/ succ_of (s_links s) mid b).
Proof.
  intros A e s dt s' k v v' R H G G'. pose proof (reachable_Inv _ R) as I.
  destruct (step_vehicles _ _ _ _ I H) as (_ & s4 & H4 & Sh & S4 & N4 & V1 & V2). unfold vehicle_at in *.
  destruct (V1 _ _ G') as (v4 & v5 & G4 & Ra & (_ & _ & _ & Rr & _)).
  destruct (pre_advance_link _ _ _ _ I (ex_intro _ _ H) H4 _ _ G4) as (v0 & mid & G0 & Hm & Hc). assert (v0 = v) by congruence. subst v0.
  assert (v_route v' <> []) as Ne.
  { destruct (vbase_link _ _ _ _ (st_veh _ _ _ (i_st _ (exec_Inv e s (OStep dt) s' I H)) _ _ G')) as (l' & Hl' & _). unfold v_link in Hl'.
    intros E. rewrite E in Hl'. discriminate. }
  rewrite Rr in Ne. destruct (Radv_link _ _ _ _ _ (st_veh _ _ _ S4 _ _ G4) Ra Ne) as (a & b & Ha & Hb & Hab).
  assert (a = mid) by congruence. subst a.
  assert (v_link v' = Some b) as Hb'. { unfold v_link in *. rewrite Rr. auto. }
  assert (b = mid \/ succ_of (s_links s) mid b) as Hab'. { destruct Hab as [|Hs]; auto. right. apply (same_net_ge _ _ N4). auto. }
  destruct Hc as [Hc|(a & Ha' & Hc)].
  - exists mid, mid, b. repeat split; auto.
  - exists a, mid, b. repeat split; auto.
Qed.
Print Assumptions C18_step_moves.

(** Planned routes are chains of connected links starting with the vehicle's link. *)
Theorem C18_routes :
  forall (A : Arith) s k v, reachable s -> vehicle_at s k = Some v ->
    chain (s_links s) (v_route v) /\ v_route v <> [] /\ 1 <= v_entered v <= length (v_route v).
Proof.
  intros A s k v R G. pose proof (st_veh _ _ _ (i_st _ (reachable_Inv _ R)) _ _ G) as B. split; [apply B|].
  pose proof (vb_ent _ _ _ _ B). split; auto. intros E. rewrite E in H. simpl in H. lia.
Qed.
Print Assumptions C18_routes.

(** Any other call leaves the vehicle where it is, except [do_lane_change] for that vehicle, which
    puts it on the requested link. *)
Theorem C18_other_calls :
  forall (A : Arith) e s o s' k v v', reachable s -> exec e s o = Ok s' -> (forall dt, o <> OStep dt) ->
    vehicle_at s k = Some v -> vehicle_at s' k = Some v' ->
    v_link v' = v_link v /\ v_pos v' = v_pos v \/ exists lid d, o = OLaneChange k lid d /\ v_link v' = Some lid.
Proof.
  intros A e s o s' k v v' R H N G G'. assert (is_step o = false) as Ns. { destruct o; auto. exfalso. eapply N; eauto. }
  destruct (exec_vehicle _ _ _ _ _ _ (reachable_Inv _ R) H Ns G') as [(v0 & G0 & _ & _ & _ & _ & D)|(a & l & _ & Ni & _)].
  - unfold vehicle_at in G. assert (v0 = v) by congruence. subst. tauto.
  - exfalso. apply Ni. eapply issued_mem; eauto.
Qed.
Print Assumptions C18_other_calls.

(** In the second step of the example the first car changes lane, and then moves along the
    connection to the exit. *)
Example C18_example : exists s s' v v', @reachable F64 s /\ step ex_env s (fz 1) = Ok s' /\
  vehicle_at s car1 = Some v /\ vehicle_at s' car1 = Some v' /\ v_link v = Some lane2 /\ v_link v' = Some lane1.
Proof.
  destruct ex_states as (s0 & s1 & s2 & s6 & s12 & R0 & H1 & H2 & H6 & H12 & _ & _ & E1 & E2 & _).
  apply is_on_link in E1. destruct E1 as (v1 & G1 & L1). apply is_on_link in E2. destruct E2 as (v2 & G2 & L2).
  exists s1, s2, v1, v2. repeat (split; auto). eapply (reach_call ex_env _ (OStep _)); eauto.
Qed.

(** ** C19: why a call can panic *)
Theorem C19_panic_causes :
  forall (A : Arith) e s o p, reachable s -> exec e s o = Panic p -> cause s o p.
Proof. intros A e s o p R H. eapply safe_panic; [eapply exec_safe, reachable_Inv; exact R|exact H]. Qed.
Print Assumptions C19_panic_causes.

Theorem C19_existing_ids_never_fail :
  forall (A : Arith) e s o p, reachable s -> ids_exist s o -> light_links_exist s ->
    exec e s o = Panic p -> ~ lookup_failure p.
Proof.
  intros A e s o p R Hi Hl H F. pose proof (C19_panic_causes _ _ _ _ _ R H) as C.
  assert (forall k, link_at s k <> None -> ~ ~ valid (s_links s) k) as V.
  { intros k Hk Hv. apply Hv. unfold valid, sm_mem. unfold link_at in Hk. destruct (sm_get (s_links s) k); congruence. }
  destruct o; simpl in C, Hi; try contradiction.
  - subst p. exact F.
  - destruct p; try contradiction. destruct C as (k & Hin & Hk). eapply V; eauto.
  - destruct C as (-> & _). exact F.
  - destruct Hi as (Hf & Ht). destruct C as (-> & [C|C]); [exact (V _ Hf C)|exact (V _ Ht C)].
  - apply lrun_panic in C. destruct C as [-> | ->]; exact F.
  - destruct C as (-> & C). eapply V; eauto.
  - destruct Hi as (Hv & Hd). destruct C as [(-> & C)|[(-> & C)|(-> & _)]]; [contradiction|exact (V _ Hd C)|exact F].
  - destruct C as (-> & C). eapply V; eauto.
  - destruct Hi as (Hv & Hd). destruct C as [(-> & C)|[(-> & C)|[(-> & _)|[(-> & _)|(-> & _)]]]]; [contradiction|eapply V; eauto|exact F|exact F|exact F].
  - destruct C as [C|(k & l0 & G & C)].
    + destruct p; simpl in *; try contradiction.
    + destruct p; try contradiction. destruct C as (lid & Hin & Hv). eapply V; eauto.
Qed.
Print Assumptions C19_existing_ids_never_fail.

(** An unknown id does panic. *)
Example C19_example : exec ex_env (@sim_new F64) (OAddVehicle ex_car lane1) = Panic PBadLink.
Proof. reflexivity. Qed.
Example C19_hypotheses_met : @ids_exist F64 sim_new (OAddLight []) /\ light_links_exist (@sim_new F64) /\
  exists s, @reachable F64 s /\ ids_exist s (OAddVehicle ex_car lane1).
Proof.
  split; [exact I|]. split. { intros k l lid H. simpl in H. rewrite sm_get_empty in H. discriminate. }
  destruct C16_example as (s & R & l & G & _). exists s. split; auto. simpl. congruence.
Qed.

(** ** C20: [frame()] counts the steps *)
Theorem C20_frame :
  forall (A : Arith) ops s, history sim_new ops s -> s_frame s = length (filter (fun o => match o with OStep _ => true | _ => false end) ops).
Proof.
  intros A ops s H. assert (forall s0, history s0 ops s -> Inv s0 -> s_frame s = s_frame s0 + length (filter is_step ops)) as K.
  { clear H. induction ops as [|o ops IH]; intros s0 H I0; inversion H; subst; simpl; [lia|].
    rewrite (IH _ H5 (exec_Inv _ _ _ _ I0 H3)). rewrite (exec_frame _ _ _ _ I0 H3). destruct (is_step o); simpl; lia. }
  rewrite (K _ H Inv_new). reflexivity.
Qed.
Print Assumptions C20_frame.
Example C20_example : exists s, history (@sim_new F64) (ex_setup ++ ex_steps 1) s.
Proof.
  destruct (okb_ok _ _ ex_story_ok) as (s0 & H0 & H). rewrite !andb_true_iff in H. destruct H as (_ & H).
  destruct (okb_ok _ _ H) as (s1 & H1 & _). exists s1. eapply history_app; eapply run_history; eauto.
Qed.

(** ** C21: ids *)
Theorem C21_ids :
  forall (A : Arith) s, reachable s ->
    (forall k l, link_at s k = Some l -> lk_id l = k) /\
    (forall k v, vehicle_at s k = Some v -> v_id v = k) /\
    (* the iterators yield each object once *)
    NoDup (map lk_id (sm_values (s_links s))) /\ (forall l, In l (sm_values (s_links s)) <-> link_at s (lk_id l) = Some l) /\
    NoDup (map v_id (sm_values (s_vehicles s))) /\ (forall v, In v (sm_values (s_vehicles s)) <-> vehicle_at s (v_id v) = Some v).
Proof.
  intros A s R. destruct (reachable_Inv s R) as [[N W V O] _ _ _ _ _]. unfold vehicle_at, link_at.
  assert (forall k l, sm_get (s_links s) k = Some l -> lk_id l = k) as H1. { intros k l H. apply (nk_link _ N _ _ H). }
  assert (forall k v, sm_get (s_vehicles s) k = Some v -> v_id v = k) as H2. { intros k v H. apply (V _ _ H). }
  assert (forall X (m : slotmap X) (f : X -> key), (forall k x, sm_get m k = Some x -> f x = k) ->
    NoDup (map f (sm_values m)) /\ forall x, In x (sm_values m) <-> sm_get m (f x) = Some x) as K.
  { intros X m f Hf. split.
    - replace (map f (sm_values m)) with (sm_keys m); [apply nodup_keys|]. unfold sm_keys, sm_values. rewrite map_map.
      apply map_ext_in. intros [k x] Hin. symmetry. apply Hf. apply in_entries; auto.
    - intros x. rewrite in_values. split; [|eauto]. intros (k & Hk). rewrite (Hf _ _ Hk). auto. }
  destruct (K _ (s_links s) lk_id H1). destruct (K _ (s_vehicles s) v_id H2). auto 10.
Qed.
Print Assumptions C21_ids.

Theorem C21_fresh_links :
  forall (A : Arith) e1 s1 c1 x1 s2 id1 ops s3 e2 c2 x2 s4 id2, reachable s1 ->
    add_link e1 s1 c1 x1 = Ok (s2, id1) -> history s2 ops s3 ->
    link_at s3 id1 <> None /\ (add_link e2 s3 c2 x2 = Ok (s4, id2) -> id2 <> id1 /\ link_at s4 id2 <> None).
Proof.
  intros A e1 s1 c1 x1 s2 id1 ops s3 e2 c2 x2 s4 id2 R H1 Hh. pose proof (reachable_Inv _ R) as I.
  assert (exec e1 s1 (OAddLink c1 x1) = Ok s2) as X by (simpl; rewrite H1; auto).
  pose proof (exec_Inv _ _ _ _ I X) as I2. pose proof (history_Inv _ _ _ Hh I2) as I3.
  unfold add_link in H1. bok H1 l1 L1. injection H1 as E1 E1'.
  assert (sm_mem (s_links s2) id1 = true) as M2.
  { unfold sm_mem. rewrite <- E1. simpl. rewrite sm_get_insert by apply (i_st _ I). rewrite <- E1', key_eqb_refl. auto. }
  assert (sm_mem (s_links s3) id1 = true) as M3.
  { revert M2. apply (history_pres (fun s => sm_mem (s_links s) id1 = true)) with (2 := Hh); auto. intros; eapply links_stay; eauto. }
  unfold link_at. split. { unfold sm_mem in M3. destruct (sm_get (s_links s3) id1); congruence. }
  intros H2. unfold add_link in H2. bok H2 l2 L2. injection H2 as E2 E2'. split.
  - intros E. apply sm_mem_get in M3. destruct M3 as (l & G). rewrite <- E, <- E2', next_key_fresh in G by apply (i_st _ I3). discriminate.
  - rewrite <- E2. simpl. rewrite sm_get_insert by apply (i_st _ I3). rewrite <- E2', key_eqb_refl. discriminate.
Qed.
Print Assumptions C21_fresh_links.

Theorem C21_fresh_lights :
  forall (A : Arith) s1 l1 ops s3 l2, reachable s1 ->
    history (fst (add_traffic_light s1 l1)) ops s3 -> (exists c, lrun c = Ok l1) ->
    snd (add_traffic_light s3 l2) <> snd (add_traffic_light s1 l1).
Proof.
  intros A s1 l1 ops s3 l2 R Hh (c & Hc) E. pose proof (reachable_Inv _ R) as I.
  assert (exec (Env 0 (fun _ _ _ _ => 0)) s1 (OAddLight c) = Ok (fst (add_traffic_light s1 l1))) as X by (simpl; rewrite Hc; auto).
  pose proof (exec_Inv _ _ _ _ I X) as I2. pose proof (history_Inv _ _ _ Hh I2) as I3. simpl in E.
  apply (next_key_not_issued (s_lights s3)); [apply I3|]. rewrite E.
  apply (history_pres (fun s => sm_issued (s_lights s) (sm_next_key (s_lights s1)))) with (2 := Hh); auto.
  - intros; eapply lights_issued; eauto.
  - simpl. apply issued_insert; auto. apply I.
Qed.
Print Assumptions C21_fresh_lights.
