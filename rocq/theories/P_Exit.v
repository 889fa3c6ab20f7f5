(** * Leaving the network at the destination (C34) *)
From Coq Require Import List Bool ZArith NArith Arith Lia Reals Relation_Operators.
From Flocq Require Import Core IEEE754.BinarySingleNaN.
From Verif Require Import Arith F64 RealArith Base BaseProofs SlotMap SlotMapProofs Util Geom Light Accel Net Path Vehicle LinkOps Sim SpecLight SpecSim SpecMotion SpecKin SpecEnter Safe NetInv SimInv AccSafe SimSafe StepSafe OpSafe Evo StepEvo SimProofs StepProofs Ord FloatLaws LogProofs Motion RFacts EnterProofs SimExample P_Sim P_Motion P_Accel P_Enter NetEvo SpecNet P_Net SpecRoute P_Lane DijProofs RouteProofs PlanProofs RouteEvo P_Route P_Give.
Import ListNotations.

Section Exit.
  Context {A : Arith}.

  (** ** What the choice of paths does to one vehicle *)
  Inductive chosen (e : env) (links : linkset) (v : vehicle) : vehicle -> Prop :=
  | ch_none : choose_path links v = Ok None -> chosen e links v v
  | ch_same p : choose_path links v = Ok (Some p) -> hd_error (pt_links p) = v_link v -> chosen e links v (set_path v p)
  | ch_move p b links' pos lc v2 : choose_path links v = Ok (Some p) -> hd_error (pt_links p) = Some b -> v_link v <> Some b ->
      set_location e links' v b pos (Some lc) = Ok v2 -> chosen e links v (set_path v2 p).

  Lemma choose_all_exact links seq vs acc vs1 : St links vs seq -> sm_mapS (choose_one links) vs [] = Ok (acc, vs1) ->
    forall k v', sm_get vs1 k = Some v' -> exists v o, sm_get vs k = Some v /\ choose_path links v = Ok o /\
      match o with
      | None => v' = v /\ ~ In k (map fst acc)
      | Some p => hd_error (pt_links p) = v_link v /\ v' = set_path v p /\ ~ In k (map fst acc) \/
                  exists b, hd_error (pt_links p) = Some b /\ v_link v <> Some b /\ v' = v /\ In (k, p) acc
      end.
  Proof.
    intros [N W V O] H.
    pose proof (sm_mapS_ind (choose_one links) (fun done todo acc =>
      NoDup (map fst (done ++ todo)) /\
      (forall k v, In (k, v) todo -> sm_get vs k = Some v) /\
      (forall k, In k (map fst acc) -> In k (map fst done)) /\
      (forall k v', In (k, v') done -> exists v o, sm_get vs k = Some v /\ choose_path links v = Ok o /\
        match o with
        | None => v' = v /\ ~ In k (map fst acc)
        | Some p => hd_error (pt_links p) = v_link v /\ v' = set_path v p /\ ~ In k (map fst acc) \/
                    exists b, hd_error (pt_links p) = Some b /\ v_link v <> Some b /\ v' = v /\ In (k, p) acc
        end))) as K.
    specialize (K vs [] acc vs1). destruct K as (_ & _ & _ & K1); auto.
    - intros done k v todo acc0 acc1 v' (P1 & P2 & P3 & P4) Hc.
      assert (sm_get vs k = Some v) as Gk by (apply P2; left; auto). pose proof (V _ _ Gk) as B.
      assert (~ In k (map fst done)) as Kd.
      { rewrite map_app in P1. cbn [map fst] in P1. apply NoDup_remove_2 in P1. rewrite in_app_iff in P1. tauto. }
      split; [replace (map fst ((done ++ [(k, v')]) ++ todo)) with (map fst (done ++ (k, v) :: todo)); [exact P1|rewrite !map_app; cbn [map fst]; rewrite <- app_assoc; auto]|].
      split; [intros; apply P2; right; auto|].
      unfold choose_one in Hc. bok Hc o Ho.
      assert (exists acc2, acc1 = acc0 ++ acc2 /\ (forall x, In x (map fst acc2) -> x = k) /\
        match o with
        | None => v' = v /\ acc2 = []
        | Some p => hd_error (pt_links p) = v_link v /\ v' = set_path v p /\ acc2 = [] \/
                    exists b, hd_error (pt_links p) = Some b /\ v_link v <> Some b /\ v' = v /\ acc2 = [(k, p)]
        end) as (acc2 & -> & Hk & Hm).
      { destruct o as [p|]; [|injection Hc as <- <-; exists []; rewrite app_nil_r; repeat split; auto; intros x []].
        bok Hc cur Hcu. bok Hc nw Hnw. apply of_option_ok in Hcu, Hnw. destruct (key_eqb_spec cur nw) as [->|Ne]; cbn [negb] in Hc; injection Hc as <- <-.
        - exists []. rewrite app_nil_r. split; auto. split; [intros x []|]. left. split; [congruence|auto].
        - rewrite (vb_id _ _ _ _ B). exists [(k, p)]. split; auto. split; [intros x [<-|[]]; auto|]. right. exists nw. repeat split; auto. congruence. }
      split.
      { intros x Hx. rewrite map_app, in_app_iff in Hx |- *. cbn [map fst]. destruct Hx as [Hx|Hx]; auto. right. left. symmetry. auto. }
      intros k1 v1 Hin. apply in_app_iff in Hin. destruct Hin as [Hin|[Hin|[]]].
      + assert (k1 <> k) as Ne by (intros ->; apply Kd; eapply in_fst_map; eauto).
        assert (~ In k1 (map fst acc2)) as N2 by (intros Hx; apply Ne; auto).
        destruct (P4 _ _ Hin) as (v0 & o0 & G0 & Ho0 & Q). exists v0, o0. split; auto. split; auto. rewrite map_app. destruct o0 as [p0|].
        * destruct Q as [(Q1 & Q2 & Q3)|(b & Q1 & Q2 & Q3 & Q4)]; [left; repeat split; auto; rewrite in_app_iff; tauto|right; exists b; rewrite in_app_iff; auto].
        * destruct Q. rewrite in_app_iff. tauto.
      + injection Hin as <- <-. exists v, o. split; auto. split; auto.
        assert (acc2 = [] -> ~ In k (map fst (acc0 ++ acc2))) as Na. { intros ->. rewrite app_nil_r. intros Hx. apply Kd. auto. }
        destruct o as [p|].
        * destruct Hm as [(Q1 & Q2 & Q3)|(b & Q1 & Q2 & Q3 & Q4)]; [left; auto|right; exists b; rewrite in_app_iff, Q4; cbn; auto 6].
        * destruct Hm. auto.
    - split; [apply nodup_keys|]. split; [intros k v Hin; apply in_entries; auto|]. cbn. split; [intros k []|intros k v' []].
    - intros k v' Hk. apply K1. apply in_entries. auto.
  Qed.

  Lemma lane_changes_exact e s s' k v' : St (s_links s) (s_vehicles s) (s_seq s) -> calculate_lane_changes e s = Ok s' -> sm_get (s_vehicles s') k = Some v' ->
    exists v, sm_get (s_vehicles s) k = Some v /\
      (nltb (s_lc_update s) LANE_CHANGE_UPDATE_SEC = true /\ v' = v \/
       nltb (s_lc_update s) LANE_CHANGE_UPDATE_SEC = false /\ chosen e (s_links s) v v').
  Proof.
    intros S H. unfold calculate_lane_changes in H. destruct (nltb _ _) eqn:D; [injection H as <-; eauto|].
    bok H x Hx. destruct x as [acc vs1]. cbn [fst snd] in *. cbn [s_links s_vehicles with_lc_update] in Hx.
    pose proof (choose_all_exact _ _ _ _ _ S Hx) as K1. destruct (choose_all_evo _ _ _ _ _ S Hx) as (_ & K2 & _).
    assert (forall acc s2 s3, foldM (exec_change e) acc s2 = Ok s3 -> NoDup (map fst acc) ->
      (forall k v', sm_get (s_vehicles s2) k = Some v' -> exists v, sm_get (s_vehicles s) k = Some v /\
         (~ In k (map fst acc) /\ chosen e (s_links s) v v' \/
          exists p b, v' = v /\ In (k, p) acc /\ choose_path (s_links s) v = Ok (Some p) /\ hd_error (pt_links p) = Some b /\ v_link v <> Some b)) ->
      forall k v', sm_get (s_vehicles s3) k = Some v' -> exists v, sm_get (s_vehicles s) k = Some v /\ chosen e (s_links s) v v') as F.
    { clear. induction acc as [|(k0, p0) acc IH]; intros s2 s3 Hf Nd Hs; cbn [foldM] in Hf.
      - injection Hf as <-. intros k v' G. destruct (Hs _ _ G) as (v & Gv & [(_ & C)|(p & b & _ & [] & _)]). eauto.
      - bok Hf s4 H4. cbn [map fst] in Nd. inversion Nd; subst. apply (IH s4 s3 Hf); auto. clear IH Hf s3. intros k v' G.
        unfold exec_change in H4. cbn [fst snd] in H4. bok H4 lid Hl. apply of_option_ok in Hl. bok H4 s5 Hd. bok H4 v1 Hv1. injection H4 as <-.
        cbn [s_vehicles with_vehicles] in G. apply do_lane_change_ok in Hd. destruct Hd as (v & v2 & links & l0 & pos & off & slope & Gv & _ & _ & _ & Hs2 & Es).
        assert (s_vehicles s5 = sm_set (s_vehicles s2) k0 v2) as Ev by (rewrite Es; reflexivity). rewrite Ev in *. unfold get_vehicle in Hv1.
        assert (sm_mem (s_vehicles s2) k0 = true) as M by (apply sm_mem_get; eauto). rewrite sm_get_set, key_eqb_refl, M in Hv1. cbn [of_option andb] in Hv1. injection Hv1 as <-.
        rewrite !sm_get_set, sm_mem_set, M in G. destruct (key_eqb_spec k0 k) as [<-|N]; cbn [andb] in G.
        + injection G as <-. destruct (Hs _ _ Gv) as (v0 & G0 & [(C & _)|(p & b & -> & Hin & Hc & Hh & Nl)]); [exfalso; apply C; left; auto|].
          exists v0. split; auto. left. split; auto. assert (p = p0) as ->.
          { destruct Hin as [Hin|Hin]; [congruence|]. exfalso. apply H1. apply in_map_iff. exists (k0, p). auto. }
          assert (b = lid) by congruence. subst b. eapply ch_move; eauto.
        + destruct (Hs _ _ G) as (v0 & G0 & [(C & Q)|(p & b & -> & Hin & Q)]); exists v0; split; auto.
          * left. split; auto. intros Hx. apply C. right. auto.
          * right. exists p, b. split; auto. split; [|exact Q]. destruct Hin as [Hin|Hin]; auto. congruence. }
    intros G. destruct (F _ _ _ H K2) with (k := k) (v' := v') as (v & Gv & C); [|exact G|exists v; auto].
    clear F H G. cbn [s_vehicles with_vehicles]. intros k1 v1 G. destruct (K1 _ _ G) as (v & o & Gv & Ho & Q). exists v. split; auto. destruct o as [p|].
    - destruct Q as [(Q1 & -> & Q3)|(b & Q1 & Q2 & -> & Q4)]; [left; split; auto; apply ch_same; auto|right; exists p, b; auto 6].
    - destruct Q as (-> & Q). left. split; auto. apply ch_none. auto.
  Qed.

  Lemma choose_path_other links v p : choose_path links v = Ok (Some p) -> pt_links p <> v_route v.
  Proof.
    unfold choose_path. destruct (v_lane_change v); [discriminate|]. intros H. bok H x Hx. destruct x as [|y l]; [discriminate H|].
    destruct (keys_eqb (pt_links (min_by_key y l)) (v_route v)) eqn:E; [discriminate H|]. injection H as <-. intros Q. rewrite Q in E. rewrite (proj2 (keys_eqb_eq _ _) eq_refl) in E. discriminate E.
  Qed.

  (** ** One step *)
  Lemma step_exit e s dt s' k v' : Inv s -> step e s dt = Ok s' -> sm_get (s_vehicles s') k = Some v' ->
    exists v v1 s1, sm_get (s_vehicles s) k = Some v /\ calculate_lane_changes e s = Ok s1 /\ sm_get (s_vehicles s1) k = Some v1 /\
      (nltb (s_lc_update s) LANE_CHANGE_UPDATE_SEC = true /\ v1 = v \/
       nltb (s_lc_update s) LANE_CHANGE_UPDATE_SEC = false /\ chosen e (s_links s) v v1) /\
      v_can_exit v' = v_can_exit v1 /\ v_destination v' = v_destination v1 /\ v_route v' <> [] /\
      (v_route v' = v_route v1 /\ v_pathfind v' = v_pathfind v1 \/ v_route v' = tl (v_route v1)).
  Proof.
    intros I H G'. destruct (step_vehicle_parts _ _ _ _ _ _ I H G') as (s1 & s2 & s3 & s4 & s5 & v & v1 & v2 & v4 & v5 & q & q' & P & G & G1 & G2 & G4 & R1 & Kp & Hi & R5 & R6).
    destruct (lane_changes_exact _ _ _ _ _ (i_st _ I) (ph1 _ _ _ _ _ _ _ _ _ P) G1) as (v0 & G0 & C). assert (v0 = v) by congruence. subst v0.
    exists v, v1, s1. split; [exact G|]. split; [exact (ph1 _ _ _ _ _ _ _ _ _ P)|]. split; [exact G1|]. split; [exact C|]. destruct Kp as (a & f & Ek).
    assert (v_can_exit v2 = v_can_exit v1 /\ v_pathfind v2 = v_pathfind v1 /\ v_route v2 = v_route v1) as (X1 & X2 & X3) by (rewrite Ek; cbn; auto).
    apply integrate_ok in Hi. destruct Hi as (_ & _ & _ & _ & _ & E4 & E5 & E6 & _). destruct R6 as (_ & F1 & _ & F2 & _ & F3 & _). unfold v_destination.
    assert (Inv s') as I' by exact (exec_Inv e s (OStep dt) s' I H).
    assert (v_route v' <> []) as Ne. { pose proof (vb_ent _ _ _ _ (st_veh _ _ _ (i_st _ I') _ _ G')) as En. intros Q. rewrite Q in En. cbn in En. lia. }
    destruct R5 as (lid & l & _ & _ & [(_ & ->)|(_ & B5 & Rt & _ & Ce & _)]).
    - split; [congruence|]. split; [congruence|]. split; [exact Ne|]. left. split; congruence.
    - unfold body in B5. injection B5 as _ _ _ _ _ _ _ _ _ B5. split; [congruence|]. split; [congruence|]. split; [exact Ne|]. right. congruence.
  Qed.

  (** ** The other calls *)
  Lemma call_exit e s o s' k v' : Inv s -> exec e s o = Ok s' -> is_step o = false -> sm_get (s_vehicles s') k = Some v' ->
    (exists v, sm_get (s_vehicles s) k = Some v /\ v_route v' = v_route v /\ v_pathfind v' = v_pathfind v /\ v_can_exit v' = v_can_exit v) \/
    v_can_exit v' = false /\ (redirects k o = true \/ moves k o = true \/ exists a l, o = OAddVehicle a l /\ k = sm_next_key (s_vehicles s)).
  Proof.
    intros I H Hs G. assert (s_vehicles s' = s_vehicles s -> exists v, sm_get (s_vehicles s) k = Some v /\ v_route v' = v_route v /\ v_pathfind v' = v_pathfind v /\ v_can_exit v' = v_can_exit v) as R0.
    { intros E. rewrite E in G. exists v'. auto. }
    destruct o; simpl in H; try discriminate.
    - left. apply R0. bok H x Hx. unfold add_link in Hx. bok Hx l Hl. injection Hx as <-. injection H as <-. auto.
    - left. apply R0. unfold add_link_group in H. bok H x1 Hx1. bok H x2 Hx2. bok H x3 Hx3. bok H x4 Hx4. bok H x5 Hx5. injection H as <-. auto.
    - left. apply R0. unfold add_link_convergance in H. destruct (key_eqb _ _); [injection H as <-; auto|].
      destruct (sm_get _ a); [|injection H as <-; auto]. destruct (sm_get _ b); [|injection H as <-; auto].
      bok H x Hx. destruct x; [|injection H as <-; auto]. bok H y Hy. injection H as <-. auto.
    - left. apply R0. unfold add_link_connection in H. bok H x Hx. bok H y Hy. injection H as <-. auto.
    - left. apply R0. bok H x Hx. injection H as <-. auto.
    - bok H x Hx. destruct x as [s1 k1]. injection H as <-. simpl in G. clear R0. unfold add_vehicle in Hx. bok Hx v0 Hv0. bok Hx v Hv. bok Hx links Hl.
      injection Hx as <- <-. simpl in G. rewrite sm_get_insert in G by apply I.
      destruct (key_eqb_spec (sm_next_key (s_vehicles s)) k) as [<-|].
      + right. injection G as <-. apply set_location_body in Hv0. destruct Hv0 as (_ & _ & _ & _ & _ & _ & Ce & _). apply update_coords_ok in Hv. destruct Hv as (_ & _ & _ & _ & _ & E & _). split; [congruence|]. eauto 6.
      + left. eauto 6.
    - left. rewrite (remove_vehicle_ok _ _ _ I H) in G. destruct (key_eqb _ _); [discriminate|]. eauto 6.
    - left. unfold randomise_velocity_adjusts in H. bok H x Hx. destruct x as [u vs]. injection H as <-. simpl in G.
      destruct (sm_mapS_pointwise _ (fun _ => True) _ _ _ _ (fun _ _ _ _ _ _ _ _ => Logic.I) Logic.I Hx) as (_ & _ & K2).
      destruct (K2 _ _ G) as (u1 & u2 & v & _ & _ & Ho & Gv). injection Ho as _ <-. exists v. auto.
    - left. apply R0. injection H as <-. unfold set_vehicle_frozen. destruct frozen, (position _ _); auto.
    - unfold set_vehicle_destination in H. bok H v0 Hv0. bok H v1 Hv1. injection H as <-. simpl in G.
      rewrite sm_get_set in G. unfold get_vehicle in Hv0. destruct (sm_get (s_vehicles s) v) as [v2|] eqn:G2; [|discriminate]. injection Hv0 as ->.
      destruct (key_eqb_spec v k) as [->|]; simpl in G; [|left; eauto 6].
      replace (sm_mem (s_vehicles s) k) with true in G by (symmetry; apply sm_mem_get; eauto). injection G as <-. right.
      unfold set_destination in Hv1. bok Hv1 pf Hpff. injection Hv1 as <-. split; [reflexivity|]. left. cbn [redirects]. apply key_eqb_refl.
    - left. apply R0. unfold set_link_control in H. bok H x Hx. injection H as <-. auto.
    - apply do_lane_change_ok in H. destruct H as (v0 & v1 & links & l0 & pos & off & slope & G0 & _ & _ & _ & Hs2 & Es). rewrite Es in G. simpl in G. rewrite sm_get_set in G.
      destruct (key_eqb_spec v k) as [->|]; simpl in G; [|left; eauto 6].
      replace (sm_mem (s_vehicles s) k) with true in G by (symmetry; apply sm_mem_get; eauto). injection G as <-. right.
      apply set_location_body in Hs2. destruct Hs2 as (_ & _ & _ & _ & _ & _ & Ce & _). split; auto. right. left. cbn [moves]. apply key_eqb_refl.
  Qed.

  (** ** Leave to exit is given for the destination only *)
  Definition exits_right (v : vehicle) : Prop :=
    (forall p, In p (pf_paths (v_pathfind v)) -> (pt_exit p = true <-> last (pt_links p) null_key = v_destination v)) /\
    (v_can_exit v = true -> last (v_route v) null_key = v_destination v).
  Lemma last_tl (l : list key) : tl l <> [] -> last (tl l) null_key = last l null_key.
  Proof. destruct l as [|x [|y l]]; cbn [tl]; intros H; [reflexivity|contradiction|reflexivity]. Qed.
  Lemma chosen_exit e links v v1 : (forall p, In p (pf_paths (v_pathfind v)) -> (pt_exit p = true <-> last (pt_links p) null_key = v_destination v)) -> chosen e links v v1 ->
    v_destination v1 = v_destination v /\
    (v1 = v /\ choose_path links v = Ok None \/ (v_can_exit v1 = true <-> last (v_route v1) null_key = v_destination v1)).
  Proof.
    intros P C. destruct C as [C|p C Hh|p b links' pos lc v2 C Hh Nl Hs].
    - auto.
    - split; [reflexivity|]. right. apply choose_path_in in C. exact (P _ (proj1 C)).
    - apply set_location_body in Hs. destruct Hs as (Hb & _). unfold body in Hb. injection Hb as _ _ _ _ _ _ _ _ _ Hb.
      unfold v_destination in *. cbn [set_path v_pathfind v_can_exit v_route]. split; [exact Hb|]. right. rewrite Hb. apply choose_path_in in C. exact (P _ (proj1 C)).
  Qed.
  Lemma exec_exits e s o s' : Inv s -> exec e s o = Ok s' -> (forall k v, sm_get (s_vehicles s) k = Some v -> exits_right v) ->
    forall k v', sm_get (s_vehicles s') k = Some v' -> exits_right v'.
  Proof.
    intros I H K k v' G. pose proof (st_net _ _ _ (i_st _ I)) as N.
    assert (forall p, In p (pf_paths (v_pathfind v')) -> (pt_exit p = true <-> last (pt_links p) null_key = v_destination v')) as P.
    { assert (forall links, planned_all links (v_pathfind v') -> forall p, In p (pf_paths (v_pathfind v')) -> (pt_exit p = true <-> last (pt_links p) null_key = v_destination v')) as Q by (intros links (Q & _) p Hp; apply (Q p Hp)).
      destruct (exec_pf _ _ _ _ _ _ I H G) as [(v & Gv & E)|[(v & d & _ & Gv & E)|(a & l & _ & _ & E)]].
      - destruct (pf_evo_planned _ _ _ N E) as [E1|(_ & E1)]; [|exact (Q _ E1)]. destruct (K _ _ Gv) as (P0 & _). unfold v_destination in *. rewrite E1. exact P0.
      - unfold pf_set_destination in E. bok E pf Hpf. apply make_paths_planned in E. apply (Q (s_links s)). apply E.
      - destruct (pf_evo_planned _ _ _ N (rt_step _ _ _ _ E)) as [E1|(_ & E1)]; [|exact (Q _ E1)]. rewrite E1. intros p []. }
    split; [exact P|]. destruct (is_step o) eqn:Hs.
    - destruct o; try discriminate Hs. destruct (step_exit _ _ _ _ _ _ I H G) as (v & v1 & s1 & Gv & _ & _ & C & E1 & E2 & Ne & E3). destruct (K _ _ Gv) as (P0 & P1).
      assert (v_can_exit v1 = true -> last (v_route v1) null_key = v_destination v1) as L.
      { destruct C as [(_ & ->)|(_ & C)]; [exact P1|]. destruct (chosen_exit _ _ _ _ P0 C) as (Ed & [(-> & _)|D]); [exact P1|apply D]. }
      rewrite E1, E2. intros Ce. rewrite <- (L Ce). destruct E3 as [(-> & _)|E3]; [reflexivity|]. rewrite E3 in *. apply last_tl. exact Ne.
    - destruct (call_exit _ _ _ _ _ _ I H Hs G) as [(v & Gv & E1 & E2 & E3)|(Ce & _)]; [|congruence]. destruct (K _ _ Gv) as (_ & P1). unfold v_destination in *. rewrite E1, E2, E3. exact P1.
  Qed.
  Lemma reachable_exits s : reachable s -> forall k v, sm_get (s_vehicles s) k = Some v -> exits_right v.
  Proof.
    intros R. induction R as [|e s o s' R IH H]; [intros k v G; cbn [sim_new s_vehicles] in G; rewrite sm_get_empty in G; discriminate G|]. eapply exec_exits; [apply reachable_Inv; exact R|exact H|exact IH].
  Qed.

  (** ** A vehicle that has only its own link before it *)
  Definition parked (d : key) (v : vehicle) : Prop :=
    v_route v = [d] /\ v_can_exit v = false /\ forall p, In p (pf_paths (v_pathfind v)) -> pt_links p = [d].
  Lemma exec_parked e s o s' k d : Inv s -> exec e s o = Ok s' -> redirects k o = false -> moves k o = false -> sm_issued (s_vehicles s) k ->
    (forall v, sm_get (s_vehicles s) k = Some v -> parked d v) -> forall v', sm_get (s_vehicles s') k = Some v' -> parked d v'.
  Proof.
    intros I H Hr Hmv Is K v' G. destruct (is_step o) eqn:Hs.
    - destruct o; try discriminate Hs. destruct (step_exit _ _ _ _ _ _ I H G) as (v & v1 & s1 & Gv & _ & _ & C & E1 & _ & Ne & E3). destruct (K _ Gv) as (P1 & P2 & P3).
      assert (v1 = v) as ->.
      { destruct C as [(_ & ->)|(_ & C)]; [reflexivity|]. destruct C as [C|p C Hh|p b links' pos lc v2 C Hh Nl Hs']; [reflexivity| |]; exfalso; apply (choose_path_other _ _ _ C); rewrite P1; apply P3; apply choose_path_in in C; apply C. }
      destruct E3 as [(E3 & E4)|E3]; [unfold parked; rewrite E1, E3, E4; auto|]. exfalso. apply Ne. rewrite E3, P1. reflexivity.
    - destruct (call_exit _ _ _ _ _ _ I H Hs G) as [(v & Gv & E1 & E2 & E3)|(_ & [D|[D|(a & l & _ & ->)]])]; [|congruence|congruence|].
      + destruct (K _ Gv) as (P1 & P2 & P3). unfold parked. rewrite E1, E2, E3. auto.
      + exfalso. revert Is. apply next_key_not_issued. apply I.
  Qed.

  (** ** The end of the last link *)
  Lemma end_result e s1 s2 links vs log1 log lid l k v : St (s_links s1) (s_vehicles s1) (s_seq s1) -> parts e s1 s2 links vs log1 log ->
    link_at s1 lid = Some l -> first_at_line s1 l k v -> next_link v = None -> v_can_exit v = false ->
    In (EAcc k (vx_stop_at_line v (nadd (lk_length l) n0))) log.
  Proof.
    intros St1 P Gl (behind & ahead & Ev & Ha & Gv & E1 & Np) Nx Ce. destruct (parts_ctx _ _ _ _ _ _ _ St1 P) as (HL & HV & Ent & Ad).
    assert (exists b, sm_get links lid = Some (set_lk_active l b)) as (b0 & Gl').
    { assert (valid links lid) as V by (apply (same_net_valid _ _ _ (pt_same _ _ _ _ _ _ _ P)); apply sm_mem_get; eauto). unfold valid in V. apply sm_mem_get in V. destruct V as (l' & Gl'). destruct (HL _ _ Gl') as (l0 & G0 & b & ->). unfold link_at in *. exists b. congruence. }
    assert (forall kw w, In kw (lk_vehicles l) -> vehicle_at s1 kw = Some w -> v_link w = Some lid) as Hon.
    { intros kw w Hi Gw. destruct (st_occ _ _ _ St1 _ _ Gl) as (_ & Oc). apply Oc in Hi. unfold at_of in Hi. unfold vehicle_at in Gw. rewrite Gw in Hi. exact Hi. }
    assert (v_link v = Some lid) as Lv. { apply (Hon k); auto. rewrite Ev. apply in_app_iff. simpl. auto. }
    assert (sm_get vs k = Some (v_reset v)) as Gv' by (rewrite HV, Gv; reflexivity).
    assert (lk_id l = lid) as Eid by exact (lo_id _ _ _ (nk_link _ (pt_net _ _ _ _ _ _ _ P) _ _ Gl')).
    destruct (stoplines_front links vs (pt_net _ _ _ _ _ _ _ P) (pt_listed _ _ _ _ _ _ _ P) (pt_chain _ _ _ _ _ _ _ P) Ent _ _ _ lid (set_lk_active l b0) behind ahead k (v_reset v) ltac:(constructor) (pt_stop _ _ _ _ _ _ _ P) Gl')
      as (log0 & lg & bb & L0 & Hcb & A1).
    { exact (pt_cur _ _ _ _ _ _ _ P k (v_reset v) lid _ Gv' Lv Gl'). }
    { exact Ev. }
    { split; [|split; [exact Gv'|split; [change (v_link v = Some (lk_id l)); congruence|split; [exact E1|exact Np]]]].
      intros kw Hk. destruct (Ha kw Hk) as (w & Gw & Ew & Pw). exists (v_reset w). rewrite HV, Gw. split; [reflexivity|]. split; [|split; [exact Ew|exact Pw]].
      change (v_link w = Some (lk_id l)). rewrite Eid. apply (Hon kw); auto. rewrite Ev. apply in_app_iff. simpl. auto. }
    unfold stopline_cb in Hcb. unfold next_link in Nx. rewrite E1 in Nx. unfold rv_route, get_route in Hcb. cbn [rv_veh rv_idx Nat.add] in Hcb.
    change (v_route (v_reset v)) with (v_route v) in Hcb. change (v_can_exit (v_reset v)) with (v_can_exit v) in Hcb. rewrite Nx, Ce in Hcb. cbn [option_map] in Hcb. injection Hcb as <- _.
    apply (adds_in _ _ _ _ Ad), (adds_in _ _ _ _ A1). left. reflexivity.
  Qed.
End Exit.

(** ** C34: leaving at the destination *)
(** A vehicle has leave to exit at the end of its route only if the route ends in its destination. *)
Theorem C34_only_at_destination :
  forall (A : Arith) s k v, reachable s -> vehicle_at s k = Some v -> v_can_exit v = true -> last (v_route v) null_key = v_destination v.
Proof. intros A s k v R G. exact (proj2 (reachable_exits s R k v G)). Qed.
Print Assumptions C34_only_at_destination.
(** A vehicle that takes up a path other than the one it is on has leave to exit exactly if the new path ends in its destination. *)
Theorem C34_new_path :
  forall (A : Arith) e s s1 k v v1, reachable s -> calculate_lane_changes e s = Ok s1 -> vehicle_at s k = Some v -> vehicle_at s1 k = Some v1 ->
    v_route v1 <> v_route v -> (v_can_exit v1 = true <-> last (v_route v1) null_key = v_destination v).
Proof.
  intros A e s s1 k v v1 R H G G1 Nr. pose proof (reachable_Inv _ R) as I. destruct (lane_changes_exact _ _ _ _ _ (i_st _ I) H G1) as (v0 & G0 & C). unfold vehicle_at in *.
  assert (v0 = v) by congruence. subst v0. destruct C as [(_ & ->)|(_ & C)]; [contradiction|].
  destruct (chosen_exit _ _ _ _ (proj1 (reachable_exits s R k v G)) C) as (Ed & [(-> & _)|D]); [contradiction|]. rewrite Ed in D. exact D.
Qed.
Print Assumptions C34_new_path.
(** Leave is never given otherwise: a vehicle that gets it in a step has taken up a candidate path that differs from its route. *)
Theorem C34_needs_new_path :
  forall (A : Arith) e s dt s' k v v', reachable s -> step e s dt = Ok s' -> vehicle_at s k = Some v -> vehicle_at s' k = Some v' ->
    v_can_exit v = false -> v_can_exit v' = true ->
    exists p, In p (candidates v) /\ p <> v_route v /\ last p null_key = v_destination v /\ (v_route v' = p \/ v_route v' = tl p).
Proof.
  intros A e s dt s' k v v' R H G G' C0 C1. pose proof (reachable_Inv _ R) as I.
  destruct (step_exit _ _ _ _ _ _ I H G') as (v0 & v1 & s1 & Gv & H1 & G1 & C & E1 & E2 & Ne & E3). unfold vehicle_at in *. assert (v0 = v) by congruence. subst v0.
  pose proof (proj1 (reachable_exits s R k v G)) as P. rewrite E1 in C1.
  assert (forall p, choose_path (s_links s) v = Ok (Some p) -> v_route v1 = pt_links p -> v_can_exit v1 = pt_exit p ->
    exists q, In q (candidates v) /\ q <> v_route v /\ last q null_key = v_destination v /\ (v_route v' = q \/ v_route v' = tl q)) as K.
  { intros p Hc Er Ex. exists (pt_links p). destruct (choose_path_in _ _ _ Hc) as (Hin & _). split; [unfold candidates; apply in_map; exact Hin|].
    split; [exact (choose_path_other _ _ _ Hc)|]. split; [apply (P p Hin); congruence|]. rewrite <- Er. destruct E3 as [(E3 & _)|E3]; auto. }
  destruct C as [(_ & ->)|(_ & C)]; [congruence|]. destruct C as [C|p C Hh|p b links' pos lc v2 C Hh Nl Hs']; [congruence| |]; exact (K p C eq_refl eq_refl).
Qed.
Print Assumptions C34_needs_new_path.
(** So the property fails: a vehicle that is sent to the very link it is on (from which one does not get back to it, and from which
    it may not change lane) has no leave to exit there, whatever happens later, until it is sent elsewhere or moved by hand. *)
Theorem C34_own_link_refuted :
  forall (A : Arith) ops1 e s0 k d v0 s1 ops2 s v, @cast_in_range A -> history sim_new ops1 s0 -> groups_apart ops1 ->
    vehicle_at s0 k = Some v0 -> v_route v0 = [d] ->
    (forall b, succ_of (s_links s0) d b -> ~ leads (s_links s0) b d) -> (forall b, ~ chg_of (s_links s0) d b) ->
    exec e s0 (OSetDestination k d) = Ok s1 -> history s1 ops2 s -> (forall o, In o ops2 -> redirects k o = false /\ moves k o = false) ->
    vehicle_at s k = Some v -> v_link v = Some d /\ v_destination v = d /\ next_link v = None /\ v_can_exit v = false.
Proof.
  intros A ops1 e s0 k d v0 s1 ops2 s v Cast Hist Ap G0 R0 Ns Nc H H2 Ho G.
  pose proof (history_Inv _ _ _ Hist Inv_new) as I0. pose proof (exec_Inv _ _ _ _ I0 H) as I1.
  destruct (dest_there _ _ _ _ _ H) as (v0' & v1 & _ & G1).
  destruct (dest_bound _ _ _ _ _ _ _ _ Hist Ap Cast H G0 G1) as (El & Er & Es & Ed & _ & Pl & So & _).
  assert (v_link v0 = Some d) as L0 by (unfold v_link; rewrite R0; reflexivity).
  destruct (link_src _ _ _ _ I0 G0 L0) as (Sa & _). rewrite Sa in So. specialize (So (rt_refl _ _ d)).
  assert (v_can_exit v1 = false) as Ce.
  { destruct (call_exit _ _ _ _ _ _ I0 H eq_refl G1) as [(w & Gw & _ & _ & _)|(Ce & _)]; [|exact Ce].
    simpl in H. unfold set_vehicle_destination in H. bok H x Hx. bok H y Hy. injection H as <-. unfold vehicle_at in G1. cbn [s_vehicles with_vehicles] in G1. rewrite sm_get_set, key_eqb_refl in G1.
    replace (sm_mem (s_vehicles s0) k) with true in G1 by (symmetry; apply sm_mem_get; eauto). injection G1 as <-. unfold set_destination in Hy. bok Hy pf Hpf. injection Hy as <-. reflexivity. }
  assert (parked d v1) as Pk.
  { split; [congruence|]. split; [exact Ce|]. intros p Hin. destruct Pl as (Pl & _). destruct (Pl p Hin) as ((a & Ha & Pa) & _). rewrite Es, Sa in Ha. destruct Ha as [->|Ha]; [|exfalso; apply (Nc _ Ha)].
    assert (forall b, inM (pf_matrix (v_pathfind v1)) b -> leads (s_links s0) b d) as So' by (intros b Mb; apply So in Mb; unfold v_destination in Ed; rewrite Ed in Mb; exact Mb). clear Ed So.
    inversion Pa as [? ? ? T Hs|? ? ? l b q T Hd Gl Hb Pb]; subst; [reflexivity|]. exfalso. apply (Ns b); [exists l; auto|].
    assert (inM (pf_matrix (v_pathfind v1)) b) as Mb by (inversion Pb; assumption). exact (So' _ Mb). }
  assert (forall ops s1 s, history s1 ops s -> Inv s1 -> (forall o, In o ops -> redirects k o = false /\ moves k o = false) -> sm_issued (s_vehicles s1) k ->
    (forall v, sm_get (s_vehicles s1) k = Some v -> parked d v /\ v_destination v = d) -> forall v, sm_get (s_vehicles s) k = Some v -> parked d v /\ v_destination v = d) as K.
  { clear. intros ops s1 s Hh. induction Hh as [|e s o s1 ops s' H Hh IH]; intros I Ho Is Q v G; [auto|].
    apply IH; auto; [eapply exec_Inv; eauto|intros; apply Ho; right; auto|eapply history_issued; [econstructor; [exact H|constructor]|exact I|exact Is]|].
    intros w Gw. destruct (Ho o (or_introl eq_refl)) as (Hr & Hmv). split; [eapply exec_parked; [exact I|exact H|exact Hr|exact Hmv|exact Is| |exact Gw]; intros u Gu; apply (Q u Gu)|].
    destruct (exec_pf _ _ _ _ _ _ I H Gw) as [(u & Gu & E)|[(u & d' & -> & _)|(a & l & -> & -> & _)]].
    - destruct (Q _ Gu) as (_ & Du). unfold v_destination in *. rewrite <- Du. clear -E. induction E as [x y (e & l2 & id & _ & _ & E)| |]; [apply set_origin_dst in E; apply E|reflexivity|congruence].
    - cbn [redirects] in Hr. rewrite key_eqb_refl in Hr. discriminate Hr.
    - exfalso. revert Is. apply next_key_not_issued. apply I. }
  destruct (K ops2 s1 s H2 I1 Ho) with (v := v) as ((P1 & P2 & _) & Dv); [eapply issued_mem; exact G1|intros u Gu; unfold vehicle_at in G1; assert (u = v1) by congruence; subst u; auto|exact G|].
  split; [unfold v_link; rewrite P1; reflexivity|]. split; [exact Dv|]. split; [|exact P2].
  pose proof (vb_ent _ _ _ _ (st_veh _ _ _ (i_st _ (history_Inv _ _ _ H2 I1)) _ _ G)) as En. unfold next_link. apply nth_error_None. rewrite P1 in En |- *. cbn [length] in *. lia.
Qed.
Print Assumptions C34_own_link_refuted.
(** A vehicle without leave that is first at the end of the last link of its route brakes for that end. *)
Theorem C34_held_at_end :
  forall e ops s dt s1 s' lid l k v v', history (@sim_new F64) ops s -> step e s dt = Ok s' -> due (lit 1 10) ops = true ->
    calculate_lane_changes e s = Ok s1 -> link_at s1 lid = Some l -> first_at_line s1 l k v -> vehicle_at s' k = Some v' ->
    next_link v = None -> v_can_exit v = false ->
    let y := driver_model v (nsub (nadd (lk_length l) n0) (pos_front v)) n0 in
    nnan y = false -> nleb (acceleration v') (nmax y full_braking) = true.
Proof.
  intros e ops s dt s1 s' lid l k v v' Hh H D H1 Gl Fl G' Nx Ce y Ny.
  pose proof (history_Inv _ _ _ Hh Inv_new) as I. pose proof (history_timers _ _ Hh) as (T & _). pose proof (due_true _ _ _ T D) as D'.
  destruct (step_motion _ _ _ _ _ _ I H G') as (v0 & t1 & t2 & w1 & w2 & G0 & H1' & _ & _ & _ & _ & _ & _ & _ & _ & _ & St1 & _). assert (t1 = s1) by congruence. subst t1.
  refine (refresh_bound F64_ord decel_nan e s dt s' k v0 v' y I H G0 G' D' Ny _).
  intros t1 t3 links vs log1 log E1 P. assert (t1 = s1) by congruence. subst t1.
  exact (end_result _ _ _ _ _ _ _ _ _ _ _ St1 P Gl Fl Nx Ce).
Qed.
Print Assumptions C34_held_at_end.

(** A car on a road that leads to another is sent to the road it is on.  Fourteen seconds later it is the first at the end of it, and brakes
    for it: the hypotheses of [C34_own_link_refuted] and [C34_held_at_end] hold.  In the story of SimExample the cars get leave, and all exit. *)
Definition ex_own : list (@op F64) :=
  [ OAddLink (ex_line 0 0 20 0) (fz 15); OAddLink (ex_line 20 0 40 0) (fz 15); OAddConnection lane1 lane2; OAddVehicle ex_car lane1 ].
Definition first_b (s : @sim F64) (lid k : key) (f : @link F64 -> @vehicle F64 -> bool) : bool :=
  match link_at s lid, vehicle_at s k with
  | Some l, Some v => keys_eqb (lk_vehicles l) [k] && Nat.eqb (v_entered v) 1 && negb (nltb (pos_front v) (nsub (lk_length l) (nmul (nofZ 5) (lk_limit l)))) && f l v
  | _, _ => false
  end.
Lemma first_b_ok s lid k f : first_b s lid k f = true -> exists l v, link_at s lid = Some l /\ first_at_line s l k v /\ vehicle_at s k = Some v /\ f l v = true.
Proof.
  unfold first_b. destruct (link_at s lid) as [l|]; [|discriminate]. destruct (vehicle_at s k) as [v|] eqn:G; [|discriminate]. intros H. bsplit H. apply keys_eqb_eq in H. apply Nat.eqb_eq in B1. apply negb_true_iff in B0.
  exists l, v. split; [reflexivity|]. split; [|auto]. exists [], []. split; [exact H|]. split; [intros ? []|]. auto.
Qed.
Definition no_next (v : @vehicle F64) : bool := match next_link v with None => negb (v_can_exit v) | _ => false end.
Lemma ex_own_ok : okb (run ex_env sim_new ex_own) (fun s0 =>
  route_is s0 car1 [lane1] && has_out s0 lane1 lane2 && dead_end s0 lane2 && link_b s0 lane1 (fun l => match lk_changes l with [] => keys_eqb (lk_out l) [lane2] | _ => false end) &&
  okb (exec ex_env s0 (OSetDestination car1 lane1)) (fun s1 => okb (run ex_env s1 (ex_steps 14)) (fun s =>
    okb (calculate_lane_changes ex_env s) (fun s2 => okb (step ex_env s (fz 1)) (fun s' =>
      first_b s2 lane1 car1 (fun l v => no_next v && negb (nnan (stop_acc v l)) && veh_b s' car1 (fun v' => nleb (acceleration v') n0))))))) = true.
Proof. vm_compute. reflexivity. Qed.
Lemma ex_own_due : due (@lit F64 1 10) (ex_own ++ [OSetDestination car1 lane1] ++ ex_steps 14) = true.
Proof. vm_compute. reflexivity. Qed.
Example C34_example : exists s0 v0 s1 s s2 s' l v v',
  history (@sim_new F64) ex_own s0 /\ groups_apart ex_own /\ vehicle_at s0 car1 = Some v0 /\ v_route v0 = [lane1] /\
  (forall b, succ_of (s_links s0) lane1 b -> ~ leads (s_links s0) b lane1) /\ (forall b, ~ chg_of (s_links s0) lane1 b) /\
  exec ex_env s0 (OSetDestination car1 lane1) = Ok s1 /\ history s1 (ex_steps 14) s /\ (forall o, In o (ex_steps 14) -> redirects car1 o = false /\ moves car1 o = false) /\
  step ex_env s (fz 1) = Ok s' /\ due (lit 1 10) (ex_own ++ [OSetDestination car1 lane1] ++ ex_steps 14) = true /\
  calculate_lane_changes ex_env s = Ok s2 /\ link_at s2 lane1 = Some l /\ first_at_line s2 l car1 v /\ next_link v = None /\ v_can_exit v = false /\ nnan (stop_acc v l) = false /\
  vehicle_at s' car1 = Some v' /\ nleb (acceleration v') n0 = true.
Proof.
  destruct (okb_ok _ _ ex_own_ok) as (s0 & H0 & H). bsplit H. destruct (okb_ok _ _ B) as (s1 & H1 & Hb). destruct (okb_ok _ _ Hb) as (s & H2 & Hc). destruct (okb_ok _ _ Hc) as (s2 & H3 & Hd). destruct (okb_ok _ _ Hd) as (s' & H4 & He).
  apply first_b_ok in He. destruct He as (l & v & Gl & Fl & Gv & He). bsplit He. destruct (route_is_ok _ _ _ H) as (v0 & G0 & R0). apply link_b_ok in B0. destruct B0 as (l0 & Gl0 & B0).
  unfold no_next in He. destruct (next_link v) eqn:Nx; [discriminate He|]. apply negb_true_iff in He. apply veh_b_ok in B3. destruct B3 as (v' & G' & B3).
  destruct (lk_changes l0) eqn:Ec; [|discriminate B0]. apply keys_eqb_eq in B0.
  exists s0, v0, s1, s, s2, s', l, v, v'. split; [eapply run_history; exact H0|]. split; [unfold groups_apart; cbn; constructor|]. split; [exact G0|]. split; [exact R0|]. split.
  { intros b (l1 & G1 & Hb1) L. unfold link_at in Gl0. assert (l1 = l0) by congruence. subst l1. rewrite B0 in Hb1. destruct Hb1 as [<-|[]]. apply (dead_end_ok _ _ _ B1) in L. discriminate L. }
  split. { intros b (l1 & G1 & Hb1). unfold link_at in Gl0. assert (l1 = l0) by congruence. subst l1. rewrite Ec in Hb1. destruct Hb1. }
  split; [exact H1|]. split; [eapply run_history; exact H2|]. split; [intros o Ho; apply repeat_spec in Ho; subst o; auto|]. split; [exact H4|]. split; [exact ex_own_due|].
  apply negb_true_iff in B4. auto 12.
Qed.
