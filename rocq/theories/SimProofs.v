(** * Lemmas for the properties of whole simulations (P_Sim.v) *)
From Coq Require Import List Bool ZArith NArith Arith Lia.
From Verif Require Import Arith Base BaseProofs SlotMap Util Geom Light Accel Net Path Vehicle LinkOps Sim SpecSim SlotMapProofs Safe NetInv SimInv AccSafe SimSafe StepSafe OpSafe Evo StepEvo LightProofs SpecLight.
Import ListNotations.

Section SimProofs.
  Context {A : Arith}.

  (** ** Where vehicles go *)
  Lemma pre_advance_link e s dt s4 : Inv s -> (exists s', step e s dt = Ok s') -> pre_advance e s dt = Ok s4 ->
    forall k v4, sm_get (s_vehicles s4) k = Some v4 -> exists v mid, sm_get (s_vehicles s) k = Some v /\ v_link v4 = Some mid /\
      (v_link v = Some mid \/ exists a, v_link v = Some a /\ chg_of (s_links s) a mid).
  Proof.
    intros I (s' & H) H4 k v4 G4. destruct (step_phases _ _ _ _ I H) as (s1 & s2 & s3 & s4' & s5 & P).
    assert (s4' = s4) by (pose proof (ph_pre _ _ _ _ _ _ _ _ _ P); congruence). subst s4'.
    destruct (integrate_evo _ _ _ (ph4 _ _ _ _ _ _ _ _ _ P)) as (_ & K & _). destruct (K _ _ G4) as (v3 & q & q' & G3 & Hi & _).
    apply integrate_ok in Hi. destruct Hi as (_ & _ & _ & _ & _ & _ & Hr & _).
    rewrite (pv3 _ _ _ _ _ _ _ _ _ P) in G3. destruct (pk2 _ _ _ _ _ _ _ _ _ P _ _ G3) as (v1 & G1 & (a & f & ->)).
    destruct (lane_changes_evo _ _ _ (i_st _ I) (ph1 _ _ _ _ _ _ _ _ _ P) _ _ G1) as (v & G & _ & R).
    destruct (vbase_link _ _ _ _ (st_veh _ _ _ (ps1 _ _ _ _ _ _ _ _ _ P) _ _ G1)) as (mid & Hm & _).
    exists v, mid. split; auto. split. { unfold v_link in *. rewrite Hr. exact Hm. }
    destruct R as ([(R & _)|(x & y & Hx & Hy & Hc & _)] & _).
    - left. congruence.
    - right. exists x. split; auto. assert (y = mid) by congruence. subst; auto.
  Qed.

  Lemma Radv_link links seq k v v' : vbase links seq k v -> Radv links v v' -> v_route v' <> [] ->
    exists a b, v_link v = Some a /\ v_link v' = Some b /\ (b = a \/ succ_of links a b).
  Proof.
    intros B (lid & l & H1 & H2 & [(_ & ->)|(_ & _ & Hr & _)]) Hne.
    - exists lid, lid. auto.
    - unfold v_link in *. pose proof (vb_chain _ _ _ _ B) as C. destruct (v_route v) as [|a r]; [discriminate|]. simpl in *. rewrite Hr in *.
      destruct r as [|b r]; [congruence|]. exists a, b. repeat split; auto. right. apply C.
  Qed.

  (** ** Links and lights are never removed *)
  Lemma upd_link_shape links k f links' : upd_link links k f = Ok links' -> same_shape links links'.
  Proof. unfold upd_link. intros H. bok H x Hx. bok H y Hy. injection H as <-. apply shape_set. Qed.
  Lemma foldM_upd_shape {X} (l : list X) (g : X -> key) (f : X -> link -> res link) links links' :
    foldM (fun links x => upd_link links (g x) (f x)) l links = Ok links' -> same_shape links links'.
  Proof.
    revert links. induction l as [|x l IH]; intros links H; simpl in H; [injection H as <-; apply shape_refl|].
    bok H ls Hls. eapply shape_trans; [eapply upd_link_shape; eauto|]. eauto.
  Qed.
  Lemma exec_links e s o s' : Inv s -> exec e s o = Ok s' ->
    same_shape (s_links s) (s_links s') \/ exists c lim l, o = OAddLink c lim /\ s_links s' = sm_insert (s_links s) l.
  Proof.
    intros I H. destruct o; simpl in H.
    - right. bok H x Hx. unfold add_link in Hx. bok Hx l Hl. injection Hx as <-. injection H as <-. simpl. eauto.
    - left. unfold add_link_group in H. bok H x1 Hx1. bok H x2 Hx2. bok H x3 Hx3. bok H x4 Hx4. bok H x5 Hx5. injection H as <-. simpl.
      eapply shape_trans; [eapply (foldM_upd_shape _ (fun x => x) (fun _ l => Ok (set_group l x2))); eauto|].
      eapply (foldM_upd_shape _ fst (fun ft l => add_lane_change l (snd ft))); eauto.
    - left. unfold add_link_convergance in H. destruct (key_eqb _ _); [injection H as <-; apply shape_refl|].
      destruct (sm_get _ a); [|injection H as <-; apply shape_refl]. destruct (sm_get _ b); [|injection H as <-; apply shape_refl].
      bok H x Hx. destruct x; [|injection H as <-; apply shape_refl]. bok H y Hy. injection H as <-. simpl.
      eapply (foldM_upd_shape _ fst (fun kc l => Ok (add_conflict l (snd kc)))); eauto.
    - left. unfold add_link_connection in H. bok H x Hx. bok H y Hy. injection H as <-. simpl.
      eapply shape_trans; eapply upd_link_shape; eauto.
    - left. bok H x Hx. injection H as <-. apply shape_refl.
    - left. bok H x Hx. destruct x as [s1 k]. injection H as <-. unfold add_vehicle in Hx. bok Hx v0 Hv0. bok Hx v Hv. bok Hx links Hl.
      injection Hx as <- <-. simpl. eapply upd_link_shape; eauto.
    - left. unfold sim_remove_vehicle in H. destruct (sm_get _ v) as [v0|]; [|injection H as <-; apply shape_refl]. simpl in H.
      destruct (v_link v0); [|injection H as <-; apply shape_refl]. bok H x Hx. injection H as <-. simpl. eapply upd_link_shape; eauto.
    - left. unfold randomise_velocity_adjusts in H. bok H x Hx. injection H as <-. apply shape_refl.
    - left. injection H as <-. unfold set_vehicle_frozen. destruct frozen, (position _ _); apply shape_refl.
    - left. unfold set_vehicle_destination in H. bok H x Hx. bok H y Hy. injection H as <-. apply shape_refl.
    - left. unfold set_link_control in H. bok H x Hx. injection H as <-. simpl. eapply upd_link_shape; eauto.
    - left. unfold do_lane_change in H. bok H x0 Hx0. bok H x1 Hx1. bok H x2 Hx2. bok H x3 Hx3. bok H x4 Hx4. destruct x4 as [[pos off] sl].
      bok H x5 Hx5. bok H x6 Hx6. injection H as <-. simpl.
      apply shape_trans with (m2 := x1); [|eapply upd_link_shape; eauto]. destruct (v_link x0); [eapply upd_link_shape; eauto|].
      injection Hx1 as <-. apply shape_refl.
    - left. destruct (step_phases _ _ _ _ I H) as (s1 & s2 & s3 & s4 & s5 & P). destruct (ph6 _ _ _ _ _ _ _ _ _ P) as (s6 & H6 & ->).
      destruct (coords_evo _ _ H6) as (_ & _ & _ & E6). rewrite E6. simpl.
      eapply shape_trans; [apply P|]. eapply shape_trans; [apply P|]. eapply shape_trans; [apply P|].
      rewrite <- (pn4 _ _ _ _ _ _ _ _ _ P). apply P.
  Qed.
  Lemma links_issued e s o s' k : Inv s -> exec e s o = Ok s' -> sm_issued (s_links s) k -> sm_issued (s_links s') k.
  Proof.
    intros I H Hk. destruct (exec_links _ _ _ _ I H) as [Sh|(c & lim & l & _ & ->)].
    - eapply shape_issued; eauto.
    - apply issued_insert; auto. apply (st_net _ _ _ (i_st _ I)).
  Qed.
  Lemma links_stay e s o s' k : Inv s -> exec e s o = Ok s' -> sm_mem (s_links s) k = true -> sm_mem (s_links s') k = true.
  Proof.
    intros I H Hk. destruct (exec_links _ _ _ _ I H) as [Sh|(c & lim & l & _ & ->)].
    - rewrite <- (shape_mem _ _ k Sh). auto.
    - unfold sm_mem in *. rewrite sm_get_insert by apply (st_net _ _ _ (i_st _ I)). destruct (key_eqb _ _); auto.
  Qed.
  Lemma exec_lights e s o s' : Inv s -> exec e s o = Ok s' ->
    same_shape (s_lights s) (s_lights s') \/ exists c l, o = OAddLight c /\ s_lights s' = sm_insert (s_lights s) l.
  Proof.
    intros I H. destruct o; simpl in H.
    - left. bok H x Hx. unfold add_link in Hx. bok Hx l Hl. injection Hx as <-. injection H as <-. apply shape_refl.
    - left. unfold add_link_group in H. bok H x1 Hx1. bok H x2 Hx2. bok H x3 Hx3. bok H x4 Hx4. bok H x5 Hx5. injection H as <-. apply shape_refl.
    - left. unfold add_link_convergance in H. destruct (key_eqb _ _); [injection H as <-; apply shape_refl|].
      destruct (sm_get _ a); [|injection H as <-; apply shape_refl]. destruct (sm_get _ b); [|injection H as <-; apply shape_refl].
      bok H x Hx. destruct x; [|injection H as <-; apply shape_refl]. bok H y Hy. injection H as <-. apply shape_refl.
    - left. unfold add_link_connection in H. bok H x Hx. bok H y Hy. injection H as <-. apply shape_refl.
    - right. bok H x Hx. injection H as <-. simpl. eauto.
    - left. bok H x Hx. destruct x as [s1 k]. injection H as <-. unfold add_vehicle in Hx. bok Hx v0 Hv0. bok Hx v Hv. bok Hx links Hl.
      injection Hx as <- <-. apply shape_refl.
    - left. unfold sim_remove_vehicle in H. destruct (sm_get _ v) as [v0|]; [|injection H as <-; apply shape_refl]. simpl in H.
      destruct (v_link v0); [|injection H as <-; apply shape_refl]. bok H x Hx. injection H as <-. apply shape_refl.
    - left. unfold randomise_velocity_adjusts in H. bok H x Hx. injection H as <-. apply shape_refl.
    - left. injection H as <-. unfold set_vehicle_frozen. destruct frozen, (position _ _); apply shape_refl.
    - left. unfold set_vehicle_destination in H. bok H x Hx. bok H y Hy. injection H as <-. apply shape_refl.
    - left. unfold set_link_control in H. bok H x Hx. injection H as <-. apply shape_refl.
    - left. apply do_lane_change_ok in H. destruct H as (v0 & v1 & links & l0 & pos & off & slope & _ & _ & _ & _ & _ & Es). rewrite Es. apply shape_refl.
    - left. destruct (step_phases _ _ _ _ I H) as (s1 & s2 & s3 & s4 & s5 & P). destruct (ph6 _ _ _ _ _ _ _ _ _ P) as (s6 & H6 & ->).
      destruct (coords_evo _ _ H6) as (_ & _ & _ & E6). rewrite E6. simpl.
      destruct (advance_vehicles_evo _ _ _ (ph5 _ _ _ _ _ _ _ _ _ P)) as (_ & _ & _ & E5). rewrite E5. simpl.
      destruct (integrate_evo _ _ _ (ph4 _ _ _ _ _ _ _ _ _ P)) as (_ & _ & E4). rewrite E4. apply P.
  Qed.
  Lemma lights_issued e s o s' k : Inv s -> exec e s o = Ok s' -> sm_issued (s_lights s) k -> sm_issued (s_lights s') k.
  Proof.
    intros I H Hk. destruct (exec_lights _ _ _ _ I H) as [Sh|(c & l & _ & ->)].
    - eapply shape_issued; eauto.
    - apply issued_insert; auto. apply I.
  Qed.
  Lemma history_pres (P : sim -> Prop) : (forall e s o s', Inv s -> exec e s o = Ok s' -> P s -> P s') ->
    forall s ops s', history s ops s' -> Inv s -> P s -> P s'.
  Proof. intros HP s ops s' H. induction H; auto. intros I Ps. apply IHhistory; [eapply exec_Inv; eauto|eapply HP; eauto]. Qed.

  (** ** The frame counter *)
  Definition is_step (o : op) : bool := match o with OStep _ => true | _ => false end.
  Lemma exec_frame e s o s' : Inv s -> exec e s o = Ok s' -> s_frame s' = s_frame s + if is_step o then 1 else 0.
  Proof.
    intros I H. destruct o; simpl in H |- *.
    - bok H x Hx. unfold add_link in Hx. bok Hx l Hl. injection Hx as <-. injection H as <-. simpl. lia.
    - unfold add_link_group in H. bok H x1 Hx1. bok H x2 Hx2. bok H x3 Hx3. bok H x4 Hx4. bok H x5 Hx5. injection H as <-. simpl. lia.
    - unfold add_link_convergance in H. destruct (key_eqb _ _); [injection H as <-; lia|].
      destruct (sm_get _ a); [|injection H as <-; lia]. destruct (sm_get _ b); [|injection H as <-; lia].
      bok H x Hx. destruct x; [|injection H as <-; lia]. bok H y Hy. injection H as <-. simpl. lia.
    - unfold add_link_connection in H. bok H x Hx. bok H y Hy. injection H as <-. simpl. lia.
    - bok H x Hx. injection H as <-. simpl. lia.
    - bok H x Hx. destruct x as [s1 k]. injection H as <-. unfold add_vehicle in Hx. bok Hx v0 Hv0. bok Hx v Hv. bok Hx links Hl.
      injection Hx as <- <-. simpl. lia.
    - unfold sim_remove_vehicle in H. destruct (sm_get _ v) as [v0|]; [|injection H as <-; lia]. simpl in H.
      destruct (v_link v0); [|injection H as <-; simpl; lia]. bok H x Hx. injection H as <-. simpl. lia.
    - unfold randomise_velocity_adjusts in H. bok H x Hx. injection H as <-. simpl. lia.
    - injection H as <-. unfold set_vehicle_frozen. destruct frozen, (position _ _); simpl; lia.
    - unfold set_vehicle_destination in H. bok H x Hx. bok H y Hy. injection H as <-. simpl. lia.
    - unfold set_link_control in H. bok H x Hx. injection H as <-. simpl. lia.
    - apply do_lane_change_ok in H. destruct H as (v0 & v1 & links & l0 & pos & off & slope & _ & _ & _ & _ & _ & Es). rewrite Es. simpl. lia.
    - destruct (step_phases _ _ _ _ I H) as (s1 & s2 & s3 & s4 & s5 & P). destruct (ph6 _ _ _ _ _ _ _ _ _ P) as (s6 & H6 & ->).
      destruct (coords_evo _ _ H6) as (_ & _ & _ & E6). rewrite E6. simpl.
      destruct (advance_vehicles_evo _ _ _ (ph5 _ _ _ _ _ _ _ _ _ P)) as (_ & _ & _ & E5). rewrite E5. simpl.
      destruct (integrate_evo _ _ _ (ph4 _ _ _ _ _ _ _ _ _ P)) as (_ & _ & E4). rewrite E4. simpl.
      destruct (lights_evo _ _ _ (ph3 _ _ _ _ _ _ _ _ _ P)) as (_ & _ & _ & F3 & _).
      destruct (acc_fields _ _ _ (ph2 _ _ _ _ _ _ _ _ _ P)) as (_ & _ & F2 & _).
      destruct (lc_fields _ _ _ (ph1 _ _ _ _ _ _ _ _ _ P)) as (_ & _ & _ & F1 & _). lia.
  Qed.

  (** ** Vehicles in calls other than a step *)
  Definition Rcall (o : op) (k : key) (v v' : vehicle) : Prop :=
    v_id v' = v_id v /\ v_vel v' = v_vel v /\ am_acc (v_acc v') = am_acc (v_acc v) /\ v_queued v' = v_queued v /\
    ((v_link v' = v_link v /\ v_pos v' = v_pos v /\ v_route v' = v_route v /\ v_entered v' = v_entered v) \/
     exists lid d, o = OLaneChange k lid d /\ v_link v' = Some lid).
  Lemma Rcall_refl o k v : Rcall o k v v.
  Proof. repeat split; auto. Qed.
  Lemma exec_vehicle e s o s' k v' : Inv s -> exec e s o = Ok s' -> is_step o = false -> sm_get (s_vehicles s') k = Some v' ->
    (exists v, sm_get (s_vehicles s) k = Some v /\ Rcall o k v v') \/
    exists a l, o = OAddVehicle a l /\ ~ sm_issued (s_vehicles s) k /\ k = sm_next_key (s_vehicles s) /\ v_queued v' = None.
  Proof.
    intros I H Hs G. assert (s_vehicles s' = s_vehicles s -> exists v, sm_get (s_vehicles s) k = Some v /\ Rcall o k v v') as R0.
    { intros E. rewrite E in G. exists v'. split; auto. apply Rcall_refl. }
    destruct o; simpl in H; try discriminate.
    - left. apply R0. bok H x Hx. unfold add_link in Hx. bok Hx l Hl. injection Hx as <-. injection H as <-. auto.
    - left. apply R0. unfold add_link_group in H. bok H x1 Hx1. bok H x2 Hx2. bok H x3 Hx3. bok H x4 Hx4. bok H x5 Hx5. injection H as <-. auto.
    - left. apply R0. unfold add_link_convergance in H. destruct (key_eqb _ _); [injection H as <-; auto|].
      destruct (sm_get _ a); [|injection H as <-; auto]. destruct (sm_get _ b); [|injection H as <-; auto].
      bok H x Hx. destruct x; [|injection H as <-; auto]. bok H y Hy. injection H as <-. auto.
    - left. apply R0. unfold add_link_connection in H. bok H x Hx. bok H y Hy. injection H as <-. auto.
    - left. apply R0. bok H x Hx. injection H as <-. auto.
    - bok H x Hx. destruct x as [s1 k1]. injection H as <-. simpl in G. clear R0. unfold add_vehicle in Hx. bok Hx v0 Hv0. bok Hx v Hv. bok Hx links Hl.
      injection Hx as <- <-. simpl in G. rewrite sm_get_insert in G by apply I.
      destruct (key_eqb_spec (sm_next_key (s_vehicles s)) k).
      + right. subst k. exists a, link. split; auto. split; [apply next_key_not_issued, I|]. split; auto. injection G as <-.
        apply set_location_body in Hv0. destruct Hv0 as (Hb & _). apply update_coords_ok in Hv. destruct Hv as (Hb2 & _).
        unfold body in *. cbn in Hb. injection Hb2 as ? ? ? ? ? ? ? Q ? ?. injection Hb as ? ? ? ? ? ? ? Q2 ? ?. congruence.
      + left. exists v'. split; auto. apply Rcall_refl.
    - left. rewrite (remove_vehicle_ok _ _ _ I H) in G. destruct (key_eqb _ _); [discriminate|]. exists v'. split; auto. apply Rcall_refl.
    - left. unfold randomise_velocity_adjusts in H. bok H x Hx. destruct x as [u vs]. injection H as <-. simpl in G.
      destruct (sm_mapS_pointwise _ (fun _ => True) _ _ _ _ (fun _ _ _ _ _ _ _ _ => Logic.I) Logic.I Hx) as (_ & _ & K2).
      destruct (K2 _ _ G) as (u1 & u2 & v & _ & _ & Ho & Gv). injection Ho as _ <-. exists v. split; auto.
      unfold Rcall. cbn. repeat split; auto.
    - left. apply R0. injection H as <-. unfold set_vehicle_frozen. destruct frozen, (position _ _); auto.
    - left. unfold set_vehicle_destination in H. bok H v0 Hv0. bok H v1 Hv1. injection H as <-. simpl in G.
      rewrite sm_get_set in G. unfold get_vehicle in Hv0. destruct (sm_get (s_vehicles s) v) as [v2|] eqn:G2; [|discriminate]. injection Hv0 as ->.
      destruct (key_eqb_spec v k); simpl in G; [|exists v'; split; auto; apply Rcall_refl]. subst v.
      replace (sm_mem (s_vehicles s) k) with true in G by (symmetry; apply sm_mem_get; eauto). injection G as <-. exists v0. split; auto.
      unfold set_destination in Hv1. bok Hv1 pf Hp. injection Hv1 as <-. unfold Rcall. cbn. repeat split; auto.
    - left. apply R0. unfold set_link_control in H. bok H x Hx. injection H as <-. auto.
    - left. apply do_lane_change_ok in H. destruct H as (v0 & v1 & links & l0 & pos & off & slope & G0 & _ & _ & _ & Hs' & Es). rewrite Es in G. simpl in G.
      rewrite sm_get_set in G. destruct (key_eqb_spec v k); simpl in G; [|exists v'; split; auto; apply Rcall_refl]. subst v.
      replace (sm_mem (s_vehicles s) k) with true in G by (symmetry; apply sm_mem_get; eauto).
      injection G as <-. exists v0. split; auto. apply set_location_body in Hs'. destruct Hs' as (Hb & Hl & _).
        unfold body in Hb. injection Hb as Hb1 Hb2 Hb3 Hb4 Hb5 Hb6 Hb7 Hb8 Hb9 Hb10.
        split; auto. split; auto. split; [congruence|]. split; auto. right. exists l, dist. split; auto.
  Qed.

  (** ** Panics *)
  Lemma lrun_panic (ops : list lop) p : lrun ops = Panic p -> p = PNoPhase \/ p = PShift.
  Proof.
    unfold lrun. intros H. assert (forall l, foldM lexec ops l = Panic p -> light_ok l -> p = PNoPhase \/ p = PShift) as K.
    { clear H. induction ops as [|o ops IH]; intros l H L; simpl in H; [discriminate|].
      destruct o as [c a r ks|m d|dt]; simpl in H.
      - eapply IH; [exact H|]. destruct L as (L1 & L2). split; auto. unfold add_movement. cbn [l_mlinks l_movements]. rewrite app_length. cbn [length]. apply Forall_app. split.
        + eapply Forall_impl; [|exact L2]. simpl. intros; lia.
        + rewrite Forall_map. apply Forall_forall. intros k _. cbn [fst].
          assert (length (l_movements l) mod 256 <= length (l_movements l)) by (apply Nat.mod_le; discriminate). lia.
      - eapply IH; [exact H|]. destruct L as (L1 & L2). split; auto. simpl. rewrite app_length. simpl.
        destruct L1 as [(_ & E)|E]; right; lia.
      - pose proof (light_step_safe (fun p => p = PNoPhase \/ p = PShift) l dt L (fun _ => or_introl eq_refl) (fun _ => or_intror eq_refl)) as Sf.
        destruct (light_step l dt) as [l'|q|] eqn:E; simpl in Sf, H.
        + eapply IH; eauto. eapply light_ok_step; eauto.
        + injection H as <-. auto.
        + discriminate. }
    eapply K; eauto. split; simpl; auto.
  Qed.
End SimProofs.
