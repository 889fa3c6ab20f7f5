(** * The phases of a step, and the effect of each call on the set of vehicles *)
From Coq Require Import List Bool ZArith NArith Arith Lia.
From Verif Require Import Arith Base BaseProofs SlotMap Util Geom Light Accel Net Path Vehicle LinkOps Sim SpecSim SlotMapProofs Safe NetInv SimInv AccSafe SimSafe StepSafe OpSafe Evo.
Import ListNotations.

Section StepEvo.
  Context {A : Arith}.
  Let T (_ : panic) := True.

  Lemma lc_fields e s s' : calculate_lane_changes e s = Ok s' ->
    s_seq s' = s_seq s /\ s_lights s' = s_lights s /\ s_frozen s' = s_frozen s /\ s_frame s' = s_frame s /\ s_acc_update s' = s_acc_update s /\
    s_conflicts s' = s_conflicts s /\ s_lc_update s' = if nltb (s_lc_update s) LANE_CHANGE_UPDATE_SEC then s_lc_update s else n0.
  Proof.
    unfold calculate_lane_changes. destruct (nltb _ _). { intros H; injection H as <-; auto 10. }
    intros H. bok H x Hx. destruct x as [acc vs]. simpl in H.
    assert (forall s2, with_vehicles (with_lc_update s n0) vs = s2 -> s_seq s2 = s_seq s /\ s_lights s2 = s_lights s /\ s_frozen s2 = s_frozen s /\ s_frame s2 = s_frame s /\ s_acc_update s2 = s_acc_update s /\ s_conflicts s2 = s_conflicts s /\ s_lc_update s2 = n0) as K by (intros ? <-; simpl; auto 10).
    specialize (K _ eq_refl). revert H K. generalize (with_vehicles (with_lc_update s n0) vs). clear.
    induction acc as [|vp acc IH]; intros s1 H K; simpl in H; [injection H as <-; auto|].
    bok H s2 H2. apply (IH s2); auto. unfold exec_change in H2. bok H2 b Hb. bok H2 s3 H3. bok H2 v Hv. injection H2 as <-.
    apply do_lane_change_ok in H3. destruct H3 as (v0 & v1 & links & l & pos & off & slope & _ & _ & _ & _ & _ & Es). rewrite Es. simpl. auto.
  Qed.
  Lemma acc_fields e s s' : sim_apply_accelerations e s = Ok s' ->
    s_seq s' = s_seq s /\ s_lights s' = s_lights s /\ s_frame s' = s_frame s /\ s_lc_update s' = s_lc_update s /\ s_conflicts s' = s_conflicts s /\
    s_acc_update s' = if nltb (s_acc_update s) ACCELERATION_UPDATE_SEC then s_acc_update s else n0.
  Proof.
    unfold sim_apply_accelerations. destruct (nltb _ _). { intros H; injection H as <-; auto 10. }
    intros H. bok H x Hx. destruct x as [links vs]. bok H log Hl. bok H log2 Hl2. destruct (apply_log _ _) as [links' vs'].
    destruct (apply_frozen _ _) as [vs2 fr]. injection H as <-. simpl. auto 10.
  Qed.

  Record phases (e : env) (s : sim) (dt : num) (s1 s2 s3 s4 s5 s' : sim) : Prop := {
    ph1 : calculate_lane_changes e s = Ok s1;
    ph2 : sim_apply_accelerations e s1 = Ok s2;
    ph3 : update_lights s2 dt = Ok s3;
    ph4 : sim_integrate s3 dt = Ok s4;
    ph_pre : pre_advance e s dt = Ok s4;
    ph5 : advance_vehicles e s4 = Ok s5;
    ph6 : exists s6, update_vehicle_coords s5 = Ok s6 /\
          s' = Sim (s_links s6) (s_lights s6) (s_conflicts s6) (s_vehicles s6) (s_frozen s6) (S (s_frame s6)) (s_seq s6)
              (nadd (s_acc_update s6) dt) (nadd (s_lc_update s6) dt);
    ps1 : St (s_links s1) (s_vehicles s1) (s_seq s1);
    ps2 : St (s_links s2) (s_vehicles s2) (s_seq s2);
    ps3 : St (s_links s3) (s_vehicles s3) (s_seq s3);
    ps4 : St (s_links s4) (s_vehicles s4) (s_seq s4);
    ps5 : St (s_links s5) (s_vehicles s5) (s_seq s5);
    pf1 : flags0 (s_vehicles s1);
    pf2 : flags_ok (s_vehicles s2);
    pn1 : same_net (s_links s) (s_links s1);
    pn2 : same_net (s_links s1) (s_links s2);
    pn3 : same_net (s_links s2) (s_links s3);
    pn4 : s_links s4 = s_links s3;
    pn5 : same_net (s_links s4) (s_links s5);
    pv1 : same_shape (s_vehicles s) (s_vehicles s1);
    pv2 : same_shape (s_vehicles s1) (s_vehicles s2);
    pv3 : s_vehicles s3 = s_vehicles s2;
    pv4 : same_shape (s_vehicles s3) (s_vehicles s4);
    pk2 : forall k v', sm_get (s_vehicles s2) k = Some v' -> exists v, sm_get (s_vehicles s1) k = Some v /\ vkeep v v';
    pl3 : same_shape (s_lights s) (s_lights s3);
    plv12 : same_lists (s_links s1) (s_links s2);
    plv23 : same_lists (s_links s2) (s_links s3)
  }.
  Lemma step_phases e s dt s' : Inv s -> step e s dt = Ok s' -> exists s1 s2 s3 s4 s5, phases e s dt s1 s2 s3 s4 s5 s'.
  Proof.
    intros [St0 F0 LW LI CP FR] H. unfold step in H. bok H s1 H1. bok H s2 H2. bok H s3 H3. bok H s4 H4. bok H s5 H5. bok H s6 H6.
    injection H as <-.
    destruct (safe_ok T _ _ _ (calculate_lane_changes_safe T e s St0 F0 (fun _ _ => I)) H1) as (St1 & F1 & S1 & Sh1 & A1 & A2 & A3 & A4 & A5).
    assert (Forall (fun c => valid (s_links s1) (cpl_link (cp_a c)) /\ valid (s_links s1) (cpl_link (cp_b c))) (s_conflicts s1)) as CP1.
    { rewrite A2. eapply Forall_impl; [|exact CP]. simpl. intros c (Ha & Hb). split; apply (same_net_valid _ _ _ S1); auto. }
    destruct (safe_ok T _ _ _ (sim_apply_accelerations_safe T e s1 St1 F1 (fun _ _ => I) CP1) H2) as (St2 & F2 & S2 & L2 & Sh2 & K2 & B1 & B2 & B3 & B4 & B5).
    assert (forall k l, sm_get (s_lights s2) k = Some l -> light_ok l) as LI2 by (rewrite B1, A1; auto).
    destruct (safe_ok T _ _ _ (update_lights_safe T s2 dt LI2 (fun _ _ => I)) H3) as (S3 & L3 & Sh3 & LI3 & Es3).
    assert (St (s_links s3) (s_vehicles s3) (s_seq s3)) as St3.
    { rewrite Es3. simpl. eapply St_links; eauto.
      - eapply same_net_ok; [exact S3|apply St2].
      - apply same_net_le; auto.
      - eapply Occ_same; [exact L3|apply St2]. }
    assert (s_vehicles s3 = s_vehicles s2) as Ev3 by (rewrite Es3; auto).
    assert (flags_ok (s_vehicles s3)) as F3 by (rewrite Ev3; auto).
    destruct (safe_ok T _ _ _ (sim_integrate_safe T s3 dt St3 F3) H4) as (St4 & F4 & Sq4 & Sh4 & Es4).
    destruct (safe_ok T _ _ _ (advance_vehicles_safe T e s4 St4 F4 (fun _ => I)) H5) as (St5 & F5 & S5 & Es5).
    exists s1, s2, s3, s4, s5. split; auto.
    - unfold pre_advance. rewrite H1. simpl. rewrite H2. simpl. rewrite H3. simpl. auto.
    - eauto.
    - rewrite Es4; auto.
    - rewrite B1, A1 in Sh3. auto.
  Qed.

  (** ** The vehicles after each call *)
  Definition no_vehicle_call (o : op) : bool :=
    match o with OAddVehicle _ _ | ORemoveVehicle _ | OStep _ => false | _ => true end.

  Lemma exec_shape e s o s' : no_vehicle_call o = true -> exec e s o = Ok s' -> same_shape (s_vehicles s) (s_vehicles s').
  Proof.
    intros Hn H. destruct o; simpl in Hn, H; try discriminate.
    - bok H x Hx. unfold add_link in Hx. bok Hx l Hl. injection Hx as <-. injection H as <-. apply shape_refl.
    - unfold add_link_group in H. bok H x1 Hx1. bok H x2 Hx2. bok H x3 Hx3. bok H x4 Hx4. bok H x5 Hx5. injection H as <-. apply shape_refl.
    - unfold add_link_convergance in H. destruct (key_eqb _ _); [injection H as <-; apply shape_refl|].
      destruct (sm_get _ a); [|injection H as <-; apply shape_refl]. destruct (sm_get _ b); [|injection H as <-; apply shape_refl].
      bok H x Hx. destruct x; [|injection H as <-; apply shape_refl]. bok H y Hy. injection H as <-. apply shape_refl.
    - unfold add_link_connection in H. bok H x Hx. bok H y Hy. injection H as <-. apply shape_refl.
    - bok H x Hx. injection H as <-. apply shape_refl.
    - unfold randomise_velocity_adjusts in H. bok H x Hx. destruct x. injection H as <-. eapply sm_mapS_shape; eauto.
    - injection H as <-. unfold set_vehicle_frozen. destruct frozen, (position _ _); apply shape_refl.
    - unfold set_vehicle_destination in H. bok H x Hx. bok H y Hy. injection H as <-. apply shape_set.
    - unfold set_link_control in H. bok H x Hx. injection H as <-. apply shape_refl.
    - apply do_lane_change_ok in H. destruct H as (v0 & v1 & links & l0 & pos & off & slope & _ & _ & _ & _ & _ & Es). rewrite Es. apply shape_set.
  Qed.

  Lemma add_vehicle_ok e s a lid s' k : add_vehicle e s a lid = Ok (s', k) ->
    k = sm_next_key (s_vehicles s) /\ exists v, s_vehicles s' = sm_insert (s_vehicles s) v /\ v_link v = Some lid /\ v_pos v = n0 /\ v_vel v = n0.
  Proof.
    unfold add_vehicle. intros H. bok H v0 Hv0. bok H v Hv. bok H links Hl. injection H as <- <-. split; auto. exists v. simpl. split; auto.
    apply set_location_body in Hv0. destruct Hv0 as (Hb & Hl0 & Hp & _). apply update_coords_ok in Hv. destruct Hv as (Hb2 & _ & Hp2 & Hr2 & _).
    unfold v_link in *. rewrite Hr2, Hp2. split; auto. split; auto. unfold body in *. cbn in *. congruence.
  Qed.
  Lemma remove_vehicle_ok s k s' : Inv s -> sim_remove_vehicle s k = Ok s' -> forall k', sm_get (s_vehicles s') k' = if key_eqb k k' then None else sm_get (s_vehicles s) k'.
  Proof.
    intros I H k'. unfold sim_remove_vehicle in H. destruct (sm_get (s_vehicles s) k) as [v|] eqn:G.
    - assert (s_vehicles s' = sm_remove (s_vehicles s) k) as ->.
      { simpl in H. destruct (v_link v); [|injection H as <-; auto]. bok H x Hx. injection H as <-. auto. }
      rewrite sm_get_remove. auto.
    - injection H as <-. destruct (key_eqb_spec k k'); congruence.
  Qed.
  Lemma remove_vehicle_issued s k s' k' : sim_remove_vehicle s k = Ok s' -> sm_issued (s_vehicles s) k' -> sm_issued (s_vehicles s') k'.
  Proof.
    intros H I. unfold sim_remove_vehicle in H. destruct (sm_get (s_vehicles s) k) as [v|] eqn:G; [|injection H as <-; auto].
    replace (s_vehicles s') with (sm_remove (s_vehicles s) k); [apply issued_remove; auto|].
    simpl in H. destruct (v_link v); [|injection H as <-; auto]. bok H x Hx. injection H as <-. auto.
  Qed.

  (** Every vehicle after a step was there before; what happened to it in between. *)
  Lemma step_vehicles e s dt s' : Inv s -> step e s dt = Ok s' ->
    (forall k, sm_issued (s_vehicles s) k -> sm_issued (s_vehicles s') k) /\
    exists s4, pre_advance e s dt = Ok s4 /\ same_shape (s_vehicles s) (s_vehicles s4) /\ St (s_links s4) (s_vehicles s4) (s_seq s4) /\ same_net (s_links s) (s_links s4) /\
    (forall k v', sm_get (s_vehicles s') k = Some v' -> exists v4 v5, sm_get (s_vehicles s4) k = Some v4 /\ Radv (s_links s4) v4 v5 /\ Rcoords v5 v') /\
    (forall k v4, sm_get (s_vehicles s4) k = Some v4 ->
      exists v5, Radv (s_links s4) v4 v5 /\ (v_route v5 = [] /\ sm_mem (s_vehicles s') k = false \/ v_route v5 <> [] /\ exists v', sm_get (s_vehicles s') k = Some v' /\ Rcoords v5 v')).
  Proof.
    intros I H. destruct (step_phases _ _ _ _ I H) as (s1 & s2 & s3 & s4 & s5 & P). destruct (ph6 _ _ _ _ _ _ _ _ _ P) as (s6 & H6 & ->).
    destruct (advance_vehicles_evo _ _ _ (ph5 _ _ _ _ _ _ _ _ _ P)) as (V1 & V2 & V3 & _).
    destruct (coords_evo _ _ H6) as (C1 & C2 & C3 & _). simpl.
    assert (same_shape (s_vehicles s) (s_vehicles s4)) as Sh.
    { eapply shape_trans; [apply P|]. eapply shape_trans; [apply P|]. rewrite <- (pv3 _ _ _ _ _ _ _ _ _ P). apply P. }
    split.
    - intros k Hk. apply (shape_issued _ _ _ C3). apply V3. apply (shape_issued _ _ _ Sh). auto.
    - exists s4. split; [apply P|]. split; auto. split; [apply P|]. split.
      { rewrite (pn4 _ _ _ _ _ _ _ _ _ P). eapply same_net_trans; [apply P|]. eapply same_net_trans; apply P. }
      split.
      + intros k v' Hk. destruct (C2 _ _ Hk) as (v5 & G5 & R6). destruct (V1 _ _ G5) as (v4 & G4 & R5 & _). eauto.
      + intros k v4 G4. destruct (V2 _ _ G4) as (v5 & R5 & [(E5 & M5)|(E5 & G5)]); exists v5; (split; [exact R5|]).
        * left. split; auto. rewrite <- (shape_mem _ _ k C3). auto.
        * right. split; [exact E5|]. exact (C1 _ _ G5).
  Qed.

  Lemma exec_issued e s o s' k : Inv s -> exec e s o = Ok s' -> sm_issued (s_vehicles s) k -> sm_issued (s_vehicles s') k.
  Proof.
    intros I H Hi. destruct (no_vehicle_call o) eqn:N; [eapply shape_issued; [eapply exec_shape; eauto|auto]|].
    destruct o; try discriminate; simpl in H.
    - bok H x Hx. destruct x as [s1 k1]. injection H as <-. simpl. destruct (add_vehicle_ok _ _ _ _ _ _ Hx) as (_ & v & -> & _).
      apply issued_insert; auto. apply I.
    - eapply remove_vehicle_issued; eauto.
    - apply (step_vehicles _ _ _ _ I H). auto.
  Qed.
  (** A vehicle that exists after a call existed before, or is new. *)
  Lemma exec_mem e s o s' k : Inv s -> exec e s o = Ok s' -> sm_mem (s_vehicles s') k = true ->
    sm_mem (s_vehicles s) k = true \/ ~ sm_issued (s_vehicles s) k /\ exists a l, o = OAddVehicle a l.
  Proof.
    intros I H M. destruct (no_vehicle_call o) eqn:N; [left; rewrite (shape_mem _ _ k (exec_shape _ _ _ _ N H)); auto|].
    destruct o; try discriminate; simpl in H.
    - bok H x Hx. destruct x as [s1 k1]. injection H as <-. simpl in M. destruct (add_vehicle_ok _ _ _ _ _ _ Hx) as (_ & v & E & _).
      rewrite E in M. unfold sm_mem in M. rewrite sm_get_insert in M by apply I. destruct (key_eqb_spec (sm_next_key (s_vehicles s)) k).
      + right. subst k. split; eauto. apply next_key_not_issued. apply I.
      + left. exact M.
    - left. unfold sm_mem in *. rewrite (remove_vehicle_ok _ _ _ I H) in M. destruct (key_eqb _ _); [discriminate|auto].
    - left. destruct (step_vehicles _ _ _ _ I H) as (_ & s4 & _ & Sh & _ & _ & V1 & _). apply sm_mem_get in M. destruct M as (v' & G).
      destruct (V1 _ _ G) as (v4 & v5 & G4 & _). rewrite (shape_mem _ _ k Sh). apply sm_mem_get; eauto.
  Qed.

  (** ** Histories *)
  Lemma exec_Inv e s o s' : Inv s -> exec e s o = Ok s' -> Inv s'.
  Proof. intros I H. eapply safe_ok; [eapply exec_safe; eauto|eauto]. Qed.
  Lemma history_Inv s ops s' : history s ops s' -> Inv s -> Inv s'.
  Proof. intros H. induction H; auto. intros I. apply IHhistory. eapply exec_Inv; eauto. Qed.
  Lemma history_app s ops s' ops' s'' : history s ops s' -> history s' ops' s'' -> history s (ops ++ ops') s''.
  Proof. intros H. induction H; simpl; auto. intros. econstructor; eauto. Qed.
  Lemma history_reachable s ops s' : history s ops s' -> reachable s -> reachable s'.
  Proof. intros H. induction H; auto. intros. apply IHhistory. eapply reach_call; eauto. Qed.
  Lemma reachable_history s : reachable s -> exists ops, history sim_new ops s.
  Proof.
    intros H. induction H.
    - exists []. constructor.
    - destruct IHreachable as (ops & Hh). exists (ops ++ [o]). eapply history_app; eauto. econstructor; eauto. constructor.
  Qed.
  Lemma run_history e s ops s' : run e s ops = Ok s' -> history s ops s'.
  Proof.
    revert s. induction ops as [|o ops IH]; intros s H; simpl in H; [injection H as <-; constructor|].
    bok H s1 H1. econstructor; eauto.
  Qed.
  Lemma history_issued s ops s' k : history s ops s' -> Inv s -> sm_issued (s_vehicles s) k -> sm_issued (s_vehicles s') k.
  Proof. intros H. induction H; auto. intros I Hk. apply IHhistory; [eapply exec_Inv|eapply exec_issued]; eauto. Qed.
  Lemma history_gone s ops s' k : history s ops s' -> Inv s -> sm_issued (s_vehicles s) k -> sm_mem (s_vehicles s) k = false -> sm_mem (s_vehicles s') k = false.
  Proof.
    intros H. induction H; auto. intros I Hk M. apply IHhistory; [eapply exec_Inv|eapply exec_issued|]; eauto.
    destruct (sm_mem (s_vehicles s1) k) eqn:M1; auto. destruct (exec_mem _ _ _ _ _ I H M1) as [?|(?&_)]; [congruence|contradiction].
  Qed.
End StepEvo.
