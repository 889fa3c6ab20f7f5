(** * Lemmas about queue numbers, refresh timers and traffic lights (P_Step.v) *)
From Coq Require Import List Bool ZArith NArith Arith Lia.
From Verif Require Import Arith Base BaseProofs SlotMap Util Geom Light Accel Net Path Vehicle LinkOps Sim SpecSim SlotMapProofs Safe NetInv SimInv AccSafe SimSafe StepSafe OpSafe Evo StepEvo SimProofs LightProofs SpecLight.
Import ListNotations.

Section StepProofs.
  Context {A : Arith}.

  Definition queue_no (vs : vehset) (k : key) (q : nat) : Prop := exists v, sm_get vs k = Some v /\ v_queued v = Some q.

  (** ** Integration hands out new numbers *)
  Lemma integrate_numbers s dt s' : sim_integrate s dt = Ok s' ->
    (forall k1 k2 q, queue_no (s_vehicles s) k1 q -> queue_no (s_vehicles s) k2 q -> k1 = k2) ->
    (forall k q, queue_no (s_vehicles s) k q -> q <= s_seq s) ->
    s_seq s <= s_seq s' /\
    (forall k1 k2 q, queue_no (s_vehicles s') k1 q -> queue_no (s_vehicles s') k2 q -> k1 = k2) /\
    (forall k q, queue_no (s_vehicles s') k q -> queue_no (s_vehicles s) k q \/ s_seq s < q <= s_seq s').
  Proof.
    intros H D B. unfold sim_integrate in H. bok H x Hx. destruct x as [q vs]. injection H as <-. simpl.
    pose proof (sm_mapS_ind (fun q (_ : key) v => integrate v dt q) (fun done todo q =>
      NoDup (map fst (done ++ todo)) /\ s_seq s <= q /\
      (forall k v, In (k, v) todo -> sm_get (s_vehicles s) k = Some v) /\
      (forall k v n, In (k, v) done -> v_queued v = Some n -> queue_no (s_vehicles s) k n \/ s_seq s < n <= q) /\
      (forall k1 k2 v1 v2 n, In (k1, v1) done -> In (k2, v2) done -> v_queued v1 = Some n -> v_queued v2 = Some n -> k1 = k2))) as K.
    specialize (K (s_vehicles s) (s_seq s) q vs). destruct K as (_ & K0 & _ & K1 & K2); auto.
    - intros done k v todo q0 q1 v' (Nd & P0 & P1 & P2 & P3) Hi.
      assert (sm_get (s_vehicles s) k = Some v) as Gv by (apply P1; simpl; auto).
      assert (q0 <= q1 /\ (v_queued v' = v_queued v \/ v_queued v' = None \/ v_queued v' = Some q1 /\ q1 = S q0)) as (Q & Qc).
      { unfold integrate, integrate_queue in Hi. destruct (v_flag v) as [|[|[|]]]; simpl in Hi; try discriminate; injection Hi as <- <-; simpl; auto.
        destruct (v_queued v); auto. }
      assert (forall n, v_queued v' = Some n -> queue_no (s_vehicles s) k n \/ q0 < n <= q1) as Nk.
      { intros n Hn. destruct Qc as [Qc|[Qc|(Qc & Qe)]]; rewrite Qc in Hn.
        - left. exists v. auto.
        - discriminate.
        - injection Hn as <-. right. lia. }
      split; [revert Nd; rewrite !map_app; simpl; rewrite <- app_assoc; auto|]. split; [lia|]. split; [intros; apply P1; simpl; auto|]. split.
      + intros k1 v1 n Hin Hn. apply in_app_iff in Hin. destruct Hin as [Hin|[Hin|[]]].
        * destruct (P2 _ _ _ Hin Hn); auto. right. lia.
        * inversion Hin; subst. destruct (Nk _ Hn); auto. right. lia.
      + assert (forall k1 v1 n, In (k1, v1) done -> v_queued v1 = Some n -> v_queued v' = Some n -> k1 = k) as X.
        { intros k1 v1 n Hin Hn Hn'. destruct (Nk _ Hn') as [C|C]; destruct (P2 _ _ _ Hin Hn) as [C1|C1]; eauto; [apply B in C; lia|apply B in C1; lia|lia]. }
        intros k1 k2 v1 v2 n Hin1 Hin2 Hn1 Hn2. apply in_app_iff in Hin1, Hin2.
        destruct Hin1 as [Hin1|[Hin1|[]]]; destruct Hin2 as [Hin2|[Hin2|[]]]; try (inversion Hin1; subst k1 v1); try (inversion Hin2; subst k2 v2); eauto.
        symmetry. eauto.
    - split; [apply nodup_keys|]. split; auto. split; [intros; apply in_entries; auto|]. split; [intros ? ? ? []|intros ? ? ? ? ? []].
    - split; auto. split.
      + intros k1 k2 n (v1 & G1 & N1) (v2 & G2 & N2). apply in_entries in G1, G2. eauto.
      + intros k n (v & G & Hn). apply in_entries in G. eauto.
  Qed.

  Lemma Radv_queued links v v' : Radv links v v' -> v_queued v' = v_queued v.
  Proof. intros (lid & l & _ & _ & [(_ & ->)|(_ & Hb & _)]); auto. unfold body in Hb. congruence. Qed.
  Lemma Rcoords_queued v v' : Rcoords v v' -> v_queued v' = v_queued v.
  Proof. intros (Hb & _). unfold body in Hb. congruence. Qed.
  Lemma Rlc_queued links v v' : Rlc links v v' -> v_queued v' = v_queued v.
  Proof. intros (Hb & _). unfold body in Hb. congruence. Qed.

  Definition numbers_ok (s : sim) : Prop := forall k1 k2 q, queue_no (s_vehicles s) k1 q -> queue_no (s_vehicles s) k2 q -> k1 = k2.

  Lemma queue_bound s k q : Inv s -> queue_no (s_vehicles s) k q -> 1 <= q <= s_seq s.
  Proof. intros I (v & G & Q). exact (vb_queue _ _ _ _ (st_veh _ _ _ (i_st _ I) _ _ G) _ Q). Qed.

  Lemma exec_seq e s o s' : Inv s -> exec e s o = Ok s' -> is_step o = false -> s_seq s' = s_seq s.
  Proof.
    intros I H Hs. destruct o; simpl in H; try discriminate.
    - bok H x Hx. unfold add_link in Hx. bok Hx l Hl. injection Hx as <-. injection H as <-. auto.
    - unfold add_link_group in H. bok H x1 Hx1. bok H x2 Hx2. bok H x3 Hx3. bok H x4 Hx4. bok H x5 Hx5. injection H as <-. auto.
    - unfold add_link_convergance in H. destruct (key_eqb _ _); [injection H as <-; auto|].
      destruct (sm_get _ a); [|injection H as <-; auto]. destruct (sm_get _ b); [|injection H as <-; auto].
      bok H x Hx. destruct x; [|injection H as <-; auto]. bok H y Hy. injection H as <-. auto.
    - unfold add_link_connection in H. bok H x Hx. bok H y Hy. injection H as <-. auto.
    - bok H x Hx. injection H as <-. auto.
    - bok H x Hx. destruct x as [s1 k]. injection H as <-. unfold add_vehicle in Hx. bok Hx v0 Hv0. bok Hx v Hv. bok Hx links Hl.
      injection Hx as <- <-. auto.
    - unfold sim_remove_vehicle in H. destruct (sm_get _ v) as [v0|]; [|injection H as <-; auto]. simpl in H.
      destruct (v_link v0); [|injection H as <-; auto]. bok H x Hx. injection H as <-. auto.
    - unfold randomise_velocity_adjusts in H. bok H x Hx. injection H as <-. auto.
    - injection H as <-. unfold set_vehicle_frozen. destruct frozen, (position _ _); auto.
    - unfold set_vehicle_destination in H. bok H x Hx. bok H y Hy. injection H as <-. auto.
    - unfold set_link_control in H. bok H x Hx. injection H as <-. auto.
    - apply do_lane_change_ok in H. destruct H as (v0 & v1 & links & l0 & pos & off & slope & _ & _ & _ & _ & _ & Es). rewrite Es. auto.
  Qed.

  Lemma exec_numbers e s o s' : Inv s -> numbers_ok s -> exec e s o = Ok s' ->
    s_seq s <= s_seq s' /\ numbers_ok s' /\
    forall k q, queue_no (s_vehicles s') k q -> queue_no (s_vehicles s) k q \/ s_seq s < q.
  Proof.
    intros I N H. destruct (is_step o) eqn:Es.
    - destruct o; try discriminate. simpl in H.
      destruct (step_phases _ _ _ _ I H) as (s1 & s2 & s3 & s4 & s5 & P). destruct (ph6 _ _ _ _ _ _ _ _ _ P) as (s6 & H6 & ->). simpl.
      assert (forall k q, queue_no (s_vehicles s3) k q -> queue_no (s_vehicles s) k q) as B3.
      { intros k q (v3 & G3 & Q3). rewrite (pv3 _ _ _ _ _ _ _ _ _ P) in G3. destruct (pk2 _ _ _ _ _ _ _ _ _ P _ _ G3) as (v1 & G1 & (a & f & ->)).
        destruct (lane_changes_evo _ _ _ (i_st _ I) (ph1 _ _ _ _ _ _ _ _ _ P) _ _ G1) as (v & G & R). exists v. split; auto.
        rewrite <- (Rlc_queued _ _ _ R). auto. }
      assert (s_seq s3 = s_seq s) as E3.
      { destruct (lights_evo _ _ _ (ph3 _ _ _ _ _ _ _ _ _ P)) as (_ & _ & F3 & _). destruct (acc_fields _ _ _ (ph2 _ _ _ _ _ _ _ _ _ P)) as (F2 & _).
        destruct (lc_fields _ _ _ (ph1 _ _ _ _ _ _ _ _ _ P)) as (F1 & _). congruence. }
      destruct (integrate_numbers _ _ _ (ph4 _ _ _ _ _ _ _ _ _ P)) as (L4 & N4 & B4); eauto.
      { intros k q Hq. apply B3 in Hq. apply queue_bound in Hq; auto. lia. }
      destruct (coords_evo _ _ H6) as (_ & C2 & _ & E6). destruct (advance_vehicles_evo _ _ _ (ph5 _ _ _ _ _ _ _ _ _ P)) as (V1 & _ & _ & E5).
      assert (forall k q, queue_no (s_vehicles s6) k q -> queue_no (s_vehicles s4) k q) as B6.
      { intros k q (v6 & G6 & Q6). destruct (C2 _ _ G6) as (v5 & G5 & R5). destruct (V1 _ _ G5) as (v4 & G4 & R4 & _). exists v4. split; auto.
        rewrite <- (Radv_queued _ _ _ R4), <- (Rcoords_queued _ _ R5). auto. }
      split. { rewrite E6, E5. simpl. lia. }
      split. { intros k1 k2 q Q1 Q2. eauto. }
      intros k q Hq. destruct (B4 _ _ (B6 _ _ Hq)) as [Hq'|Hq']; auto. right. lia.
    - rewrite (exec_seq _ _ _ _ I H Es). split; auto.
      assert (forall k q, queue_no (s_vehicles s') k q -> queue_no (s_vehicles s) k q) as B.
      { intros k q (v' & G' & Q'). destruct (exec_vehicle _ _ _ _ _ _ I H Es G') as [(v & G & _ & _ & _ & Q & _)|(a & l & _ & _ & _ & Q)]; [|congruence].
        exists v. split; congruence. }
      split; auto. intros k1 k2 q Q1 Q2. eauto.
  Qed.
  Lemma reachable_numbers s : reachable s -> numbers_ok s.
  Proof.
    intros R. induction R; [|eapply exec_numbers; eauto; apply reachable_Inv; auto].
    intros k1 k2 q (v & G & _). simpl in G. rewrite sm_get_empty in G. discriminate.
  Qed.
  Lemma history_numbers s ops s' : history s ops s' -> Inv s -> numbers_ok s ->
    s_seq s <= s_seq s' /\ forall k q, queue_no (s_vehicles s') k q -> queue_no (s_vehicles s) k q \/ s_seq s < q.
  Proof.
    intros H. induction H; intros I N; auto. destruct (exec_numbers _ _ _ _ I N H) as (L & N1 & B).
    destruct (IHhistory (exec_Inv _ _ _ _ I H) N1) as (L2 & B2). split; [lia|]. intros k q Hq. destruct (B2 _ _ Hq) as [Hq'|Hq']; auto. right. lia.
  Qed.

  (** ** What a step does to one vehicle's queue number *)
  Lemma step_queue e s dt s' k v v' q : Inv s -> step e s dt = Ok s' -> sm_get (s_vehicles s) k = Some v -> sm_get (s_vehicles s') k = Some v' ->
    v_queued v = Some q ->
    v_queued v' = Some q \/
    v_queued v' = None /\ exists s1 s4 v1 v4, calculate_lane_changes e s = Ok s1 /\ pre_advance e s dt = Ok s4 /\
      sm_get (s_vehicles s1) k = Some v1 /\ sm_get (s_vehicles s4) k = Some v4 /\ v_entered v4 = S (v_entered v1).
  Proof.
    intros I H G G' Q. destruct (step_phases _ _ _ _ I H) as (s1 & s2 & s3 & s4 & s5 & P). destruct (ph6 _ _ _ _ _ _ _ _ _ P) as (s6 & H6 & ->). simpl in G'.
    destruct (coords_evo _ _ H6) as (_ & C2 & _ & E6). destruct (advance_vehicles_evo _ _ _ (ph5 _ _ _ _ _ _ _ _ _ P)) as (V1 & _ & _ & E5).
    destruct (C2 _ _ G') as (v5 & G5 & R5). destruct (V1 _ _ G5) as (v4 & G4 & R4 & _).
    destruct (integrate_evo _ _ _ (ph4 _ _ _ _ _ _ _ _ _ P)) as (_ & K & _). destruct (K _ _ G4) as (v3 & q1 & q2 & G3 & Hi & _).
    rewrite (pv3 _ _ _ _ _ _ _ _ _ P) in G3. destruct (pk2 _ _ _ _ _ _ _ _ _ P _ _ G3) as (v1 & G1 & Kp).
    destruct (lane_changes_evo _ _ _ (i_st _ I) (ph1 _ _ _ _ _ _ _ _ _ P) _ _ G1) as (v0 & G0 & R).
    assert (v0 = v) by congruence. subst v0.
    rewrite (Rcoords_queued _ _ R5), (Radv_queued _ _ _ R4).
    assert (v_queued v3 = Some q /\ v_entered v3 = v_entered v1) as (Q3 & E3).
    { destruct Kp as (a & f & ->). cbn. split; auto. rewrite (Rlc_queued _ _ _ R). auto. }
    unfold integrate, integrate_queue in Hi. destruct (v_flag v3) as [|[|[|]]]; simpl in Hi; try discriminate; injection Hi as _ Hv4.
    - left. rewrite <- Hv4. simpl. auto.
    - left. rewrite <- Hv4. simpl. rewrite Q3. auto.
    - right. split. { rewrite <- Hv4. auto. } exists s1, s4, v1, v4. split; [apply P|]. split; [apply P|]. split; auto. split; auto.
      rewrite <- Hv4. simpl. congruence.
  Qed.

  (** ** Timers *)
  Lemma exec_timers e s o s' : Inv s -> exec e s o = Ok s' -> is_step o = false -> s_acc_update s' = s_acc_update s /\ s_lc_update s' = s_lc_update s.
  Proof.
    intros I H Hs. destruct o; simpl in H; try discriminate.
    - bok H x Hx. unfold add_link in Hx. bok Hx l Hl. injection Hx as <-. injection H as <-. auto.
    - unfold add_link_group in H. bok H x1 Hx1. bok H x2 Hx2. bok H x3 Hx3. bok H x4 Hx4. bok H x5 Hx5. injection H as <-. auto.
    - unfold add_link_convergance in H. destruct (key_eqb _ _); [injection H as <-; auto|].
      destruct (sm_get _ a); [|injection H as <-; auto]. destruct (sm_get _ b); [|injection H as <-; auto].
      bok H x Hx. destruct x; [|injection H as <-; auto]. bok H y Hy. injection H as <-. auto.
    - unfold add_link_connection in H. bok H x Hx. bok H y Hy. injection H as <-. auto.
    - bok H x Hx. injection H as <-. auto.
    - bok H x Hx. destruct x as [s1 k]. injection H as <-. unfold add_vehicle in Hx. bok Hx v0 Hv0. bok Hx v Hv. bok Hx links Hl.
      injection Hx as <- <-. auto.
    - unfold sim_remove_vehicle in H. destruct (sm_get _ v) as [v0|]; [|injection H as <-; auto]. simpl in H.
      destruct (v_link v0); [|injection H as <-; auto]. bok H x Hx. injection H as <-. auto.
    - unfold randomise_velocity_adjusts in H. bok H x Hx. injection H as <-. auto.
    - injection H as <-. unfold set_vehicle_frozen. destruct frozen, (position _ _); auto.
    - unfold set_vehicle_destination in H. bok H x Hx. bok H y Hy. injection H as <-. auto.
    - unfold set_link_control in H. bok H x Hx. injection H as <-. auto.
    - apply do_lane_change_ok in H. destruct H as (v0 & v1 & links & l0 & pos & off & slope & _ & _ & _ & _ & _ & Es). rewrite Es. auto.
  Qed.
  Lemma step_timers e s dt s' : Inv s -> step e s dt = Ok s' ->
    s_acc_update s' = nadd (if nltb (s_acc_update s) ACCELERATION_UPDATE_SEC then s_acc_update s else n0) dt /\
    s_lc_update s' = nadd (if nltb (s_lc_update s) LANE_CHANGE_UPDATE_SEC then s_lc_update s else n0) dt.
  Proof.
    intros I H. destruct (step_phases _ _ _ _ I H) as (s1 & s2 & s3 & s4 & s5 & P). destruct (ph6 _ _ _ _ _ _ _ _ _ P) as (s6 & H6 & ->). simpl.
    destruct (coords_evo _ _ H6) as (_ & _ & _ & E6). destruct (advance_vehicles_evo _ _ _ (ph5 _ _ _ _ _ _ _ _ _ P)) as (_ & _ & _ & E5).
    destruct (integrate_evo _ _ _ (ph4 _ _ _ _ _ _ _ _ _ P)) as (_ & _ & E4). rewrite E6, E5, E4. simpl.
    destruct (lights_evo _ _ _ (ph3 _ _ _ _ _ _ _ _ _ P)) as (_ & _ & _ & _ & F3a & F3b). rewrite F3a, F3b.
    destruct (acc_fields _ _ _ (ph2 _ _ _ _ _ _ _ _ _ P)) as (_ & _ & _ & F2a & _ & F2b). rewrite F2a, F2b.
    destruct (lc_fields _ _ _ (ph1 _ _ _ _ _ _ _ _ _ P)) as (_ & _ & _ & _ & F1a & _ & F1b). rewrite F1a, F1b. auto.
  Qed.

  Lemma acc_kept e s s' : nltb (s_acc_update s) ACCELERATION_UPDATE_SEC = true -> sim_apply_accelerations e s = Ok s' -> s' = s.
  Proof. unfold sim_apply_accelerations. intros ->. intros H. injection H as <-. auto. Qed.
  Lemma lc_kept e s s' : nltb (s_lc_update s) LANE_CHANGE_UPDATE_SEC = true -> calculate_lane_changes e s = Ok s' -> s' = s.
  Proof. unfold calculate_lane_changes. intros ->. intros H. injection H as <-. auto. Qed.

  Lemma step_vehicle_parts e s dt s' k v' : Inv s -> step e s dt = Ok s' -> sm_get (s_vehicles s') k = Some v' ->
    exists s1 s2 s3 s4 s5 v v1 v2 v4 v5 q q', phases e s dt s1 s2 s3 s4 s5 s' /\
      sm_get (s_vehicles s) k = Some v /\ sm_get (s_vehicles s1) k = Some v1 /\ sm_get (s_vehicles s2) k = Some v2 /\ sm_get (s_vehicles s4) k = Some v4 /\
      Rlc (s_links s) v v1 /\ vkeep v1 v2 /\ integrate v2 dt q = Ok (q', v4) /\ Radv (s_links s4) v4 v5 /\ Rcoords v5 v'.
  Proof.
    intros I H G'. destruct (step_phases _ _ _ _ I H) as (s1 & s2 & s3 & s4 & s5 & P). pose proof (ph6 _ _ _ _ _ _ _ _ _ P) as (s6 & H6 & Es). rewrite Es in G'. simpl in G'.
    destruct (coords_evo _ _ H6) as (_ & C2 & _ & E6). destruct (advance_vehicles_evo _ _ _ (ph5 _ _ _ _ _ _ _ _ _ P)) as (V1 & _ & _ & E5).
    destruct (C2 _ _ G') as (v5 & G5 & R5). destruct (V1 _ _ G5) as (v4 & G4 & R4 & _).
    destruct (integrate_evo _ _ _ (ph4 _ _ _ _ _ _ _ _ _ P)) as (_ & K & _). destruct (K _ _ G4) as (v3 & q1 & q2 & G3 & Hi & _).
    rewrite (pv3 _ _ _ _ _ _ _ _ _ P) in G3. destruct (pk2 _ _ _ _ _ _ _ _ _ P _ _ G3) as (v1 & G1 & Kp).
    destruct (lane_changes_evo _ _ _ (i_st _ I) (ph1 _ _ _ _ _ _ _ _ _ P) _ _ G1) as (v0 & G0 & R).
    exists s1, s2, s3, s4, s5, v0, v1, v3, v4, v5, q1, q2. auto 15.
  Qed.

  (** ** Traffic lights and links *)
  Definition ctl (links : linkset) (lid : key) : option control := option_map lk_control (sm_get links lid).
  Lemma upd_control links k c links' lid : upd_link links k (fun l => Ok (set_control l c)) = Ok links' ->
    ctl links' lid = if key_eqb k lid then Some c else ctl links lid.
  Proof.
    unfold upd_link, get_link, ctl. intros H. destruct (sm_get links k) as [l|] eqn:G; [|discriminate]. simpl in H. injection H as <-.
    rewrite sm_get_set. replace (sm_mem links k) with true by (symmetry; apply sm_mem_get; eauto).
    destruct (key_eqb_spec k lid); simpl; auto.
  Qed.
  Lemma fold_control sts links links' lid : foldM (fun links kc => upd_link links (fst kc) (fun l => Ok (set_control l (snd kc)))) sts links = Ok links' ->
    (forall c0, (forall c, In (lid, c) sts -> c = c0) -> In (lid, c0) sts \/ ctl links lid = Some c0 -> ctl links' lid = Some c0) /\
    (~ In lid (map fst sts) -> ctl links' lid = ctl links lid).
  Proof.
    revert links. induction sts as [|[k c] sts IH]; intros links H; simpl in H.
    - injection H as <-. simpl. split; auto. intros c0 _ [[]|]; auto.
    - bok H ls Hls. destruct (IH _ H) as (I1 & I2). pose proof (upd_control _ _ _ _ lid Hls) as U. simpl in *. split.
      + intros c0 Hc Hor. apply I1; [auto|]. destruct (key_eqb_spec k lid).
        * subst. right. rewrite U. f_equal. auto.
        * destruct Hor as [[E|]|]; auto; [congruence|]. right. congruence.
      + intros Hn. rewrite I2 by tauto. rewrite U. destruct (key_eqb_spec k lid); auto. subst. exfalso. auto.
  Qed.

  Lemma get_states_in l sts lid c : get_states l = Ok sts -> In (lid, c) sts <-> exists i m, In (i, lid) (l_mlinks l) /\ nth_error (l_movements l) i = Some m /\ c = control_of (m_state m).
  Proof.
    unfold get_states. revert sts. induction (l_mlinks l) as [|[i k] ml IH]; intros sts H; simpl in H.
    - injection H as <-. simpl. split; [intros []|intros (? & ? & [] & _)].
    - bok H m Hm. bok Hm mv Hmv. injection Hm as <-. bok H r Hr. injection H as <-. apply of_option_ok in Hmv. simpl. rewrite (IH _ Hr). split.
      + intros [E|(j & m & Hin & Hn & ->)].
        * injection E as <- <-. exists i, mv. auto.
        * exists j, m. auto.
      + intros (j & m & [E|Hin] & Hn & ->).
        * injection E as -> ->. left. congruence.
        * right. exists j, m. auto.
  Qed.

  (** What a light reports for movement [i], as a link control. *)
  Definition shown (l : light) (i : nat) : control := match signal l i with Some Green => COpen | _ => CClosed end.
  Lemma shown_of l i m : nth_error (l_movements l) i = Some m -> shown l i = control_of (m_state m).
  Proof. intros H. unfold shown, signal, light_states. rewrite nth_error_map, H. simpl. destruct (m_state m); auto. Qed.

  (** Only one movement of one light controls the link. *)
  Definition only_controller (lights : slotmap light) (k : key) (i : nat) (lid : key) : Prop :=
    forall k2 l2 i2, sm_get lights k2 = Some l2 -> In (i2, lid) (l_mlinks l2) -> k2 = k /\ i2 = i.

  Lemma update_lights_control s dt s' : update_lights s dt = Ok s' ->
    forall k l' i lid, sm_get (s_lights s') k = Some l' -> In (i, lid) (l_mlinks l') -> only_controller (s_lights s') k i lid ->
      ctl (s_links s') lid = Some (shown l' i).
  Proof.
    intros H. unfold update_lights in H. bok H x Hx. destruct x as [links lights]. injection H as <-. simpl.
    set (f := fun links (_ : key) l => bind (light_step l dt) (fun l => bind (get_states l) (fun sts =>
       bind (foldM (fun links kc => upd_link links (fst kc) (fun l => Ok (set_control l (snd kc)))) sts links) (fun links => Ok (links, l))))) in *.
    pose proof (sm_mapS_ind f (fun done todo (links : linkset) =>
      NoDup (map fst (done ++ todo)) /\
      forall k l' i lid, In (k, l') done -> In (i, lid) (l_mlinks l') ->
        (forall k2 l2 i2, In (k2, l2) (done ++ todo) -> In (i2, lid) (l_mlinks l2) -> k2 = k /\ i2 = i) ->
        ctl links lid = Some (shown l' i))) as K.
    specialize (K (s_lights s) (s_links s) links lights). destruct K as (_ & K); auto.
    - intros done k v todo links0 links1 v' (Nd & P) Hf. unfold f in Hf. bok Hf v1 Hs. bok Hf sts Hg. bok Hf links2 Hu. injection Hf as <- <-.
      assert (l_mlinks v1 = l_mlinks v) as Em. { apply light_step_ok in Hs. destruct Hs as (? & ? & Hs). intuition congruence. }
      assert (map fst ((done ++ [(k, v1)]) ++ todo) = map fst (done ++ (k, v) :: todo)) as Ef.
      { rewrite !map_app. simpl. rewrite <- app_assoc. auto. }
      split; [rewrite Ef; auto|].
      assert (forall lid c, In (lid, c) sts <-> exists i m, In (i, lid) (l_mlinks v1) /\ nth_error (l_movements v1) i = Some m /\ c = control_of (m_state m)) as Gs.
      { intros. apply get_states_in; auto. }
      intros k1 l1 i lid Hin Hi Hu1. destruct (fold_control _ _ _ lid Hu) as (F1 & F2).
      apply in_app_iff in Hin. destruct Hin as [Hin|[Hin|[]]].
      + assert (k1 <> k) as Hne.
        { intros ->. rewrite map_app in Nd. simpl in Nd. apply NoDup_remove_2 in Nd. apply Nd. rewrite in_app_iff. left. eapply in_fst_map; eauto. }
        rewrite F2.
        * apply (P k1 l1 i lid Hin Hi). intros k2 l2 i2 Hin2 Hi2. apply in_app_iff in Hin2. destruct Hin2 as [Hin2|[Hin2|Hin2]].
          -- apply (Hu1 k2 l2 i2); auto. rewrite !in_app_iff. auto.
          -- inversion Hin2; subst k2 l2. apply (Hu1 k v1 i2); [rewrite !in_app_iff; simpl; auto|congruence].
          -- apply (Hu1 k2 l2 i2); auto. rewrite !in_app_iff. auto.
        * intros Hc. apply in_map_iff in Hc. destruct Hc as ((lid2 & c) & E & Hc). simpl in E. subst lid2. apply Gs in Hc.
          destruct Hc as (j & m & Hj & _). destruct (Hu1 k v1 j) as (E & _); auto. rewrite !in_app_iff. simpl. auto.
      + injection Hin as <- <-. apply F1.
        * intros c Hc. apply Gs in Hc. destruct Hc as (j & m & Hj & Hm & ->). destruct (Hu1 k v1 j) as (_ & ->); auto; [rewrite !in_app_iff; simpl; auto|].
          symmetry. apply shown_of; auto.
        * left. apply Gs. assert (exists m, nth_error (l_movements v1) i = Some m) as (m & Hm).
          { clear -Hg Hi. unfold get_states in Hg. revert sts Hg. induction (l_mlinks v1) as [|[j y] ml IH]; intros sts Hg; simpl in *; [contradiction|].
            bok Hg m Hm. bok Hm mv Hmv. bok Hg r Hr. apply of_option_ok in Hmv. destruct Hi as [E|Hi]; [injection E as -> ->; eauto|eauto]. }
          exists i, m. repeat split; auto. apply shown_of; auto.
    - split; [apply nodup_keys|]. intros ? ? ? ? [].
    - intros k l' i lid G Hi Ho. apply (K k l' i lid); auto; [apply in_entries; auto|]. rewrite app_nil_r. intros k2 l2 i2 Hin. apply in_entries in Hin. eauto.
  Qed.

  Lemma set_vehicles_ctl links k l vs lid : sm_get links k = Some l -> ctl (sm_set links k (set_vehicles l vs)) lid = ctl links lid.
  Proof.
    intros G. unfold ctl. rewrite sm_get_set. destruct (key_eqb_spec k lid); simpl; auto. subst.
    replace (sm_mem links lid) with true by (symmetry; apply sm_mem_get; eauto). rewrite G. auto.
  Qed.
  Lemma upd_vehicles_ctl links k f links' lid : upd_link links k f = Ok links' -> (forall l l', f l = Ok l' -> exists vs, l' = set_vehicles l vs) -> ctl links' lid = ctl links lid.
  Proof.
    unfold upd_link, get_link. intros H Hf. destruct (sm_get links k) as [l|] eqn:G; [|discriminate]. simpl in H. bok H l' Hl'. injection H as <-.
    destruct (Hf _ _ Hl') as (vs & ->). apply set_vehicles_ctl; auto.
  Qed.
  Lemma remove_vehicle_set k l : exists vs, remove_vehicle k l = set_vehicles l vs.
  Proof. unfold remove_vehicle. destruct (rposition _ _); [eauto|]. exists (lk_vehicles l). destruct l; auto. Qed.
  Lemma insert_vehicle_set vs k l l' : insert_vehicle vs k l = Ok l' -> exists x, l' = set_vehicles l x.
  Proof. unfold insert_vehicle. intros H. bok H v Hv. bok H i Hi. injection H as <-. eauto. Qed.
  Lemma advance_ctl e s s' lid : advance_vehicles e s = Ok s' -> ctl (s_links s') lid = ctl (s_links s) lid.
  Proof.
    unfold advance_vehicles. intros H. bok H x Hx. destruct x as [[links [adv ex]] vs]. bok H links2 H2. injection H as <-. simpl.
    assert (ctl links lid = ctl (s_links s) lid) as <-.
    { apply (sm_mapS_ind (advance_one e) (fun _ _ st => ctl (fst st) lid = ctl (s_links s) lid)) with (2 := Hx); auto.
      intros done k v todo [ls [ad ex0]] [ls' [ad' ex']] v' P Ho. simpl in *. rewrite <- P. unfold advance_one in Ho.
      bok Ho lk Hl. bok Ho bv Ha. destruct bv as [[|] v2]; simpl in Ho.
      - bok Ho ls2 Hu. assert (ls' = ls2) as -> by (destruct (v_link v2); injection Ho as <- <- <- <-; auto).
        eapply upd_vehicles_ctl; eauto. intros l l' E. injection E as <-. apply remove_vehicle_set.
      - injection Ho as <- <- <- <-. auto. }
    clear Hx. revert links H2. induction adv as [|vl adv IH]; intros links H2; simpl in H2; [injection H2 as <-; auto|].
    bok H2 ls Hls. rewrite (IH _ H2). eapply upd_vehicles_ctl; eauto. intros l l' E. eapply insert_vehicle_set; eauto.
  Qed.

  Lemma step_control e s dt s' : Inv s -> step e s dt = Ok s' ->
    forall k l' i lid, sm_get (s_lights s') k = Some l' -> In (i, lid) (l_mlinks l') -> only_controller (s_lights s') k i lid ->
      ctl (s_links s') lid = Some (shown l' i).
  Proof.
    intros I H. destruct (step_phases _ _ _ _ I H) as (s1 & s2 & s3 & s4 & s5 & P). destruct (ph6 _ _ _ _ _ _ _ _ _ P) as (s6 & H6 & ->). simpl.
    destruct (coords_evo _ _ H6) as (_ & _ & _ & E6). pose proof (ph5 _ _ _ _ _ _ _ _ _ P) as H5. destruct (advance_vehicles_evo _ _ _ H5) as (_ & _ & _ & E5).
    destruct (integrate_evo _ _ _ (ph4 _ _ _ _ _ _ _ _ _ P)) as (_ & _ & E4).
    intros k l' i lid G Hi Ho. rewrite E6 in *. simpl in *. rewrite (advance_ctl _ _ _ lid H5). rewrite E5 in G, Ho. simpl in G, Ho.
    rewrite (pn4 _ _ _ _ _ _ _ _ _ P). rewrite E4 in G, Ho. simpl in G, Ho.
    exact (update_lights_control _ _ _ (ph3 _ _ _ _ _ _ _ _ _ P) _ _ _ _ G Hi Ho).
  Qed.

  (** The links of a light are those given to [add_movement]. *)
  Lemma movement_links_app a b : movement_links (a ++ b) = movement_links a ++ movement_links b.
  Proof. apply flat_map_app. Qed.
  Lemma movement_links_length ops : length (movement_links ops) = length (movements_of ops).
  Proof. unfold movement_links, movements_of. induction ops as [|[]]; simpl; auto. Qed.
  Lemma lrun_mlinks ops l : lrun ops = Ok l -> length (movements_of ops) <= 256 ->
    forall i lid, In (i, lid) (l_mlinks l) <-> exists ks, nth_error (movement_links ops) i = Some ks /\ In lid ks.
  Proof.
    revert ops l. apply (lrun_ind (fun ops l => length (movements_of ops) <= 256 ->
      forall i lid, In (i, lid) (l_mlinks l) <-> exists ks, nth_error (movement_links ops) i = Some ks /\ In lid ks)).
    - intros _. simpl. intros i lid. split; [intros []|]. intros (ks & Hn & _). destruct i; discriminate.
    - intros ops l o l' Hr IH Ho Hm. rewrite movements_of_app, app_length in Hm. rewrite movement_links_app.
      specialize (IH ltac:(lia)). pose proof (cfg_length _ _ (lrun_cfg _ _ Hr)) as Hc. pose proof (movement_links_length ops) as Hl.
      destruct o as [c a r ks|m d|dt]; simpl in Ho.
      + cbn in Hm. injection Ho as <-. unfold add_movement. cbn [l_movements l_mlinks].
        intros i lid. rewrite in_app_iff, IH, in_map_iff.
        assert (length (l_movements l) mod 256 = length (movement_links ops)) as Em. { rewrite Hl, Hc. apply Nat.mod_small. lia. }
        rewrite Em. cbn [movement_links flat_map app]. split.
        * intros [(ks' & Hn & Hin)|(k & E & Hin)].
          -- exists ks'. split; auto. rewrite nth_error_app1; auto. apply nth_error_Some. congruence.
          -- injection E as <- <-. exists ks. split; auto. rewrite nth_error_app2, Nat.sub_diag; auto.
        * intros (ks' & Hn & Hin). destruct (Nat.lt_ge_cases i (length (movement_links ops))) as [L|L].
          -- rewrite nth_error_app1 in Hn by auto. left. eauto.
          -- rewrite nth_error_app2 in Hn by auto. destruct (i - length (movement_links ops)) as [|[|]] eqn:Ei; simpl in Hn; try discriminate.
             injection Hn as ->. right. exists lid. split; auto. f_equal. lia.
      + injection Ho as <-. cbn [movement_links flat_map]. rewrite app_nil_r. auto.
      + apply light_step_ok in Ho. destruct Ho as (ph & p & Ho). cbn [movement_links flat_map]. rewrite app_nil_r.
        assert (l_mlinks l' = l_mlinks l) as -> by intuition congruence. auto.
  Qed.

  (** Every light of a simulation went through a history of its own. *)
  Lemma update_lights_lights s dt s' : update_lights s dt = Ok s' ->
    forall k l', sm_get (s_lights s') k = Some l' -> exists l, sm_get (s_lights s) k = Some l /\ light_step l dt = Ok l'.
  Proof.
    intros H. unfold update_lights in H. bok H x Hx. destruct x as [links lights]. injection H as <-. simpl.
    match type of Hx with sm_mapS ?f _ _ = _ => pose proof (sm_mapS_ind f (fun done todo _ =>
      (forall k v, In (k, v) todo -> sm_get (s_lights s) k = Some v) /\
      forall k l', In (k, l') done -> exists l, sm_get (s_lights s) k = Some l /\ light_step l dt = Ok l')) as K end.
    specialize (K (s_lights s) (s_links s) links lights). destruct K as (_ & K); auto.
    - intros done k v todo ls ls' v' (P1 & P2) Hf. bok Hf v1 Hs. bok Hf sts Hg. bok Hf ls2 Hu. injection Hf as <- <-. split; [intros; apply P1; simpl; auto|].
      intros k1 l1 Hin. apply in_app_iff in Hin. destruct Hin as [Hin|[Hin|[]]]; auto. injection Hin as <- <-. exists v. split; auto. apply P1. simpl. auto.
    - split; [intros; apply in_entries; auto|intros ? ? []].
    - intros k l' G. apply K, in_entries. auto.
  Qed.
  Lemma step_lights e s dt s' k l' : Inv s -> step e s dt = Ok s' -> sm_get (s_lights s') k = Some l' ->
    exists l, sm_get (s_lights s) k = Some l /\ light_step l dt = Ok l'.
  Proof.
    intros I H. destruct (step_phases _ _ _ _ I H) as (s1 & s2 & s3 & s4 & s5 & P). destruct (ph6 _ _ _ _ _ _ _ _ _ P) as (s6 & H6 & ->). simpl.
    destruct (coords_evo _ _ H6) as (_ & _ & _ & E6). destruct (advance_vehicles_evo _ _ _ (ph5 _ _ _ _ _ _ _ _ _ P)) as (_ & _ & _ & E5).
    destruct (integrate_evo _ _ _ (ph4 _ _ _ _ _ _ _ _ _ P)) as (_ & _ & E4). rewrite E6, E5, E4. simpl. intros G.
    destruct (update_lights_lights _ _ _ (ph3 _ _ _ _ _ _ _ _ _ P) _ _ G) as (l & Gl & Hl). exists l. split; auto.
    destruct (acc_fields _ _ _ (ph2 _ _ _ _ _ _ _ _ _ P)) as (_ & F2 & _). destruct (lc_fields _ _ _ (ph1 _ _ _ _ _ _ _ _ _ P)) as (_ & F1 & _). congruence.
  Qed.
  Lemma other_lights e s o s' k l : Inv s -> exec e s o = Ok s' -> is_step o = false -> sm_get (s_lights s') k = Some l ->
    sm_get (s_lights s) k = Some l \/ exists calls, o = OAddLight calls /\ lrun calls = Ok l.
  Proof.
    intros I H Hs. destruct o; simpl in H; try discriminate.
    - bok H x Hx. unfold add_link in Hx. bok Hx l0 Hl. injection Hx as <-. injection H as <-. auto.
    - unfold add_link_group in H. bok H x1 Hx1. bok H x2 Hx2. bok H x3 Hx3. bok H x4 Hx4. bok H x5 Hx5. injection H as <-. auto.
    - unfold add_link_convergance in H. destruct (key_eqb _ _); [injection H as <-; auto|].
      destruct (sm_get _ a); [|injection H as <-; auto]. destruct (sm_get _ b); [|injection H as <-; auto].
      bok H x Hx. destruct x; [|injection H as <-; auto]. bok H y Hy. injection H as <-. auto.
    - unfold add_link_connection in H. bok H x Hx. bok H y Hy. injection H as <-. auto.
    - bok H x Hx. injection H as <-. simpl. rewrite sm_get_insert by apply I. destruct (key_eqb _ k); auto.
      intros E. injection E as ->. right. eauto.
    - bok H x Hx. destruct x as [s1 k0]. injection H as <-. unfold add_vehicle in Hx. bok Hx v0 Hv0. bok Hx v Hv. bok Hx links Hl.
      injection Hx as <- <-. auto.
    - unfold sim_remove_vehicle in H. destruct (sm_get _ v) as [v0|]; [|injection H as <-; auto]. simpl in H.
      destruct (v_link v0); [|injection H as <-; auto]. bok H x Hx. injection H as <-. auto.
    - unfold randomise_velocity_adjusts in H. bok H x Hx. injection H as <-. auto.
    - injection H as <-. unfold set_vehicle_frozen. destruct frozen, (position _ _); auto.
    - unfold set_vehicle_destination in H. bok H x Hx. bok H y Hy. injection H as <-. auto.
    - unfold set_link_control in H. bok H x Hx. injection H as <-. auto.
    - apply do_lane_change_ok in H. destruct H as (v0 & v1 & links & lk0 & pos & off & slope & _ & _ & _ & _ & _ & Es). rewrite Es. auto.
  Qed.
  Lemma lrun_snoc ops l dt l' : lrun ops = Ok l -> light_step l dt = Ok l' -> lrun (ops ++ [LStep dt]) = Ok l'.
  Proof.
    unfold lrun. generalize light_new. induction ops as [|o ops IH]; intros l0 H H'; simpl in *.
    - injection H as ->. rewrite H'. auto.
    - bok H l1 Hl. rewrite Hl. simpl. auto.
  Qed.
  Lemma reachable_light s k l : reachable s -> sm_get (s_lights s) k = Some l -> exists ops, lrun ops = Ok l.
  Proof.
    intros R. revert k l. induction R; intros k l G.
    - simpl in G. rewrite sm_get_empty in G. discriminate.
    - pose proof (reachable_Inv _ R) as I. destruct (is_step o) eqn:Es.
      + destruct o; try discriminate. destruct (step_lights _ _ _ _ _ _ I H G) as (l0 & G0 & Hl). destruct (IHR _ _ G0) as (ops & Ho).
        exists (ops ++ [LStep dt]). eapply lrun_snoc; eauto.
      + destruct (other_lights _ _ _ _ _ _ I H Es G) as [G0|(calls & _ & Hc)]; eauto.
  Qed.

  (** ** The clocks *)
  Lemma clock_app lim t a b : clock lim t (a ++ b) = clock lim (clock lim t a) b.
  Proof. revert t. induction a as [|d a IH]; intros t; simpl; auto. Qed.
  Lemma history_timers_from s ops s' : history s ops s' -> Inv s ->
    s_acc_update s' = clock ACCELERATION_UPDATE_SEC (s_acc_update s) (time_steps ops) /\
    s_lc_update s' = clock LANE_CHANGE_UPDATE_SEC (s_lc_update s) (time_steps ops).
  Proof.
    intros H. induction H; intros I; simpl; auto. destruct (IHhistory (exec_Inv _ _ _ _ I H)) as (E1 & E2). destruct (is_step o) eqn:Es.
    - destruct o; try discriminate Es. simpl in H. destruct (step_timers _ _ _ _ I H) as (T1 & T2). simpl. rewrite E1, E2, T1, T2. auto.
    - destruct (exec_timers _ _ _ _ I H Es) as (T1 & T2). rewrite E1, E2, T1, T2. destruct o; try discriminate Es; auto.
  Qed.
  Lemma history_timers ops s : history sim_new ops s ->
    s_acc_update s = clock (lit 1 10) n0 (time_steps ops) /\ s_lc_update s = clock (lit 3 10) n0 (time_steps ops).
  Proof. intros H. exact (history_timers_from _ _ _ H Inv_new). Qed.
  Lemma due_false lim t ops : t = clock lim n0 (time_steps ops) -> due lim ops = false -> nltb t lim = true.
  Proof. intros -> H. unfold due in H. apply negb_false_iff in H. auto. Qed.
  Lemma due_true lim t ops : t = clock lim n0 (time_steps ops) -> due lim ops = true -> nltb t lim = false.
  Proof. intros -> H. unfold due in H. apply negb_true_iff in H. auto. Qed.
  Lemma step_keeps_acc e s dt s' k v v' : Inv s -> step e s dt = Ok s' -> nltb (s_acc_update s) ACCELERATION_UPDATE_SEC = true ->
    sm_get (s_vehicles s) k = Some v -> sm_get (s_vehicles s') k = Some v' -> am_acc (v_acc v') = am_acc (v_acc v).
  Proof.
    intros I H T G G'. destruct (step_vehicle_parts _ _ _ _ _ _ I H G') as (s1 & s2 & s3 & s4 & s5 & v0 & v1 & v2 & v4 & v5 & q & q' & P & G0 & G1 & G2 & G4 & R1 & Kp & Hi & R5 & R6).
    assert (v0 = v) by congruence. subst v0.
    assert (s2 = s1) as ->. { eapply acc_kept; [|exact (ph2 _ _ _ _ _ _ _ _ _ P)]. destruct (lc_fields _ _ _ (ph1 _ _ _ _ _ _ _ _ _ P)) as (_ & _ & _ & _ & -> & _). auto. }
    assert (v2 = v1) by congruence. subst v2. destruct R1 as (B1 & _). destruct R6 as (B6 & _).
    destruct (integrate_ok _ _ _ _ _ Hi) as (_ & _ & _ & _ & E4 & _).
    assert (v_acc v5 = v_acc v4) as E5. { destruct R5 as (lid & l & _ & _ & [(_ & ->)|(_ & B5 & _)]); auto. unfold body in B5. congruence. }
    unfold body in B1, B6. congruence.
  Qed.
  Lemma step_keeps_lanes e s dt s' k v v' : Inv s -> step e s dt = Ok s' -> nltb (s_lc_update s) LANE_CHANGE_UPDATE_SEC = true ->
    sm_get (s_vehicles s) k = Some v -> sm_get (s_vehicles s') k = Some v' -> v_route v' = v_route v \/ v_route v' = tl (v_route v).
  Proof.
    intros I H T G G'. destruct (step_vehicle_parts _ _ _ _ _ _ I H G') as (s1 & s2 & s3 & s4 & s5 & v0 & v1 & v2 & v4 & v5 & q & q' & P & G0 & G1 & G2 & G4 & R1 & Kp & Hi & R5 & R6).
    assert (s1 = s) as -> by (eapply lc_kept; [exact T|exact (ph1 _ _ _ _ _ _ _ _ _ P)]).
    assert (v1 = v) by congruence. subst v1. destruct R6 as (_ & _ & _ & E6 & _). destruct Kp as (a & f & ->).
    assert (v_route v4 = v_route v) as E4. { destruct (integrate_ok _ _ _ _ _ Hi) as (_ & _ & _ & _ & _ & _ & E & _). rewrite E. auto. }
    rewrite E6, <- E4. destruct R5 as (lid & l & _ & _ & [(_ & ->)|(_ & _ & E5 & _)]); auto.
  Qed.
End StepProofs.
