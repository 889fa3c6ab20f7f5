(** * Lemmas about the motion of vehicles (P_Motion.v) *)
From Coq Require Import List Bool ZArith NArith Arith Lia.
From Verif Require Import Arith Base BaseProofs SlotMap Util Geom Light Accel Net Path Vehicle LinkOps Sim SpecSim SlotMapProofs Safe NetInv SimInv AccSafe SimSafe StepSafe OpSafe Evo StepEvo SimProofs StepProofs Ord LogProofs.
Import ListNotations.

Section Motion.
  Context {A : Arith}.

  (** The attributes a vehicle was added with. *)
  Definition spec_of (v : vehicle) :=
    (v_half_wid v, v_half_len v, v_wheel_base v, am_headway (v_acc v), am_max (v_acc v), am_comf (v_acc v)).
  Definition attr_spec (a : attrs) :=
    (nmul nhalf (a_width a), nmul nhalf (a_length a), a_wheel_base a, a_headway a, a_max_acc a, a_comf_dec a).

  Lemma exec_body e s o s' k v' : Inv s -> exec e s o = Ok s' -> is_step o = false -> sm_get (s_vehicles s') k = Some v' ->
    (exists v, sm_get (s_vehicles s) k = Some v /\ spec_of v' = spec_of v /\ v_vel v' = v_vel v /\ am_acc (v_acc v') = am_acc (v_acc v) /\
       (am_adj (v_acc v') = am_adj (v_acc v) \/ exists f, o = ORandomise f /\ am_adj (v_acc v') = nclamp (lit 3 4) (lit 5 4) (f k))) \/
    exists a l, o = OAddVehicle a l /\ sm_get (s_vehicles s) k = None /\ spec_of v' = attr_spec a /\ v_vel v' = n0 /\
       am_acc (v_acc v') = a_max_acc a /\ am_adj (v_acc v') = n1.
  Proof.
    intros I H Hs G. assert (s_vehicles s' = s_vehicles s -> exists v, sm_get (s_vehicles s) k = Some v /\ spec_of v' = spec_of v /\ v_vel v' = v_vel v /\ am_acc (v_acc v') = am_acc (v_acc v) /\ (am_adj (v_acc v') = am_adj (v_acc v) \/ exists f, o = ORandomise f /\ am_adj (v_acc v') = nclamp (lit 3 4) (lit 5 4) (f k))) as R0.
    { intros E. rewrite E in G. exists v'. auto 10. }
    destruct o; simpl in H; try discriminate.
    - left. apply R0. bok H x Hx. unfold add_link in Hx. bok Hx l Hl. injection Hx as <-. injection H as <-. auto.
    - left. apply R0. unfold add_link_group in H. bok H x1 Hx1. bok H x2 Hx2. bok H x3 Hx3. bok H x4 Hx4. bok H x5 Hx5. injection H as <-. auto.
    - left. apply R0. unfold add_link_convergance in H. destruct (key_eqb _ _); [injection H as <-; auto|].
      destruct (sm_get _ a); [|injection H as <-; auto]. destruct (sm_get _ b); [|injection H as <-; auto].
      bok H x Hx. destruct x; [|injection H as <-; auto]. bok H y Hy. injection H as <-. auto.
    - left. apply R0. unfold add_link_connection in H. bok H x Hx. bok H y Hy. injection H as <-. auto.
    - left. apply R0. bok H x Hx. injection H as <-. auto.
    - bok H x Hx. destruct x as [s1 k1]. injection H as <-. simpl in G. clear R0. unfold add_vehicle in Hx. bok Hx v0 Hv0. bok Hx v Hv. bok Hx links Hl.
      injection Hx as <- <-. simpl in G. rewrite sm_get_insert in G by apply I.
      destruct (key_eqb_spec (sm_next_key (s_vehicles s)) k).
      + right. subst k. exists a, link. split; auto. split.
        { destruct (sm_get (s_vehicles s) (sm_next_key (s_vehicles s))) eqn:Gn; auto. exfalso.
          apply (next_key_not_issued (s_vehicles s)); [apply I|]. eapply issued_mem; eauto. }
        injection G as <-.
        apply set_location_body in Hv0. destruct Hv0 as (Hb & _). apply update_coords_ok in Hv. destruct Hv as (Hb2 & _).
        unfold body in *. unfold spec_of, attr_spec. cbn in Hb. injection Hb2 as ? Q1 Q2 Q3 Q4 Q5 ? ? ? ?. injection Hb as ? W1 W2 W3 W4 W5 ? ? ? ?.
        rewrite Q1, Q2, Q3, Q4, Q5, W1, W2, W3, W4, W5. simpl. auto.
      + left. exists v'. auto 10.
    - left. rewrite (remove_vehicle_ok _ _ _ I H) in G. destruct (key_eqb _ _); [discriminate|]. exists v'. auto 10.
    - left. unfold randomise_velocity_adjusts in H. bok H x Hx. destruct x as [u vs]. injection H as <-. simpl in G.
      destruct (sm_mapS_pointwise _ (fun _ => True) _ _ _ _ (fun _ _ _ _ _ _ _ _ => Logic.I) Logic.I Hx) as (_ & _ & K2).
      destruct (K2 _ _ G) as (u1 & u2 & v & _ & _ & Ho & Gv). injection Ho as _ <-. exists v. split; auto. simpl. repeat split; auto. right. eauto.
    - left. apply R0. injection H as <-. unfold set_vehicle_frozen. destruct frozen, (position _ _); auto.
    - left. unfold set_vehicle_destination in H. bok H v0 Hv0. bok H v1 Hv1. injection H as <-. simpl in G.
      rewrite sm_get_set in G. unfold get_vehicle in Hv0. destruct (sm_get (s_vehicles s) v) as [v2|] eqn:G2; [|discriminate]. injection Hv0 as ->.
      destruct (key_eqb_spec v k); simpl in G; [|exists v'; auto 10]. subst v.
      replace (sm_mem (s_vehicles s) k) with true in G by (symmetry; apply sm_mem_get; eauto). injection G as <-. exists v0. split; auto.
      unfold set_destination in Hv1. bok Hv1 pf Hp. injection Hv1 as <-. cbn. auto 10.
    - left. apply R0. unfold set_link_control in H. bok H x Hx. injection H as <-. auto.
    - left. apply do_lane_change_ok in H. destruct H as (v0 & v1 & links & l0 & pos & off & slope & G0 & _ & _ & _ & Hs' & Es). rewrite Es in G. simpl in G.
      rewrite sm_get_set in G. destruct (key_eqb_spec v k); simpl in G; [|exists v'; auto 10]. subst v.
      replace (sm_mem (s_vehicles s) k) with true in G by (symmetry; apply sm_mem_get; eauto).
      injection G as <-. exists v0. split; auto. apply set_location_body in Hs'. destruct Hs' as (Hb & Hl & _).
      unfold body in Hb. injection Hb as Hb1 Hb2 Hb3 Hb4 Hb5 Hb6 Hb7 Hb8 Hb9 Hb10. unfold spec_of. rewrite Hb2, Hb3, Hb4, Hb5, Hb6. auto 10.
  Qed.

  Lemma body_spec v v' : body v' = body v -> spec_of v' = spec_of v /\ v_acc v' = v_acc v /\ v_vel v' = v_vel v /\ v_id v' = v_id v.
  Proof. unfold body, spec_of. intros H. injection H as E1 E2 E3 E4 E5 E6 E7 E8 E9 E10. rewrite E2, E3, E4, E5. auto. Qed.
  Lemma Rlc_body links v v' : Rlc links v v' -> body v' = body v.
  Proof. intros (H & _). auto. Qed.
  Lemma Radv_body links v v' : Radv links v v' -> body v' = body v.
  Proof. intros (lid & l & _ & _ & [(_ & ->)|(_ & B & _)]); auto. Qed.
  Lemma Rcoords_body v v' : Rcoords v v' -> body v' = body v.
  Proof. intros (B & _). auto. Qed.

  (** One step of one vehicle: its acceleration model after the step is the one with which it moved. *)
  Lemma step_motion e s dt s' k v' : Inv s -> step e s dt = Ok s' -> sm_get (s_vehicles s') k = Some v' ->
    exists v s1 s2 v1 v2, sm_get (s_vehicles s) k = Some v /\ calculate_lane_changes e s = Ok s1 /\ sim_apply_accelerations e s1 = Ok s2 /\
      sm_get (s_vehicles s1) k = Some v1 /\ sm_get (s_vehicles s2) k = Some v2 /\ body v1 = body v /\ vkeep v1 v2 /\
      spec_of v' = spec_of v /\ v_acc v' = v_acc v2 /\ am_adj (v_acc v') = am_adj (v_acc v) /\
      v_vel v' = nmax (nadd (v_vel v) (nmul dt (am_get (v_acc v')))) n0 /\ 
      St (s_links s1) (s_vehicles s1) (s_seq s1) /\ s_acc_update s1 = s_acc_update s /\ s_frozen s1 = s_frozen s /\
      Forall (fun c => valid (s_links s1) (cpl_link (cp_a c)) /\ valid (s_links s1) (cpl_link (cp_b c))) (s_conflicts s1).
  Proof.
    intros I H G'. destruct (step_vehicle_parts _ _ _ _ _ _ I H G') as (s1 & s2 & s3 & s4 & s5 & v0 & v1 & v2 & v4 & v5 & q & q' & P & G0 & G1 & G2 & G4 & R1 & Kp & Hi & R5 & R6).
    exists v0, s1, s2, v1, v2. destruct (lc_fields _ _ _ (ph1 _ _ _ _ _ _ _ _ _ P)) as (_ & _ & E1 & _ & E2 & E3 & _).
    apply Rlc_body in R1. apply Radv_body in R5. apply Rcoords_body in R6. pose proof R1 as R1'.
    apply body_spec in R1, R5, R6. destruct R1 as (A1 & A2 & A3 & A4), R5 as (B1 & B2 & B3 & B4), R6 as (C1 & C2 & C3 & C4).
    destruct (integrate_ok _ _ _ _ _ Hi) as (D1 & D2 & D3 & D4 & D5 & _ & _ & _ & D6 & _).
    assert (v_acc v' = v_acc v2) as Eacc by congruence.
    destruct Kp as (a & f & Ek).
    assert (spec_of v2 = spec_of v1 /\ v_vel v2 = v_vel v1 /\ am_adj (v_acc v2) = am_adj (v_acc v1)) as (F1 & F2 & F3) by (rewrite Ek; auto).
    assert (spec_of v4 = spec_of v2) as F4 by (unfold spec_of; congruence).
    repeat (split; [first [assumption | apply P | congruence]|]).
    split; [exists a, f; auto|]. split; [congruence|]. split; [congruence|]. split; [congruence|]. split.
    { rewrite C3, B3, D6. unfold new_vel. rewrite Eacc. congruence. }
    split; [apply P|]. split; auto. split; auto.
    rewrite E3. eapply Forall_impl; [|apply (i_cps _ I)]. simpl. intros c (Ha & Hb). split; apply (same_net_valid _ _ _ (pn1 _ _ _ _ _ _ _ _ _ P)); auto.
  Qed.

  (** A step that refreshes the accelerations. *)
  Lemma step_refresh e s dt s' k v' : Inv s -> step e s dt = Ok s' -> sm_get (s_vehicles s') k = Some v' ->
    nltb (s_acc_update s) ACCELERATION_UPDATE_SEC = false ->
    exists v s1 s2 v1 links vs log1 log, sm_get (s_vehicles s) k = Some v /\ calculate_lane_changes e s = Ok s1 /\ sm_get (s_vehicles s1) k = Some v1 /\
      St (s_links s1) (s_vehicles s1) (s_seq s1) /\ s_frozen s1 = s_frozen s /\ body v1 = body v /\
      parts e s1 s2 links vs log1 log /\ v_acc v' = am_set_acc (v_acc v) (if key_mem k (s_frozen s) then MAX_DECEL else log_acc k (am_max (v_acc v)) log).
  Proof.
    intros I H G' D. destruct (step_motion _ _ _ _ _ _ I H G') as (v & s1 & s2 & v1 & v2 & G & H1 & H2 & G1 & G2 & B & Kp & _ & Ea & _ & _ & St1 & Eu & Ef & Cp).
    rewrite <- Eu in D. destruct (acc_parts _ _ _ St1 Cp H2 D) as (links & vs & log1 & log & P). exists v, s1, s2, v1, links, vs, log1, log.
    repeat (split; [assumption|]). rewrite Ea. pose proof (pt_out _ _ _ _ _ _ _ P _ _ G1) as Go. rewrite G2 in Go. injection Go as ->. simpl. rewrite Ef.
    apply body_spec in B. destruct B as (_ & -> & _). auto.
  Qed.
  Lemma step_no_refresh e s dt s' k v v' : Inv s -> step e s dt = Ok s' -> sm_get (s_vehicles s) k = Some v -> sm_get (s_vehicles s') k = Some v' ->
    nltb (s_acc_update s) ACCELERATION_UPDATE_SEC = true -> v_acc v' = v_acc v.
  Proof.
    intros I H G0 G' D. destruct (step_motion _ _ _ _ _ _ I H G') as (v0 & s1 & s2 & v1 & v2 & G & H1 & H2 & G1 & G2 & B & Kp & _ & Ea & _ & _ & St1 & Eu & Ef & Cp).
    assert (v0 = v) by congruence. subst v0. rewrite <- Eu in D. assert (s2 = s1) as -> by (eapply acc_kept; eauto). assert (v2 = v1) by congruence. subst v2.
    apply body_spec in B. destruct B as (_ & B & _). congruence.
  Qed.

  (** Induction over the vehicles of a history. *)
  Lemma reachable_vehicles (P : vehicle -> Prop) :
    (forall e s o s' k v', reachable s -> exec e s o = Ok s' -> sm_get (s_vehicles s') k = Some v' ->
       (forall v, sm_get (s_vehicles s) k = Some v -> P v) -> P v') ->
    forall s k v, reachable s -> sm_get (s_vehicles s) k = Some v -> P v.
  Proof.
    intros Hs s k v R. revert k v. induction R as [|e s o s' R IH H]; intros k v G.
    - simpl in G. rewrite sm_get_empty in G. discriminate.
    - eapply Hs; eauto.
  Qed.

  Section Laws.
    Variable O : OrdLaws A.
    Hypothesis N0 : nnan (@n0 A) = false.
    Hypothesis ND : nnan MAX_DECEL = false.

    Lemma vel_nonneg s k v : reachable s -> sm_get (s_vehicles s) k = Some v -> nleb n0 (v_vel v) = true.
    Proof.
      revert s k v. apply reachable_vehicles. intros e s o s' k v' R H G IH. pose proof (reachable_Inv _ R) as I. destruct (is_step o) eqn:Es.
      - destruct o; try discriminate. destruct (step_motion _ _ _ _ _ _ I H G) as (v & s1 & s2 & v1 & v2 & _ & _ & _ & _ & _ & _ & _ & _ & _ & _ & Ev & _).
        rewrite Ev. apply (max_ge_r O). auto.
      - destruct (exec_body _ _ _ _ _ _ I H Es G) as [(v & Gv & _ & Ev & _)|(a & l & _ & _ & _ & Ev & _)]; rewrite Ev; auto. apply (le_refl O). auto.
    Qed.

    Definition acc_top (v : vehicle) : Prop :=
      nnan (am_max (v_acc v)) = false -> nleb (am_acc (v_acc v)) (am_max (v_acc v)) = true \/ am_acc (v_acc v) = MAX_DECEL.
    Lemma acc_top_reachable s k v : reachable s -> sm_get (s_vehicles s) k = Some v -> acc_top v.
    Proof.
      revert s k v. apply reachable_vehicles. intros e s o s' k v' R H G IH Nm. pose proof (reachable_Inv _ R) as I. destruct (is_step o) eqn:Es.
      - destruct o; try discriminate. destruct (nltb (s_acc_update s) ACCELERATION_UPDATE_SEC) eqn:D.
        + destruct (step_motion _ _ _ _ _ _ I H G) as (v & _ & _ & _ & _ & Gv & _). rewrite (step_no_refresh _ _ _ _ _ _ _ I H Gv G D) in *. apply (IH _ Gv). auto.
        + destruct (step_refresh _ _ _ _ _ _ I H G D) as (v & s1 & s2 & v1 & links & vs & log1 & log & Gv & _ & _ & _ & _ & _ & _ & Ea). rewrite Ea in *. simpl in *.
          destruct (key_mem k (s_frozen s)); auto. left. apply (log_acc_le O). auto.
      - destruct (exec_body _ _ _ _ _ _ I H Es G) as [(v & Gv & Sp & _ & Ea & _)|(a & l & _ & _ & Sp & _ & Ea & _)].
        + unfold spec_of in Sp. injection Sp as _ _ _ _ Em _. rewrite Ea, Em in *. apply (IH _ Gv). auto.
        + unfold spec_of, attr_spec in Sp. injection Sp as _ _ _ _ Em _. rewrite Ea, Em in *. left. apply (le_refl O). auto.
    Qed.
    Lemma am_get_low (m : accel) : nleb MAX_DECEL (am_get m) = true.
    Proof. apply (max_ge_r O). auto. Qed.
    Lemma am_get_high s k v : reachable s -> sm_get (s_vehicles s) k = Some v -> nleb MAX_DECEL (am_max (v_acc v)) = true ->
      nleb (am_get (v_acc v)) (am_max (v_acc v)) = true.
    Proof.
      intros R G Hm. assert (nnan (am_max (v_acc v)) = false) as Nm by (apply (le_iff O) in Hm; tauto).
      destruct (acc_top_reachable _ _ _ R G Nm) as [H| E]; unfold am_get.
      - apply max_lub; auto.
      - rewrite E. apply max_lub; auto.
    Qed.
    Lemma max_mono x y d : nleb x y = true -> nnan d = false -> nleb (nmax x d) (nmax y d) = true.
    Proof.
      intros H Nd. assert (nnan y = false) as Ny by (apply (le_iff O) in H; tauto).
      apply max_lub; [|apply (max_ge_r O); auto]. eapply (le_trans O); [exact H|]. apply (max_ge_l O). auto.
    Qed.

    (** Bounds on refreshed accelerations *)
    Lemma refresh_bound e s dt s' k v v' x : Inv s -> step e s dt = Ok s' -> sm_get (s_vehicles s) k = Some v -> sm_get (s_vehicles s') k = Some v' ->
      nltb (s_acc_update s) ACCELERATION_UPDATE_SEC = false -> nnan x = false ->
      (forall s1 s2 links vs log1 log, calculate_lane_changes e s = Ok s1 -> parts e s1 s2 links vs log1 log -> In (EAcc k x) log) ->
      nleb (am_get (v_acc v')) (nmax x MAX_DECEL) = true.
    Proof.
      intros I H G G' D Nx Hin. destruct (step_refresh _ _ _ _ _ _ I H G' D) as (v0 & s1 & s2 & v1 & links & vs & log1 & log & G0 & H1 & _ & _ & _ & _ & P & Ea).
      assert (v0 = v) by congruence. subst v0. unfold am_get. rewrite Ea. simpl. destruct (key_mem k (s_frozen s)).
      - apply max_lub; apply (max_ge_r O); auto.
      - apply max_mono; auto. apply (log_acc_le_in O); eauto.
    Qed.
  End Laws.

  Lemma vx_reset_follow v p u : vx_follow_vehicle (v_reset v) p u = vx_follow_vehicle v p u.
  Proof. reflexivity. Qed.

  Lemma parts_follow e s1 s2 links vs log1 log lid l pre k k2 post v v2 : parts e s1 s2 links vs log1 log ->
    sm_get (s_links s1) lid = Some l -> lk_vehicles l = pre ++ k :: k2 :: post ->
    sm_get (s_vehicles s1) k = Some v -> sm_get (s_vehicles s1) k2 = Some v2 ->
    In (EAcc k (vx_follow_vehicle v (pos_rear v2) (v_vel v2))) log.
  Proof.
    intros P Gl El Gv Gv2. assert (valid links lid) as V by (apply (same_net_valid _ _ _ (pt_same _ _ _ _ _ _ _ P)); apply sm_mem_get; eauto).
    unfold valid in V. apply sm_mem_get in V. destruct V as (l' & Gl').
    destruct (pt_lists _ _ _ _ _ _ _ P _ _ Gl') as (l0 & G0 & b & ->). assert (l0 = l) by congruence. subst l0.
    destruct (link_accelerations_in _ _ (pt_net _ _ _ _ _ _ _ P) (pt_listed _ _ _ _ _ _ _ P) _ _ _ _ _ _ (pt_link _ _ _ _ _ _ _ P) Gl') as (_ & F).
    apply (F pre k k2 post (v_reset v) (v_reset v2)); auto; rewrite (pt_veh _ _ _ _ _ _ _ P); [rewrite Gv|rewrite Gv2]; auto.
  Qed.
  Lemma parts_limit e s1 s2 links vs log1 log lid l k v : parts e s1 s2 links vs log1 log ->
    sm_get (s_links s1) lid = Some l -> In k (lk_vehicles l) -> sm_get (s_vehicles s1) k = Some v ->
    In (EAcc k (vx_current_speed_limit v (lk_limit l))) log.
  Proof.
    intros P Gl Hin Gv. assert (valid links lid) as V by (apply (same_net_valid _ _ _ (pt_same _ _ _ _ _ _ _ P)); apply sm_mem_get; eauto).
    unfold valid in V. apply sm_mem_get in V. destruct V as (l' & Gl').
    destruct (pt_lists _ _ _ _ _ _ _ P _ _ Gl') as (l0 & G0 & b & ->). assert (l0 = l) by congruence. subst l0.
    destruct (link_accelerations_in _ _ (pt_net _ _ _ _ _ _ _ P) (pt_listed _ _ _ _ _ _ _ P) _ _ _ _ _ _ (pt_link _ _ _ _ _ _ _ P) Gl') as (F & _).
    apply (F k (v_reset v)); auto. rewrite (pt_veh _ _ _ _ _ _ _ P), Gv. auto.
  Qed.

  (** ** Position *)
  Lemma step_position e s dt s' k v v' : Inv s -> step e s dt = Ok s' -> sm_get (s_vehicles s) k = Some v -> sm_get (s_vehicles s') k = Some v' ->
    (exists a b, v_link v = Some a /\ chg_of (s_links s) a b /\ a <> b) \/
    exists p lid l, v_link v = Some lid /\ sm_get (s_links s) lid = Some l /\ p = nadd (v_pos v) (nmul (nmul nhalf (nadd (v_vel v) (v_vel v'))) dt) /\
      (nltb (lk_length l) p = false /\ v_link v' = v_link v /\ v_pos v' = p \/
       nltb (lk_length l) p = true /\ v_pos v' = nsub p (lk_length l) /\ exists lid', v_link v' = Some lid' /\ succ_of (s_links s) lid lid').
  Proof.
    intros I H G G'. destruct (step_vehicle_parts _ _ _ _ _ _ I H G') as (s1 & s2 & s3 & s4 & s5 & v0 & v1 & v2 & v4 & v5 & q & q' & P & G0 & G1 & G2 & G4 & R1 & Kp & Hi & R5 & R6).
    assert (v0 = v) by congruence. subst v0. destruct R1 as (B1 & [(L1 & P1 & _)|M] & _).
    2: { left. destruct M as (a & b & M1 & M2 & M3 & M4). eauto. }
    right. destruct (integrate_ok _ _ _ _ _ Hi) as (_ & _ & _ & _ & _ & _ & D1 & _ & D2 & D3 & _). destruct Kp as (a & f & Ek).
    apply body_spec in B1. destruct B1 as (_ & _ & V1 & _).
    assert (v_vel v2 = v_vel v /\ v_pos v2 = v_pos v /\ v_link v2 = v_link v /\ v_route v2 = v_route v1) as (X1 & X2 & X3 & X4).
    { rewrite Ek. unfold v_link in *. simpl. split; [congruence|]. split; [congruence|]. split; congruence. }
    assert (v_link v4 = v_link v) as L4. { unfold v_link in *. congruence. }
    destruct R5 as (lid & l4 & Hl & Gl & R5). destruct R6 as (B6 & _ & P6 & Rt6 & _).
    assert (same_net (s_links s) (s_links s4)) as Sn.
    { rewrite (pn4 _ _ _ _ _ _ _ _ _ P). eapply same_net_trans; [apply P|]. eapply same_net_trans; apply P. }
    destruct (same_net_get _ _ _ _ Sn Gl) as (l & G0' & Est).
    assert (lk_length l = lk_length l4) as El. { unfold lk_static in Est. unfold lk_length. inversion Est. congruence. }
    exists (v_pos v4), lid, l. split; [congruence|]. split; auto.
    assert (v_vel v' = v_vel v4) as Vv. { apply body_spec in B6. destruct B6 as (_ & _ & B6 & _). destruct R5 as [(_ & ->)|(_ & B5 & _)]; [auto|]. apply body_spec in B5. destruct B5 as (_ & _ & B5 & _). congruence. }
    split. { rewrite D3. unfold new_pos. rewrite X1, X2, Vv, D2. auto. }
    rewrite El. destruct R5 as [(Lt & E5)|(Lt & _ & E5 & P5 & _)].
    - left. split; auto. subst v5. unfold v_link in *. rewrite Rt6, P6. split; congruence.
    - right. split; auto. split; [congruence|].
      assert (vbase (s_links s4) (s_seq s4) k v4) as Vb by (apply (ps4 _ _ _ _ _ _ _ _ _ P); auto).
      pose proof (vb_chain _ _ _ _ Vb) as Ch. 
      assert (v_route v' <> []) as Ne. { pose proof (reachable_Inv) as _. assert (Inv s') as I' by (exact (exec_Inv e s (OStep dt) s' I H)).
        pose proof (st_veh _ _ _ (i_st _ I') _ _ G') as Vb'. pose proof (vb_ent _ _ _ _ Vb') as En. intros Z. rewrite Z in En. simpl in En. lia. }
      rewrite Rt6, E5 in Ne. unfold v_link in *. rewrite Rt6, E5. destruct (v_route v4) as [|x [|y r]]; simpl in *; try congruence.
      exists y. split; auto. destruct Ch as (_ & (lx & Gx & Iy) & _). injection Hl as ->.
      destruct (same_net_get _ _ _ _ Sn Gx) as (lx0 & Gx0 & Estx). exists lx0. split; auto. unfold lk_static in Estx. inversion Estx. congruence.
  Qed.

  (** ** Frozen vehicles *)
  Definition frozen_in (s : sim) (k : key) : bool := get_vehicle_frozen s k.
  Lemma existsb_key k l : existsb (fun x => key_eqb x k) l = true <-> In k l.
  Proof. rewrite existsb_exists. split; [intros (x & Hx & E); apply key_eqb_eq in E; subst; auto|]. intros H. exists k. rewrite key_eqb_refl. auto. Qed.
  Lemma frozen_key_mem s k : get_vehicle_frozen s k = key_mem k (s_frozen s).
  Proof.
    unfold get_vehicle_frozen. destruct (key_mem k (s_frozen s)) eqn:E.
    - apply key_mem_in in E. apply existsb_key. auto.
    - destruct (existsb _ _) eqn:E2; auto. apply existsb_key in E2. apply key_mem_in in E2. congruence.
  Qed.
  Lemma position_some {X} (f : X -> bool) l i : position f l = Some i -> exists x, nth_error l i = Some x /\ f x = true.
  Proof.
    revert i. induction l as [|x l IH]; intros i H; simpl in H; [discriminate|]. destruct (f x) eqn:E; [injection H as <-; simpl; eauto|].
    destruct (position f l); [|discriminate]. injection H as <-. simpl. auto.
  Qed.
  Lemma position_none {X} (f : X -> bool) l : position f l = None -> forall x, In x l -> f x = false.
  Proof.
    induction l as [|x l IH]; intros H y; simpl in *; [tauto|]. destruct (f x) eqn:E; [discriminate|]. destruct (position f l); [discriminate|].
    intros [<-|Hy]; auto.
  Qed.
  Lemma remove_at_in {X} (l : list X) i x y : NoDup l -> nth_error l i = Some x -> In y (remove_at i l) <-> In y l /\ y <> x.
  Proof.
    unfold remove_at. revert i. induction l as [|z l IH]; intros i N H; [destruct i; discriminate|]. inversion N as [|? ? N1 N2]; subst. destruct i; simpl in *.
    - injection H as ->. split; [|intuition congruence]. intros Hy. split; auto. intros ->. contradiction.
    - rewrite (IH _ N2 H). apply nth_error_In in H. split; [intros [->|(? & ?)]; split; auto|]. { intros ->. contradiction. } intros ([->|?] & ?); auto.
  Qed.
  Lemma frozen_other e s o s' k : Inv s -> exec e s o = Ok s' -> is_step o = false ->
    get_vehicle_frozen s' k = match o with OSetFrozen k' f => if key_eqb k' k then f else get_vehicle_frozen s k | _ => get_vehicle_frozen s k end.
  Proof.
    intros I H Hs.
    destruct o; simpl in H; try discriminate.
    - bok H x Hx. unfold add_link in Hx. bok Hx l Hl. injection Hx as <-. injection H as <-. auto.
    - unfold add_link_group in H. bok H x1 Hx1. bok H x2 Hx2. bok H x3 Hx3. bok H x4 Hx4. bok H x5 Hx5. injection H as <-. auto.
    - unfold add_link_convergance in H. destruct (key_eqb _ _); [injection H as <-; auto|].
      destruct (sm_get _ a); [|injection H as <-; auto]. destruct (sm_get _ b); [|injection H as <-; auto].
      bok H x Hx. destruct x; [|injection H as <-; auto]. bok H y Hy. injection H as <-. auto.
    - unfold add_link_connection in H. bok H x Hx. bok H y Hy. injection H as <-. auto.
    - bok H x Hx. injection H as <-. auto.
    - bok H x Hx. destruct x as [s1 k1]. injection H as <-. unfold add_vehicle in Hx. bok Hx v0 Hv0. bok Hx v Hv. bok Hx links Hl.
      injection Hx as <- <-. auto.
    - unfold sim_remove_vehicle in H. destruct (sm_get _ v) as [v0|]; [|injection H as <-; auto]. simpl in H.
      destruct (v_link v0); [|injection H as <-; auto]. bok H x Hx. injection H as <-. auto.
    - unfold randomise_velocity_adjusts in H. bok H x Hx. injection H as <-. auto.
    - injection H as <-. unfold set_vehicle_frozen. destruct frozen, (position _ _) as [i|] eqn:Ep.
      + apply position_some in Ep. destruct Ep as (x & Hx & E). apply key_eqb_eq in E. subst x. destruct (key_eqb_spec v k); auto. subst.
        unfold get_vehicle_frozen. apply existsb_key. eapply nth_error_In; eauto.
      + unfold get_vehicle_frozen. simpl. rewrite existsb_app. simpl. rewrite orb_false_r. destruct (key_eqb v k); [apply orb_true_r|apply orb_false_r].
      + apply position_some in Ep. destruct Ep as (x & Hx & E). apply key_eqb_eq in E. subst x.
        unfold get_vehicle_frozen. simpl. pose proof (remove_at_in (s_frozen s) i v k (i_frozen _ I) Hx) as Hr. destruct (key_eqb_spec v k).
        * subst. destruct (existsb _ _) eqn:E; auto. apply existsb_key in E. apply Hr in E. tauto.
        * apply eq_true_iff_eq. rewrite !existsb_key. rewrite Hr. intuition.
      + unfold get_vehicle_frozen. simpl. destruct (key_eqb_spec v k); auto. subst.
        destruct (existsb _ _) eqn:E; auto. apply existsb_key in E. apply (position_none _ _ Ep) in E. rewrite key_eqb_refl in E. discriminate.
    - unfold set_vehicle_destination in H. bok H x Hx. bok H y Hy. injection H as <-. auto.
    - unfold set_link_control in H. bok H x Hx. injection H as <-. auto.
    - apply do_lane_change_ok in H. destruct H as (v0 & v1 & links & l0 & pos & off & slope & _ & _ & _ & _ & _ & Es). rewrite Es. auto.
  Qed.
  Lemma frozen_step e s dt s' k : Inv s -> step e s dt = Ok s' -> sm_get (s_vehicles s') k <> None -> get_vehicle_frozen s' k = get_vehicle_frozen s k.
  Proof.
    intros I H G. destruct (sm_get (s_vehicles s') k) as [v'|] eqn:G'; [|congruence]. clear G.
    destruct (step_vehicle_parts _ _ _ _ _ _ I H G') as (s1 & s2 & s3 & s4 & s5 & v0 & v1 & v2 & v4 & v5 & q & q' & P & G0 & G1 & G2 & _).
    destruct (ph6 _ _ _ _ _ _ _ _ _ P) as (s6 & H6 & ->).
    destruct (coords_evo _ _ H6) as (_ & _ & _ & E6). destruct (advance_vehicles_evo _ _ _ (ph5 _ _ _ _ _ _ _ _ _ P)) as (_ & _ & _ & E5).
    destruct (integrate_evo _ _ _ (ph4 _ _ _ _ _ _ _ _ _ P)) as (_ & _ & E4).
    assert (s_frozen s3 = s_frozen s2) as E3. { pose proof (ph3 _ _ _ _ _ _ _ _ _ P) as H3. unfold update_lights in H3. bok H3 x Hx. injection H3 as <-. auto. }
    destruct (lc_fields _ _ _ (ph1 _ _ _ _ _ _ _ _ _ P)) as (_ & _ & E1 & _).
    unfold get_vehicle_frozen. simpl. rewrite E6, E5, E4. simpl. rewrite E3, <- E1.
    pose proof (ph2 _ _ _ _ _ _ _ _ _ P) as H2. unfold sim_apply_accelerations in H2. destruct (nltb _ _); [injection H2 as <-; auto|].
    bok H2 x Ha. destruct x as [links vs]. bok H2 log1 Hl1. bok H2 log Hl2. destruct (apply_log (links, vs) log) as [ls2 vs2] eqn:Ea.
    change (s_frozen (with_acc_update s1 n0)) with (s_frozen s1) in H2. destruct (apply_frozen vs2 (s_frozen s1)) as [vs3 fr] eqn:Ef. injection H2 as <-. simpl in *.
    unfold apply_frozen in Ef. injection Ef as Ev <-.
    apply eq_true_iff_eq. rewrite !existsb_key, filter_In. split; [tauto|]. intros Hin. split; auto.
    assert (sm_mem vs3 k = true) as M by (apply sm_mem_get; eauto).
    pose proof (apply_frozen_get vs2 (s_frozen s1) k) as Fg. unfold apply_frozen in Fg. cbn [fst] in Fg. rewrite Ev, G2 in Fg.
    unfold sm_mem. destruct (sm_get vs2 k); auto. destruct (key_mem k (s_frozen s1)); discriminate Fg.
  Qed.

  Lemma nmax_same (x : num) : nmax x x = x.
  Proof. unfold nmax. destruct (nnan x); auto. destruct (nltb x x); auto. Qed.
  Lemma exec_gone e s o s1 ops s' k : Inv s -> exec e s o = Ok s1 -> history s1 ops s' -> vehicle_at s k <> None -> vehicle_at s' k <> None -> vehicle_at s1 k <> None.
  Proof.
    intros I H1 Hh G G' E. assert (sm_mem (s_vehicles s') k = false) as M.
    { eapply history_gone; [exact Hh|eapply exec_Inv; eauto| |].
      - eapply exec_issued; eauto. destruct (vehicle_at s k) as [v|] eqn:Gv; [|congruence]. eapply issued_mem; eauto.
      - unfold sm_mem. unfold vehicle_at in E. rewrite E. reflexivity. }
    unfold sm_mem in M. unfold vehicle_at in G'. destruct (sm_get (s_vehicles s') k); congruence.
  Qed.
  Lemma frozen_keeps s ops s' k v v' : reachable s -> history s ops s' -> ~ In (OSetFrozen k false) ops ->
    vehicle_at s k = Some v -> vehicle_at s' k = Some v' -> get_vehicle_frozen s k = true ->
    am_acc (v_acc v) = MAX_DECEL -> get_vehicle_frozen s' k = true /\ am_acc (v_acc v') = MAX_DECEL.
  Proof.
    intros R H. revert v. induction H as [s|e s o s1 ops s' H1 Hh IH]; intros v Hn G G' F Ea.
    { unfold vehicle_at in *. assert (v = v') by congruence. subst. auto. }
    pose proof (reachable_Inv _ R) as I. pose proof (reach_call _ _ _ _ R H1) as R1.
    destruct (vehicle_at s1 k) as [v1|] eqn:G1; [|exfalso; eapply (exec_gone e s o s1 ops s' k); eauto; congruence].
    assert (get_vehicle_frozen s1 k = true /\ am_acc (v_acc v1) = MAX_DECEL) as (F1 & E1).
    { destruct (is_step o) eqn:Es.
      - destruct o; try discriminate Es. split; [rewrite (frozen_step _ _ _ _ _ I H1); auto; unfold vehicle_at in G1; congruence|].
        destruct (nltb (s_acc_update s) ACCELERATION_UPDATE_SEC) eqn:D.
        + rewrite (step_no_refresh _ _ _ _ _ _ _ I H1 G G1 D). auto.
        + destruct (step_refresh _ _ _ _ _ _ I H1 G1 D) as (v2 & s2 & s3 & v3 & links & vs & log1 & log & _ & _ & _ & _ & _ & _ & _ & E2).
          rewrite frozen_key_mem in F. rewrite F in E2. rewrite E2. auto.
      - split.
        + rewrite (frozen_other _ _ _ _ k I H1 Es). destruct o; auto. destruct (key_eqb_spec v0 k); auto. subst. destruct frozen; auto. exfalso. apply Hn. left. auto.
        + destruct (exec_body _ _ _ _ _ _ I H1 Es G1) as [(v2 & G2 & _ & _ & E2 & _)|(a & l & _ & N & _)]; unfold vehicle_at in *; congruence. }
    apply (IH R1 v1); auto. intros Hin. apply Hn. right. auto.
  Qed.
End Motion.
