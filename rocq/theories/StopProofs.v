(** * Stopping at the end of a link, in exact arithmetic *)
From Coq Require Import List Bool ZArith NArith Arith Lia Reals Lra.
From Verif Require Import Arith RealArith Base BaseProofs SlotMap Util Geom Light Accel Net Path Vehicle LinkOps Sim SpecSim SpecMotion SlotMapProofs Safe NetInv SimInv AccSafe SimSafe StepSafe OpSafe Evo StepEvo SimProofs StepProofs Ord LogProofs Motion RFacts NetEvo P_Motion SpecEnter P_Enter P_Exit SpecGap GapKin GapProofs.
Import ListNotations.
Local Open Scope R_scope.

Definition kept_line (d : R) (lid k : key) (s : @sim RA) : Prop :=
  exists l v, sm_get (s_links s) lid = Some l /\ sm_get (s_vehicles s) k = Some v /\
    (acceleration v = -6 /\ K (max_acc v) (d / 2) 0 (v_vel v) 0 (room_left l v) \/
     exists r, 0 <= r /\ refresh_time d <= r + s_acc_update s /\ K (max_acc v) (d / 2) r (v_vel v) 0 (room_left l v)).

Lemma same_road e (s : @sim RA) o s' lid l l' : reachable s -> exec e s o = Ok s' -> sm_get (s_links s) lid = Some l -> sm_get (s_links s') lid = Some l' ->
  lk_length l' = lk_length l /\ lk_limit l' = lk_limit l.
Proof.
  intros Rc H G G'. destruct (exec_built _ _ _ _ _ _ (reachable_Inv _ Rc) H G') as [(l0 & G0 & E & _)|X].
  - assert (l0 = l) by congruence. subst l0. unfold geo in E. injection E as _ E1 E2 _. unfold lk_length. rewrite E1. auto.
  - exfalso. destruct X as (c & lim & -> & -> & _). apply (next_key_not_issued (s_links s)); [apply (st_net _ _ _ (i_st _ (reachable_Inv _ Rc)))|]. eapply issued_mem; eauto.
Qed.

Lemma last_on (s : @sim RA) lid l k behind : Inv s -> sm_get (s_links s) lid = Some l -> lk_vehicles l = behind ++ [k] -> exists v, sm_get (s_vehicles s) k = Some v /\ v_link v = Some lid.
Proof.
  intros I Gl El. destruct (st_occ _ _ _ (i_st _ I) _ _ Gl) as (_ & Oc). assert (In k (lk_vehicles l)) as Hk by (rewrite El; apply in_or_app; right; left; reflexivity).
  apply Oc in Hk. unfold at_of in Hk. destruct (sm_get (s_vehicles s) k) as [v|]; [eauto|discriminate Hk].
Qed.

Lemma line_step V d e (s : @sim RA) o s' lid l k v : reachable s -> keep_lanes d [k] o -> exec e s o = Ok s' ->
  settled (held V lid k) s -> held V lid k s' -> sm_get (s_links s) lid = Some l -> sm_get (s_vehicles s) k = Some v -> careful V d v ->
  room_to_react (max_acc v) d V 0 (5 * lk_limit l) -> kept_line d lid k s -> kept_line d lid k s'.
Proof.
  intros Rc Q H (Hs & Hl) (_ & l' & v' & bh' & Gl' & El' & G' & En' & HV' & _) Gl G Cf Far J.
  destruct Hs as (Pr & l0 & v0 & bh & Gl0 & El & G0 & En & HV & _).
  unfold link_at, vehicle_at in *. assert (v0 = v) by congruence. assert (l0 = l) by congruence. subst v0 l0. pose proof (reachable_Inv _ Rc) as I. pose proof (reach_call _ _ _ _ Rc H) as Rc'. pose proof (reachable_Inv _ Rc') as I'.
  destruct (last_on _ _ _ _ _ I Gl El) as (w & E1 & L). assert (w = v) by congruence. subst w. clear E1.
  destruct (last_on _ _ _ _ _ I' Gl' El') as (w & E1 & L'). assert (w = v') by congruence. subst w. clear E1.
  destruct J as (l0 & w & E1 & E2 & J). assert (w = v) by congruence. assert (l0 = l) by congruence. subst w l0. clear E1 E2.
  destruct (same_road _ _ _ _ _ _ _ Rc H Gl Gl') as (Elen & _). pose proof (vel0_R _ _ _ Rc G) as V0.
  exists l', v'. split; [exact Gl'|]. split; [exact G'|].
  destruct (is_step o) eqn:Es.
  - destruct o; try discriminate Es. cbn [exec] in H. cbn [keep_lanes] in Q.
    destruct (stay_step _ _ _ _ _ _ _ _ Rc H G G' L L' Pr) as (Sp & Ep & Ev & s1 & v1 & H1 & G1 & Ep1 & Eh1 & Ev1 & Ea1 & L1 & St1).
    destruct (spec_parts _ _ Sp) as (Eh & _).
    assert (room_left l' v' = room_left l v + (0 + 0) / 2 * dt - (v_vel v + v_vel v') / 2 * dt) as ->.
    { unfold room_left, pos_front. rewrite Ep, Eh, Elen. unR. lra. }
    apply (room_step V d e s dt s' k v v' lid); auto; try lra.
    intros D. destruct (Hl _ _ H1) as (Pr1 & l1 & w & bh1 & Gl1 & El1 & Gw & En1 & _ & Wait). unfold link_at, vehicle_at in *.
    assert (w = v1) by congruence. subst w. assert (l1 = l) by (rewrite (lane_changes_other _ _ _ _ (i_st _ I) H1 (proj2 Pr)) in Gl1; congruence). subst l1.
    destruct (nltb (pos_front v1) (nsub (lk_length l) (nmul (nofZ 5) (lk_limit l)))) eqn:Ne.
    + right. apply ltb_R in Ne. apply room_K. destruct Far as (F1 & F2). assert (5 * lk_limit l < room_left l v) as Fr.
      { unfold room_left. assert (pos_front v1 = pos_front v) as <- by (unfold pos_front; rewrite Ep1, Eh1; reflexivity). revert Ne. unR. intros Ne. lra. }
      assert (0 < (max_acc v : R)) as Pm by (destruct Cf as (Ca & _); lra).
      unfold room_to_react, refresh_time in *. split; [lra|]. set (t := 1 / 10 + d) in *. assert (0 < t) by (unfold t; lra).
      assert (v_vel v * t <= V * t) by (apply Rmult_le_compat_r; lra). assert (0 <= max_acc v * t) by (apply Rmult_le_pos; lra).
      assert ((v_vel v + max_acc v * t) * (v_vel v + max_acc v * t) <= (V + max_acc v * t) * (V + max_acc v * t)) by (apply Rmult_le_compat; lra).
      assert ((v_vel v + max_acc v * t) * d <= (V + max_acc v * t) * d) by (apply Rmult_le_compat_r; lra). lra.
    + left. assert (first_at_line s1 l k v1) as Fl.
      { exists bh1, []. split; [exact El1|]. split; [intros ? []|]. split; [exact G1|]. split; [exact En1|exact Ne]. }
      assert (nleb (am_get (v_acc v')) (nmax (vx_stop_at_line v1 (nadd (lk_length l) n0)) MAX_DECEL) = true) as B.
      { apply (refresh_bound RA_ord decel_nan_R e s dt s' k v v' (vx_stop_at_line v1 (nadd (lk_length l) n0)) I H G G' (due_R _ D) eq_refl).
        intros t1 t2 links vs log1 log E1 P. assert (t1 = s1) by congruence. subst t1.
        destruct Wait as [(x & lx & Nx & Gx & Mw)|(Nx & Ce)].
        - destruct (line_result _ _ _ _ _ _ _ _ _ _ _ _ _ St1 P Gl1 Fl Nx Gx) as (X & _). exact (X Mw).
        - exact (end_result _ _ _ _ _ _ _ _ _ _ _ St1 P Gl1 Fl Nx Ce). }
      apply leb_R in B. rewrite max_R in B. unfold vx_stop_at_line, x_stop_at_line in B.
      assert (nsub (nadd (lk_length l) n0) (pos_front v1) = room_left l v) as E. { unfold room_left, pos_front, n0. rewrite Ep1, Eh1. unR. lra. }
      rewrite E, Ev1, Ea1 in B. exact B.
  - assert (forall x y, o <> OLaneChange k x y) as N1 by (intros x y ->; cbn in Q; tauto).
    destruct (call_keeps _ _ _ _ _ _ _ Rc H Es N1 G G') as (Sp & Ev & Ea & Ep & _).
    destruct (spec_parts _ _ Sp) as (Eh & _).
    assert (room_left l' v' = room_left l v) as -> by (unfold room_left, pos_front; rewrite Ep, Eh, Elen; reflexivity).
    apply (room_call d e s o s' v v'); auto.
Qed.

Lemma line_all V d lid k s ops s' l v : throughout (settled (held V lid k)) (keep_lanes d [k]) s ops s' -> reachable s ->
  sm_get (s_links s) lid = Some l -> sm_get (s_vehicles s) k = Some v -> careful V d v -> room_to_react (max_acc v) d V 0 (5 * lk_limit l) ->
  kept_line d lid k s -> kept_line d lid k s'.
Proof.
  intros T. revert l v. induction T as [s F|e s o s1 ops s' F Q H T IH]; intros l v Rc Gl G Cf Far J; [exact J|].
  assert (settled (held V lid k) s1) as F1 by (destruct T; assumption). pose proof (line_step _ _ _ _ _ _ _ _ _ _ Rc Q H F (proj1 F1) Gl G Cf Far J) as J1. pose proof (reach_call _ _ _ _ Rc H) as Rc1.
  destruct J1 as (l1 & v1 & Gl1 & G1 & ?). destruct (same_road _ _ _ _ _ _ _ Rc H Gl Gl1) as (_ & Elim).
  assert (spec_of v1 = spec_of v) as Sp.
  { destruct (is_step o) eqn:Es.
    - destruct o; try discriminate Es. destruct (step_motion _ _ _ _ _ _ (reachable_Inv _ Rc) H G1) as (v0 & ? & ? & ? & ? & G0 & _ & _ & _ & _ & _ & _ & Sp & _). congruence.
    - destruct (exec_body _ _ _ _ _ _ (reachable_Inv _ Rc) H Es G1) as [(v0 & G0 & Sp & _)|(a & x & _ & E & _)]; congruence. }
  apply (IH l1 v1); auto; [apply (careful_same _ _ v); auto| |exists l1, v1; auto]. destruct (spec_parts _ _ Sp) as (_ & _ & -> & _). rewrite Elim. exact Far.
Qed.
