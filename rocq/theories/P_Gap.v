(** * No collisions on a link (C63), no overrun of the line at its end (C64) *)
From Coq Require Import List Bool ZArith NArith Arith Lia Reals Lra.
From Verif Require Import Arith RealArith Base BaseProofs SlotMap Util Geom Light Accel Net Path Vehicle LinkOps Sim SpecSim SpecMotion SlotMapProofs Safe NetInv SimInv AccSafe SimSafe StepSafe OpSafe Evo StepEvo SimProofs StepProofs Ord LogProofs Motion RFacts NetEvo P_Motion SpecEnter P_Enter P_Exit SpecGap GapKin GapProofs StopProofs.
Import ListNotations.
Local Open Scope R_scope.

Lemma timer_nonneg ops (s : @sim RA) : history sim_new ops s -> Forall forward ops -> 0 <= s_acc_update s.
Proof.
  assert (forall s0 ops0 s1, history s0 ops0 s1 -> @reachable RA s0 -> Forall forward ops0 -> 0 <= s_acc_update s0 -> 0 <= s_acc_update s1) as X.
  { intros s0 ops0 s1 H. induction H as [|e s0 o s1 ops0 s2 H1 Hh IH]; intros Rc F Z; [exact Z|]. inversion F as [|? ? Fo Fr]; subst. apply IH; [exact (reach_call _ _ _ _ Rc H1)|exact Fr|].
    destruct (is_step o) eqn:Es.
    - destruct o; try discriminate Es. cbn [exec forward] in *. rewrite (step_R_timer _ _ _ _ (reachable_Inv _ Rc) H1). destruct Rlt_dec; lra.
    - destruct (exec_timers _ _ _ _ (reachable_Inv _ Rc) H1 Es) as (-> & _). exact Z. }
  intros H F. apply (X _ _ _ H (@reach_new RA) F). simpl. unR. lra.
Qed.

Lemma throughout_reachable P Q s ops s' : throughout P Q s ops s' -> @reachable RA s -> @reachable RA s'.
Proof. intros T. induction T; auto. intros Rc. apply IHT. eapply reach_call; eauto. Qed.
Lemma throughout_spec P Q k s ops s' v v' : throughout P Q s ops s' -> @reachable RA s -> (forall t, P t -> sm_get (s_vehicles t) k <> None) ->
  sm_get (s_vehicles s) k = Some v -> sm_get (s_vehicles s') k = Some v' -> spec_of v' = spec_of v.
Proof.
  intros T Rc Hk G G'. revert v G. induction T as [s _|e s o s1 ops s' Fo HQ H T IH]; intros v G; [congruence|].
  assert (P s1) as F1 by (destruct T; assumption). pose proof (Hk _ F1) as F2. destruct (sm_get (s_vehicles s1) k) as [v1|] eqn:G1; [|congruence]. rewrite (IH (reach_call _ _ _ _ Rc H) G' v1 eq_refl).
  destruct (is_step o) eqn:Es.
  - destruct o; try discriminate Es. destruct (step_motion _ _ _ _ _ _ (reachable_Inv _ Rc) H G1) as (v0 & ? & ? & ? & ? & G0 & _ & _ & _ & _ & _ & _ & Sp & _). congruence.
  - destruct (exec_body _ _ _ _ _ _ (reachable_Inv _ Rc) H Es G1) as [(v0 & G0 & Sp & _)|(a & x & _ & E & _)]; congruence.
Qed.
Lemma K_end (d tm : R) (v : @vehicle RA) (u g : R) : 0 <= d -> 0 <= (v_vel v : R) -> 0 <= (max_acc v : R) ->
  acceleration v = -6 /\ K (max_acc v) (d / 2) 0 (v_vel v) u g \/ (exists r, 0 <= r /\ refresh_time d <= r + tm /\ K (max_acc v) (d / 2) r (v_vel v) u g) ->
  0 <= g /\ v_vel v * v_vel v / 12 <= g + u * u / 12.
Proof.
  intros Hd V0 Ha J. assert (K (max_acc v) (d / 2) 0 (v_vel v) u g) as (K1 & K2). { destruct J as [(_ & J)|(r & R1 & _ & J)]; [exact J|]. apply (K_mono _ _ r); try lra; auto. }
  split; [exact K1|]. rewrite Rmult_0_r, Rplus_0_r in K2. assert (0 <= d / 2 * v_vel v) by (apply Rmult_le_pos; lra). lra.
Qed.

(** ** C63 *)
Theorem C63_no_rear_end_collision :
  forall V d ops0 s ops s' lid k k2 v v2 v' v2', history (@sim_new RA) ops0 s -> Forall forward ops0 ->
    throughout (follows V lid k k2) (keep_lanes d [k; k2]) s ops s' ->
    vehicle_at s k = Some v -> vehicle_at s k2 = Some v2 -> careful V d v -> 0 <= d ->
    room_to_react (max_acc v) d (v_vel v) (v_vel v2) (gap v v2) ->
    vehicle_at s' k = Some v' -> vehicle_at s' k2 = Some v2' ->
    0 <= gap v' v2' /\ v_vel v' * v_vel v' / 12 <= gap v' v2' + v_vel v2' * v_vel v2' / 12.
Proof.
  intros V d ops0 s ops s' lid k k2 v v2 v' v2' H0 F T G G2 Cf Hd Rm G' G2'. unfold vehicle_at in *. pose proof (timer_nonneg _ _ H0 F) as Tn.
  assert (@reachable RA s) as Rc by (exact (history_reachable _ _ _ H0 (@reach_new RA))).
  assert (kept d k k2 s) as J. { exists v, v2. split; [exact G|]. split; [exact G2|]. right. exists (refresh_time d). split; [unfold refresh_time; lra|]. split; [lra|]. apply room_K. exact Rm. }
  destruct (pair_all _ _ _ _ _ _ _ _ _ T Rc G Cf J) as (w & w2 & E1 & E2 & J'). assert (w = v') by congruence. assert (w2 = v2') by congruence. subst w w2.
  apply (K_end d (s_acc_update s') v'); auto.
  - apply (vel0_R s' k); auto. eapply throughout_reachable; eauto.
  - destruct (spec_parts _ _ (throughout_spec _ _ k _ _ _ v v' T Rc ltac:(intros t (_ & l0 & w & _ & _ & _ & Gw & _); unfold vehicle_at in Gw; congruence) G G')) as (_ & _ & -> & _). destruct Cf as (Ca & _). lra.
Qed.
Print Assumptions C63_no_rear_end_collision.

(** ** C64 *)
Theorem C64_stops_at_the_line :
  forall V d ops0 s ops s' lid k l v l' v', history (@sim_new RA) ops0 s -> Forall forward ops0 ->
    throughout (settled (held V lid k)) (keep_lanes d [k]) s ops s' ->
    link_at s lid = Some l -> vehicle_at s k = Some v -> careful V d v -> 0 <= d ->
    room_to_react (max_acc v) d (v_vel v) 0 (room_left l v) -> room_to_react (max_acc v) d V 0 (5 * lk_limit l) ->
    link_at s' lid = Some l' -> vehicle_at s' k = Some v' ->
    0 <= room_left l' v' /\ v_vel v' * v_vel v' / 12 <= room_left l' v'.
Proof.
  intros V d ops0 s ops s' lid k l v l' v' H0 F T Gl G Cf Hd Rm Far Gl' G'. unfold vehicle_at, link_at in *. pose proof (timer_nonneg _ _ H0 F) as Tn.
  assert (@reachable RA s) as Rc by (exact (history_reachable _ _ _ H0 (@reach_new RA))).
  assert (kept_line d lid k s) as J. { exists l, v. split; [exact Gl|]. split; [exact G|]. right. exists (refresh_time d). split; [unfold refresh_time; lra|]. split; [lra|]. apply room_K. exact Rm. }
  destruct (line_all _ _ _ _ _ _ _ _ _ T Rc Gl G Cf Far J) as (l0 & w & E1 & E2 & J'). assert (w = v') by congruence. assert (l0 = l') by congruence. subst w l0.
  assert (0 <= room_left l' v' /\ v_vel v' * v_vel v' / 12 <= room_left l' v' + 0 * 0 / 12) as X; [|lra].
  apply (K_end d (s_acc_update s') v'); auto.
  - apply (vel0_R s' k); auto. eapply throughout_reachable; eauto.
  - destruct (spec_parts _ _ (throughout_spec _ _ k _ _ _ v v' T Rc ltac:(intros t ((_ & l0 & w & _ & _ & _ & Gw & _) & _); unfold vehicle_at in Gw; congruence) G G')) as (_ & _ & -> & _). destruct Cf as (Ca & _). lra.
Qed.
Print Assumptions C64_stops_at_the_line.
