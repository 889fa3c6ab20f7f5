(** * C79: a vehicle stays out of a crossing until it is its turn *)
From Coq Require Import List Bool ZArith NArith Arith Lia Reals Lra.
From Verif Require Import Arith RealArith Base BaseProofs SlotMap Util Geom Light Accel Net Path Vehicle LinkOps Sim SpecSim SpecMotion SlotMapProofs Safe NetInv SimInv AccSafe SimSafe StepSafe OpSafe Evo StepEvo SimProofs StepProofs Ord LogProofs Motion RFacts NetEvo P_Motion SpecEnter SpecAhead SpecConf ConfProofs P_Enter P_Exit P_Conf SpecGap GapKin GapProofs StopProofs P_Gap SpecCross TurnProofs.
Import ListNotations.
Local Open Scope R_scope.

Lemma kept_out_start ops0 (s : @sim RA) d p k (v : @vehicle RA) : history sim_new ops0 s -> List.Forall forward ops0 -> 0 <= d -> vehicle_at s k = Some v -> room_to_react (max_acc v) d (v_vel v) 0 (room_before p v) -> kept_out d p k s.
Proof.
  intros H0 F Hd G Rm. pose proof (timer_nonneg _ _ H0 F) as Tn. exists v. split; [exact G|]. right. exists (refresh_time d). split; [unfold refresh_time; lra|]. split; [lra|]. apply room_K. exact Rm.
Qed.
Lemma kept_out_end (s : @sim RA) d p k (v : @vehicle RA) : reachable s -> 0 <= d -> 0 <= (max_acc v : R) -> vehicle_at s k = Some v -> kept_out d p k s -> 0 <= room_before p v /\ v_vel v * v_vel v / 12 <= room_before p v.
Proof.
  intros Rc Hd Ha G (w & Gw & J). unfold vehicle_at in G. assert (w = v) by congruence. subst w.
  assert (0 <= room_before p v /\ v_vel v * v_vel v / 12 <= room_before p v + 0 * 0 / 12) as X; [|lra]. apply (K_end d (s_acc_update s) v); auto. apply (vel0_R s k); auto.
Qed.

(** As long as, at every moment, some vehicle of the other link that has not left the crossing is further
    ahead, the first vehicle of this link stays out of the crossing, and stays able to stop before it. *)
Theorem C79_waits_its_turn :
  forall V d ops0 s ops s' a b i amin amax bmin bmax k lb v v', history (@sim_new RA) ops0 s -> List.Forall forward ops0 ->
    throughout (settled (not_its_turn V a b i amin amax bmin bmax k)) (keep_lanes d [k]) s ops s' ->
    link_at s b = Some lb -> vehicle_at s k = Some v -> careful V d v -> 0 <= d ->
    room_to_react (max_acc v) d (v_vel v) 0 (room_before bmin v) -> room_to_react (max_acc v) d V 0 (5 * lk_limit lb) ->
    vehicle_at s' k = Some v' ->
    0 <= room_before bmin v' /\ v_vel v' * v_vel v' / 12 <= room_before bmin v'.
Proof.
  intros V d ops0 s ops s' a b i amin amax bmin bmax k lb v v' H0 F T Gl G Cf Hd Rm Far G'.
  assert (@reachable RA s) as Rc by (exact (history_reachable _ _ _ H0 (@reach_new RA))).
  pose proof (kept_out_start _ _ _ _ _ _ H0 F Hd G Rm) as J.
  assert (kept_out d bmin k s') as J'.
  { refine (taken_all V d a b i amin amax bmin bmax k _ s ops s' lb v T Rc _ _ Gl G Cf Far J); [|intros t _ (Hs & Hl) _; split; [apply turn_waits; exact Hs|]; intros e1 s1 H1; apply turn_waits; exact (Hl e1 s1 H1)]. intros t ((_ & w & N & _) & _). eauto. }
  apply (kept_out_end s' d bmin k v'); auto; [eapply throughout_reachable; eauto|].
  destruct (spec_parts _ _ (throughout_spec _ _ k _ _ _ v v' T Rc ltac:(intros t ((_ & w & (_ & l0 & _ & _ & Gw & _) & _) & _); unfold vehicle_at in Gw; congruence) G G')) as (_ & _ & -> & _). destruct Cf as (Ca & _). lra.
Qed.
Print Assumptions C79_waits_its_turn.

(** As long as some vehicle of the other link is in the crossing, the first vehicle of this link stays out of it. *)
Theorem C79_taken_crossing :
  forall V d ops0 s ops s' a b i amin amax bmin bmax k lb v v', history (@sim_new RA) ops0 s -> List.Forall forward ops0 ->
    throughout (settled (taken V a b i amin amax bmin bmax k)) (keep_lanes d [k]) s ops s' ->
    link_at s b = Some lb -> vehicle_at s k = Some v -> careful V d v -> 0 <= d ->
    room_to_react (max_acc v) d (v_vel v) 0 (room_before bmin v) -> room_to_react (max_acc v) d V 0 (5 * lk_limit lb) ->
    vehicle_at s' k = Some v' ->
    (pos_front v' : R) <= bmin /\ v_vel v' * v_vel v' / 12 <= room_before bmin v'.
Proof.
  intros V d ops0 s ops s' a b i amin amax bmin bmax k lb v v' H0 F T Gl G Cf Hd Rm Far G'.
  assert (@reachable RA s) as Rc by (exact (history_reachable _ _ _ H0 (@reach_new RA))).
  pose proof (kept_out_start _ _ _ _ _ _ H0 F Hd G Rm) as J.
  assert (kept_out d bmin k s') as J'.
  { refine (taken_all V d a b i amin amax bmin bmax k _ s ops s' lb v T Rc _ _ Gl G Cf Far J).
    - intros t ((_ & N & _) & _). exact N.
    - intros t Rt Ft Kt. destruct (taken_turn _ _ _ _ _ _ _ _ _ _ _ Rt Kt Ft) as (Hs & Hl). split; [apply turn_waits; exact Hs|]. intros e1 s1 H1. apply turn_waits. exact (Hl e1 s1 H1). }
  assert (0 <= room_before bmin v' /\ v_vel v' * v_vel v' / 12 <= room_before bmin v') as (X & Y); [|split; [unfold room_before in X; lra|exact Y]].
  apply (kept_out_end s' d bmin k v'); auto; [eapply throughout_reachable; eauto|].
  destruct (spec_parts _ _ (throughout_spec _ _ k _ _ _ v v' T Rc ltac:(intros t ((_ & (w & (_ & l0 & _ & _ & Gw & _)) & _) & _); unfold vehicle_at in Gw; congruence) G G')) as (_ & _ & -> & _). destruct Cf as (Ca & _). lra.
Qed.
Print Assumptions C79_taken_crossing.

(** Where links come together, too: as long as a vehicle of the other link is on its way in (no vehicle of that link has got its rear past the
    start), the first vehicle of this link stays before the place where they come together. *)
Theorem C79_merging :
  forall V d ops0 s ops s' a b i amin amax bmin bmax k lb v v', history (@sim_new RA) ops0 s -> List.Forall forward ops0 ->
    throughout (settled (going_in V a b i amin amax bmin bmax k)) (keep_lanes d [k]) s ops s' ->
    link_at s b = Some lb -> vehicle_at s k = Some v -> careful V d v -> 0 <= d ->
    room_to_react (max_acc v) d (v_vel v) 0 (room_before bmin v) -> room_to_react (max_acc v) d V 0 (5 * lk_limit lb) ->
    vehicle_at s' k = Some v' ->
    (pos_front v' : R) <= bmin /\ v_vel v' * v_vel v' / 12 <= room_before bmin v'.
Proof.
  intros V d ops0 s ops s' a b i amin amax bmin bmax k lb v v' H0 F T Gl G Cf Hd Rm Far G'.
  assert (@reachable RA s) as Rc by (exact (history_reachable _ _ _ H0 (@reach_new RA))).
  pose proof (kept_out_start _ _ _ _ _ _ H0 F Hd G Rm) as J.
  assert (kept_out d bmin k s') as J'.
  { refine (taken_all V d a b i amin amax bmin bmax k _ s ops s' lb v T Rc _ _ Gl G Cf Far J).
    - intros t ((_ & N & _) & _). exact N.
    - intros t Rt Ft Kt. exact (going_waits _ _ _ _ _ _ _ _ _ _ _ Rt Kt Ft). }
  assert (0 <= room_before bmin v' /\ v_vel v' * v_vel v' / 12 <= room_before bmin v') as (X & Y); [|split; [unfold room_before in X; lra|exact Y]].
  apply (kept_out_end s' d bmin k v'); auto; [eapply throughout_reachable; eauto|].
  destruct (spec_parts _ _ (throughout_spec _ _ k _ _ _ v v' T Rc ltac:(intros t ((_ & (w & (_ & l0 & _ & _ & Gw & _)) & _) & _); unfold vehicle_at in Gw; congruence) G G')) as (_ & _ & -> & _). destruct Cf as (Ca & _). lra.
Qed.
Print Assumptions C79_merging.
