(** * Giving way at a crossing, in exact arithmetic *)
From Coq Require Import List Bool ZArith NArith Arith Lia Reals Lra.
From Verif Require Import Arith RealArith Base BaseProofs SlotMap Util Geom Light Accel Net Path Vehicle LinkOps Sim SpecSim SpecMotion SlotMapProofs Safe NetInv SimInv AccSafe SimSafe StepSafe OpSafe Evo StepEvo SimProofs StepProofs Ord LogProofs Motion RFacts NetEvo P_Motion SpecEnter SpecAhead SpecConf ConfProofs P_Enter P_Exit P_Conf SpecGap GapKin GapProofs StopProofs SpecCross.
Import ListNotations.
Local Open Scope R_scope.

(** ** The acceleration at a refresh *)
(** The first vehicle of its link, behind somebody of the other link, comes next after one of them. *)
Lemma next_after (order : list (@arrival RA)) b me r : by_front order -> In me order -> In r order -> ar_link me = b -> (ar_front me : R) < ar_front r ->
  (forall x, In x order -> ar_link x = b -> x = me \/ (ar_front x : R) < ar_front me) -> exists p leader q, order = p ++ leader :: me :: q /\ ar_link leader <> b.
Proof.
  intros Bf Hm Hr Lm Lt First.
  assert (forall l1 x l2 y, order = l1 ++ x :: l2 -> In y l2 -> @nltb RA (ar_front x) (ar_front y) = false) as After.
  { clear -Bf. revert Bf. induction order as [|z l IH]; intros Bf l1 x l2 y E Hy; [destruct l1; discriminate E|]. destruct Bf as (B1 & B2).
    destruct l1 as [|z' l1]; cbn [app] in E; injection E as <- E; [subst l; apply B1; exact Hy|]. eapply (IH B2); eassumption. }
  assert (exists p f q, order = p ++ f :: q /\ ar_link f = b /\ forall x, In x p -> ar_link x <> b) as (p & f & q & E & Lf & Np).
  { clear -Hm Lm. induction order as [|z l IH]; [destruct Hm|]. destruct (key_eqb_spec (ar_link z) b) as [<-|N].
    - exists [], z, l. split; [reflexivity|]. split; [reflexivity|]. intros x [].
    - destruct Hm as [->|Hm]; [contradiction|]. destruct (IH Hm) as (p & f & q & -> & Lf & Np). exists (z :: p), f, q. split; [reflexivity|]. split; [exact Lf|]. intros x [<-|Hx]; [exact N|apply Np; exact Hx]. }
  assert (f = me) as ->.
  { destruct (First f) as [X|X]; [rewrite E; apply in_or_app; right; left; reflexivity|exact Lf|exact X|]. exfalso.
    rewrite E in Hm. apply in_app_or in Hm. destruct Hm as [Hm|[<-|Hm]]; [exact (Np _ Hm Lm)|lra|]. pose proof (After _ _ _ _ E Hm) as Q. apply ltb_R_false in Q. lra. }
  assert (In r p) as Hp.
  { rewrite E in Hr. apply in_app_or in Hr. destruct Hr as [Hr|[<-|Hr]]; [exact Hr|lra|]. exfalso. pose proof (After _ _ _ _ E Hr) as Q. apply ltb_R_false in Q. lra. }
  destruct (exists_last (l := p)) as (p' & x & ->); [intros ->; destruct Hp|]. exists p', x, q. split; [rewrite E, <- app_assoc; reflexivity|]. apply Np. apply in_or_app. right. left. reflexivity.
Qed.

(** ** The vehicle before the crossing *)
Definition kept_out (d p : R) (k : key) (s : @sim RA) : Prop :=
  exists v, sm_get (s_vehicles s) k = Some v /\
    (acceleration v = -6 /\ K (max_acc v) (d / 2) 0 (v_vel v) 0 (room_before p v) \/
     exists r, 0 <= r /\ refresh_time d <= r + s_acc_update s /\ K (max_acc v) (d / 2) r (v_vel v) 0 (room_before p v)).

(** Giving way, at a crossing or where links come together. *)
Definition waits (V : R) (a b : key) (i : nat) (amin amax bmin bmax : R) (k : key) (s : @sim RA) : Prop :=
  (a <> b /\ exists la lb c c', link_at s a = Some la /\ link_at s b = Some lb /\
    nth_error (conflicts_with la b) i = Some c /\ nth_error (conflicts_with lb a) i = Some c' /\
    cf_min c' = amin /\ cf_max c' = amax /\ cf_min c = bmin /\ cf_max c = bmax /\
    (@same_direction RA la lb amin amax bmin bmax = false \/ forall r, @near_zone RA s a amin amax r -> (ar_rear r : R) <= 0)) /\
  exists v, next_at_crossing V b bmin bmax k v s /\
    exists r, @near_zone RA s a amin amax r /\ (ar_front (@Arrival RA k v b bmin) : R) < ar_front r.
Lemma turn_waits V a b i amin amax bmin bmax k s : not_its_turn V a b i amin amax bmin bmax k s -> waits V a b i amin amax bmin bmax k s.
Proof. intros ((N & la & lb & c & c' & G1 & G2 & N1 & N2 & E1 & E2 & E3 & E4 & Sd) & W). split; [|exact W]. split; [exact N|]. exists la, lb, c, c'. auto 12. Qed.
Lemma turn_step_gen V d e (s : @sim RA) o s' a b i amin amax bmin bmax k lb v : reachable s -> keep_lanes d [k] o -> exec e s o = Ok s' ->
  settled (waits V a b i amin amax bmin bmax k) s -> (exists v', next_at_crossing V b bmin bmax k v' s') -> sm_get (s_links s) b = Some lb -> sm_get (s_vehicles s) k = Some v -> careful V d v ->
  room_to_react (max_acc v) d V 0 (5 * lk_limit lb) -> kept_out d bmin k s -> kept_out d bmin k s'.
Proof.
  intros Rc Q H (Hs & Hl) (v' & _ & lb' & Gl' & Hk' & G' & HV' & _) Gl G Cf Far J.
  destruct Hs as (_ & v0 & (Pr & l0 & Gl0 & Hk & G0 & HV & _) & _).
  unfold link_at, vehicle_at in *. assert (v0 = v) by congruence. assert (l0 = lb) by congruence. subst v0 l0. pose proof (reachable_Inv _ Rc) as I. pose proof (reach_call _ _ _ _ Rc H) as Rc'. pose proof (reachable_Inv _ Rc') as I'.
  assert (forall (t : @sim RA) l w, Inv t -> sm_get (s_links t) b = Some l -> In k (lk_vehicles l) -> sm_get (s_vehicles t) k = Some w -> v_link w = Some b) as On.
  { intros t l w It Gt Ht Gw. destruct (st_occ _ _ _ (i_st _ It) _ _ Gt) as (_ & Oc). apply Oc in Ht. unfold at_of in Ht. rewrite Gw in Ht. exact Ht. }
  pose proof (On _ _ _ I Gl Hk G) as L. pose proof (On _ _ _ I' Gl' Hk' G') as L'.
  destruct J as (w & E1 & J). assert (w = v) by congruence. subst w. clear E1.
  pose proof (vel0_R _ _ _ Rc G) as V0.
  exists v'. split; [exact G'|].
  destruct (is_step o) eqn:Es.
  - destruct o; try discriminate Es. cbn [exec] in H. cbn [keep_lanes] in Q.
    destruct (stay_step _ _ _ _ _ _ _ _ Rc H G G' L L' Pr) as (Sp & Ep & Ev & s1 & v1 & H1 & G1 & Ep1 & Eh1 & Ev1 & Ea1 & L1 & St1).
    destruct (spec_parts _ _ Sp) as (Eh & _).
    assert (room_before bmin v' = room_before bmin v + (0 + 0) / 2 * dt - (v_vel v + v_vel v') / 2 * dt) as ->.
    { unfold room_before, pos_front. rewrite Ep, Eh. unR. lra. }
    apply (room_step V d e s dt s' k v v' b); auto; try lra.
    intros D. destruct (Hl _ _ H1) as ((Nab & la1 & lb1 & c & c' & Ga1 & Gb1 & Hc & Hc' & Ea & Ea' & Eb & Eb' & Sd) & w & (Pr1 & l1 & Gl1 & Hk1 & Gw & _ & Near & First) & ra & Na & Lt). unfold link_at, vehicle_at in *.
    assert (w = v1) by congruence. subst w. assert (l1 = lb) by (rewrite (lane_changes_other _ _ _ _ (i_st _ I) H1 (proj2 Pr)) in Gl1; congruence). subst l1. assert (lb1 = lb) by congruence. subst lb1.
    assert (pos_front v1 = pos_front v) as Epf by (unfold pos_front; rewrite Ep1, Eh1; reflexivity).
    destruct Near as [Near|Near].
    + left. destruct (conf_now RA_ord decel_nan_R Rmult_comm e s dt s1 s' a b la1 lb i c c' ra (@Arrival RA k v1 b bmin)) as (order & Oi & Ob & Ol); auto.
      { exact (due_R _ D). }
      { rewrite Ea, Ea'. exact Na. }
      { rewrite Eb, Eb'. exact Near. }
      rewrite Ea, Ea', Eb, Eb' in Oi.
      destruct (next_after order b (@Arrival RA k v1 b bmin) ra) as (p & leader & q & Eo & Nl); auto.
      { apply Oi. right. exact Near. }
      { apply Oi. left. exact Na. }
      { intros x Hx Lx. apply Oi in Hx. destruct Hx as [Hx|Hx]; [|exact (First _ Hx)].
        exfalso. apply Nab. destruct Hx as (X & _). congruence. }
      pose proof (Ol _ _ _ _ v' Eo Nl G') as B. cbv zeta in B. rewrite Ea, Ea', Eb, Eb' in B. unfold yield_to in B. cbn [ar_veh ar_dist] in B.
      assert (@same_direction RA la1 lb amin amax bmin bmax && @nltb RA n0 (ar_rear leader) = false) as Sd1.
      { destruct Sd as [->|Sd]; [reflexivity|]. apply andb_false_intro2. apply ltb_R_false. apply Sd. assert (In leader order) as Hlo by (rewrite Eo; apply in_or_app; right; left; reflexivity). apply Oi in Hlo. destruct Hlo as [Hlo|(Hlo & _)]; [exact Hlo|contradiction]. }
      rewrite Sd1 in B. specialize (B eq_refl). apply leb_R in B. rewrite max_R in B.
      change (@driver_model RA v1 (@nsub RA (@nadd RA bmin n0) (pos_front v1)) n0) with (@idm RA (v_acc v1) (@nsub RA (@nadd RA bmin n0) (pos_front v1)) (v_vel v1) n0) in B.
      assert (@nsub RA (@nadd RA bmin n0) (pos_front v1) = room_before bmin v) as E. { unfold room_before. rewrite Epf. unfold n0. unR. lra. }
      rewrite E, Ev1, Ea1 in B. exact B.
    + right. apply room_K. destruct Far as (F1 & F2). assert (5 * lk_limit lb < room_before bmin v) as Fr.
      { unfold room_before. rewrite <- Epf. revert Near. unR. intros Near. lra. }
      assert (0 < (max_acc v : R)) as Pm by (destruct Cf as (Ca & _); lra).
      unfold room_to_react, refresh_time in *. split; [lra|]. set (t := 1 / 10 + d) in *. assert (0 < t) by (unfold t; lra).
      assert (v_vel v * t <= V * t) by (apply Rmult_le_compat_r; lra). assert (0 <= max_acc v * t) by (apply Rmult_le_pos; lra).
      assert ((v_vel v + max_acc v * t) * (v_vel v + max_acc v * t) <= (V + max_acc v * t) * (V + max_acc v * t)) by (apply Rmult_le_compat; lra).
      assert ((v_vel v + max_acc v * t) * d <= (V + max_acc v * t) * d) by (apply Rmult_le_compat_r; lra). lra.
  - assert (forall x y, o <> OLaneChange k x y) as N1 by (intros x y ->; cbn in Q; tauto).
    destruct (call_keeps _ _ _ _ _ _ _ Rc H Es N1 G G') as (Sp & Ev & Ea & Ep & _).
    destruct (spec_parts _ _ Sp) as (Eh & _).
    assert (room_before bmin v' = room_before bmin v) as -> by (unfold room_before, pos_front; rewrite Ep, Eh; reflexivity).
    apply (room_call d e s o s' v v'); auto.
Qed.

Lemma turn_step V d e (s : @sim RA) o s' a b i amin amax bmin bmax k lb v : reachable s -> keep_lanes d [k] o -> exec e s o = Ok s' ->
  settled (not_its_turn V a b i amin amax bmin bmax k) s -> (exists v', next_at_crossing V b bmin bmax k v' s') -> sm_get (s_links s) b = Some lb -> sm_get (s_vehicles s) k = Some v -> careful V d v ->
  room_to_react (max_acc v) d V 0 (5 * lk_limit lb) -> kept_out d bmin k s -> kept_out d bmin k s'.
Proof. intros Rc Q H (Hs & Hl). apply (turn_step_gen V d e s o s' a b i amin amax bmin bmax k lb v Rc Q H). split; [apply turn_waits; exact Hs|]. intros e1 s1 H1. apply turn_waits. exact (Hl e1 s1 H1). Qed.

Lemma turn_same e (s : @sim RA) o s' k v v1 : reachable s -> exec e s o = Ok s' -> sm_get (s_vehicles s) k = Some v -> sm_get (s_vehicles s') k = Some v1 -> spec_of v1 = spec_of v.
Proof.
  intros Rc H G G1. destruct (is_step o) eqn:Es.
  - destruct o; try discriminate Es. destruct (step_motion _ _ _ _ _ _ (reachable_Inv _ Rc) H G1) as (v0 & ? & ? & ? & ? & G0 & _ & _ & _ & _ & _ & _ & Sp & _). congruence.
  - destruct (exec_body _ _ _ _ _ _ (reachable_Inv _ Rc) H Es G1) as [(v0 & G0 & Sp & _)|(a0 & x & _ & E & _)]; congruence.
Qed.
(** As long as the crossing is taken and the vehicle is before it, it is not its turn. *)
Lemma taken_turn V a b i amin amax bmin bmax k d s : reachable s -> kept_out d bmin k s -> settled (taken V a b i amin amax bmin bmax k) s -> settled (not_its_turn V a b i amin amax bmin bmax k) s.
Proof.
  intros Rc (v & G & Jv) (Hs & Hl). assert (0 <= room_before bmin v) as R0 by (destruct Jv as [(_ & X & _)|(r & _ & _ & X & _)]; exact X).
  assert (forall t w, taken V a b i amin amax bmin bmax k t -> sm_get (s_vehicles t) k = Some w -> pos_front w = pos_front v -> not_its_turn V a b i amin amax bmin bmax k t) as X.
  { intros t w (C & (w' & N) & r & Nr & Lr) Gw Ep. split; [exact C|]. exists w'. split; [exact N|]. exists r. split; [exact Nr|]. destruct N as (_ & l & _ & _ & Gw' & _). unfold vehicle_at in Gw'. assert (w' = w) by congruence. subst w'.
    eapply Rle_lt_trans; [|exact Lr]. unfold ar_front. cbn [ar_veh ar_dist]. rewrite Ep. unfold room_before in R0. unR. lra. }
  split; [apply (X s v); auto|]. intros e s1 H1. pose proof (Hl _ _ H1) as T1. pose proof T1 as (_ & (w & (_ & l & Gl & Hk & Gw & _)) & _). unfold vehicle_at in Gw. apply (X s1 w); auto.
  pose proof (reachable_Inv _ Rc) as I. destruct Hs as (_ & (v0 & (Pr & l0 & Gl0 & Hk0 & G0 & _)) & _). unfold link_at, vehicle_at in *. assert (v0 = v) by congruence. subst v0.
  destruct (st_occ _ _ _ (i_st _ I) _ _ Gl0) as (_ & Oc). apply Oc in Hk0. unfold at_of in Hk0. rewrite G in Hk0.
  destruct (lane_changes_evo _ _ _ (i_st _ I) H1 _ _ Gw) as (v0 & G0' & Rl). assert (v0 = v) by congruence. subst v0. clear G0'.
  destruct Rl as (B & [(L1 & P1 & _)|(a0 & b0 & M1 & M2 & M3 & M4)] & _); [|exfalso; assert (a0 = b) by congruence; subst a0; exact (proj2 (proj2 Pr b0) M3)].
  apply body_spec in B. destruct B as (Sb & _). destruct (spec_parts _ _ Sb) as (Eh & _). unfold pos_front. rewrite P1, Eh. reflexivity.
Qed.
(** The same where links come together. *)
Lemma going_waits V a b i amin amax bmin bmax k d s : reachable s -> kept_out d bmin k s -> settled (going_in V a b i amin amax bmin bmax k) s -> settled (waits V a b i amin amax bmin bmax k) s.
Proof.
  intros Rc (v & G & Jv) (Hs & Hl). assert (0 <= room_before bmin v) as R0 by (destruct Jv as [(_ & X & _)|(r & _ & _ & X & _)]; exact X).
  assert (forall t w, going_in V a b i amin amax bmin bmax k t -> sm_get (s_vehicles t) k = Some w -> pos_front w = pos_front v -> waits V a b i amin amax bmin bmax k t) as X.
  { intros t w ((Nab & la & lb & c & c' & G1 & G2 & N1 & N2 & E1 & E2 & E3 & E4) & (w' & N) & (r & Nr & Lr) & Al) Gw Ep. split; [split; [exact Nab|]; exists la, lb, c, c'; do 8 (split; [assumption|]); right; exact Al|]. exists w'. split; [exact N|]. exists r. split; [exact Nr|]. destruct N as (_ & l & _ & _ & Gw' & _). unfold vehicle_at in Gw'. assert (w' = w) by congruence. subst w'.
    eapply Rle_lt_trans; [|exact Lr]. unfold ar_front. cbn [ar_veh ar_dist]. rewrite Ep. unfold room_before in R0. unR. lra. }
  split; [apply (X s v); auto|]. intros e s1 H1. pose proof (Hl _ _ H1) as T1. pose proof T1 as (_ & (w & (_ & l & Gl & Hk & Gw & _)) & _ & _). unfold vehicle_at in Gw. apply (X s1 w); auto.
  pose proof (reachable_Inv _ Rc) as I. destruct Hs as (_ & (v0 & (Pr & l0 & Gl0 & Hk0 & G0 & _)) & _). unfold link_at, vehicle_at in *. assert (v0 = v) by congruence. subst v0.
  destruct (st_occ _ _ _ (i_st _ I) _ _ Gl0) as (_ & Oc). apply Oc in Hk0. unfold at_of in Hk0. rewrite G in Hk0.
  destruct (lane_changes_evo _ _ _ (i_st _ I) H1 _ _ Gw) as (v0 & G0' & Rl). assert (v0 = v) by congruence. subst v0. clear G0'.
  destruct Rl as (B & [(L1 & P1 & _)|(a0 & b0 & M1 & M2 & M3 & M4)] & _); [|exfalso; assert (a0 = b) by congruence; subst a0; exact (proj2 (proj2 Pr b0) M3)].
  apply body_spec in B. destruct B as (Sb & _). destruct (spec_parts _ _ Sb) as (Eh & _). unfold pos_front. rewrite P1, Eh. reflexivity.
Qed.
Lemma taken_all V d a b i amin amax bmin bmax k (P : @sim RA -> Prop) s ops s' lb v : throughout P (keep_lanes d [k]) s ops s' -> reachable s ->
  (forall t, P t -> exists w, next_at_crossing V b bmin bmax k w t) -> (forall t, reachable t -> P t -> kept_out d bmin k t -> settled (waits V a b i amin amax bmin bmax k) t) ->
  sm_get (s_links s) b = Some lb -> sm_get (s_vehicles s) k = Some v -> careful V d v -> room_to_react (max_acc v) d V 0 (5 * lk_limit lb) ->
  kept_out d bmin k s -> kept_out d bmin k s'.
Proof.
  intros T. revert lb v. induction T as [s F|e s o s1 ops s' F Q H T IH]; intros lb v Rc HP1 HP2 Gl G Cf Far J; [exact J|].
  assert (P s1) as F1 by (destruct T; assumption). pose proof (turn_step_gen _ _ _ _ _ _ _ _ _ _ _ _ _ _ _ _ Rc Q H (HP2 _ Rc F J) (HP1 _ F1) Gl G Cf Far J) as J1. pose proof (reach_call _ _ _ _ Rc H) as Rc1.
  destruct (HP1 _ F1) as (w & (_ & l1 & Gl1 & _)). unfold link_at in Gl1. pose proof J1 as (v1 & G1 & _). destruct (same_road _ _ _ _ _ _ _ Rc H Gl Gl1) as (_ & Elim).
  pose proof (turn_same _ _ _ _ _ _ _ Rc H G G1) as Sp.
  apply (IH l1 v1); auto; [apply (careful_same _ _ v); auto|]. destruct (spec_parts _ _ Sp) as (_ & _ & -> & _). rewrite Elim. exact Far.
Qed.
