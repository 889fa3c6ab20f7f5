(** * Driver model in exact arithmetic (C11, C12, C13), random factors (C25), link costs (C53) *)
From Coq Require Import List Bool ZArith NArith Arith Lia Reals Lra Psatz.
From Flocq Require Import Core.Raux.
From Verif Require Import Arith F64 RealArith RFacts Base BaseProofs SlotMap Util Geom Light Accel Net Path Vehicle LinkOps Sim SpecSim SpecMotion SpecKin.
Import ListNotations.
Local Open Scope R_scope.

(** ** C11: [min_reach_time] is the kinematic travel time *)
Notation vehR := (@vehicle RA).
(** The distance from the middle of the vehicle to [pos], zero if it is past. *)
Definition ahead (v : vehR) (pos : R) : R := Rmax (pos - v_pos v) 0.

Lemma covered_mono a v V t1 t2 : 0 < a -> 0 <= v <= V -> 0 < V -> 0 <= t1 < t2 -> covered a v V t1 < covered a v V t2.
Proof.
  intros A Hv HV Ht. unfold covered. set (ta := (V - v) / a). assert (0 <= ta) by (apply Rmult_le_pos; [lra|left; apply Rinv_0_lt_compat; lra]).
  assert (a * ta = V - v) by (unfold ta; field; lra).
  assert (forall x y, 0 <= x < y -> v * x + a * (x * x) / 2 < v * y + a * (y * y) / 2) as K.
  { intros x y Hxy. assert (v * x <= v * y) by (apply Rmult_le_compat_l; lra).
    assert (x * x < y * y) by nra. assert (a * (x * x) < a * (y * y)) by (apply Rmult_lt_compat_l; lra). lra. }
  destruct (Rle_dec t1 ta), (Rle_dec t2 ta).
  - apply K. lra.
  - assert (0 < V * (t2 - ta)) by (apply Rmult_lt_0_compat; lra). destruct (Req_dec t1 ta) as [->|]; [lra|]. pose proof (K t1 ta ltac:(lra)). lra.
  - lra.
  - assert (V * (t1 - ta) < V * (t2 - ta)) by (apply Rmult_lt_compat_l; lra). lra.
Qed.
Lemma reach_time_covered a v V d : 0 < a -> 0 <= v <= V -> 0 < V -> 0 <= d -> forall m, @am_max RA m = a ->
  0 <= @am_min_reach_time RA m v d V /\ covered a v V (@am_min_reach_time RA m v d V) = d.
Proof.
  intros A Hv HV Hd m <-. unfold am_min_reach_time. unfold powi2, n2, nhalf, lit. unR. set (a := am_max m) in *.
  set (ta := (V - v) / a). assert (0 <= ta) as T0 by (apply Rmult_le_pos; [lra|left; apply Rinv_0_lt_compat; lra]).
  assert (a * ta = V - v) as Ta by (unfold ta; field; lra).
  destruct (Rlt_bool_spec (2 * a * d + v * v) (V * V)) as [L|L].
  - set (q := sqrt (2 * a * d + v * v)). assert (q * q = 2 * a * d + v * v) as Q by (apply sqrt_sqrt; nra). assert (0 <= q) as Q0 by apply sqrt_pos.
    assert (v <= q) by nra. assert (q < V) by nra. set (t := (q - v) / a). assert (a * t = q - v) as At by (unfold t; field; lra).
    assert (0 <= t) by (apply Rmult_le_pos; [lra|left; apply Rinv_0_lt_compat; lra]). split; [exact H1|].
    unfold covered. fold ta. destruct (Rle_dec t ta); [|nra].
    apply Rmult_eq_reg_l with a; [|lra]. replace (a * (v * t + a * (t * t) / 2)) with (v * (a * t) + (a * t) * (a * t) / 2) by field. rewrite At. nra.
  - set (dd := 1 / 2 * (v + V) * ta). assert (a * dd = (V * V - v * v) / 2) as Dd by (unfold dd; replace (a * (1 / 2 * (v + V) * ta)) with (1 / 2 * (v + V) * (a * ta)) by ring; rewrite Ta; field).
    assert (dd <= d) by nra. assert (0 <= (d - dd) / V) by (apply Rmult_le_pos; [lra|left; apply Rinv_0_lt_compat; lra]).
    split; [lra|]. unfold covered. fold ta. destruct (Rle_dec (ta + (d - dd) / V) ta).
    + assert ((d - dd) / V = 0) as Z by lra. rewrite Z, Rplus_0_r. assert (d = dd) by (apply Rmult_eq_reg_r with (/ V); [unfold Rdiv in Z; lra|apply Rinv_neq_0_compat; lra]).
      subst d. unfold dd. assert (a * (ta * ta) = (V - v) * ta) by (rewrite <- Ta; ring). lra.
    + replace (V * (ta + (d - dd) / V - ta)) with (d - dd) by (field; lra). unfold dd. assert (a * (ta * ta) = (V - v) * ta) by (rewrite <- Ta; ring). lra.
Qed.
Theorem C11_reach_time :
  forall (v : vehR) pos vmax, 0 < max_acc v -> 0 <= v_vel v <= vmax -> 0 < vmax ->
    let t := min_reach_time v pos vmax in
    0 <= t /\ covered (max_acc v) (v_vel v) vmax t = ahead v pos /\
    (* and no other time will do *)
    forall t', 0 <= t' -> covered (max_acc v) (v_vel v) vmax t' = ahead v pos -> t' = t.
Proof.
  intros v pos V A Hv HV t. unfold t, min_reach_time. rewrite max_R. change (@nsub RA pos (v_pos v)) with (pos - v_pos v). change (@n0 RA) with 0. fold (ahead v pos).
  assert (0 <= ahead v pos) as D by apply Rmax_r.
  destruct (reach_time_covered (max_acc v) (v_vel v) V (ahead v pos) A Hv HV D (v_acc v) eq_refl) as (T0 & Tc).
  split; [exact T0|]. split; [exact Tc|]. intros t' Ht Hc. destruct (Rtotal_order t' (am_min_reach_time (v_acc v) (v_vel v) (ahead v pos) V)) as [L|[E|L]]; auto.
  - pose proof (covered_mono (max_acc v) (v_vel v) V _ _ A Hv HV (conj Ht L)). lra.
  - pose proof (covered_mono (max_acc v) (v_vel v) V _ _ A Hv HV (conj T0 L)). lra.
Qed.
Print Assumptions C11_reach_time.
Theorem C11_monotone :
  forall (v : vehR) p1 p2 vmax, 0 < max_acc v -> 0 <= v_vel v <= vmax -> 0 < vmax -> p1 <= p2 ->
    min_reach_time v p1 vmax <= min_reach_time v p2 vmax.
Proof.
  intros v p1 p2 V A Hv HV Hp. destruct (C11_reach_time v p1 V A Hv HV) as (T1 & C1 & _). destruct (C11_reach_time v p2 V A Hv HV) as (T2 & C2 & _).
  apply Rnot_lt_le. intros L. pose proof (covered_mono (max_acc v) (v_vel v) V _ _ A Hv HV (conj T2 L)) as M. rewrite C1, C2 in M.
  unfold ahead, Rmax in M. repeat destruct Rle_dec in M; lra.
Qed.
Print Assumptions C11_monotone.
(** A vehicle already faster than [vmax] arrives sooner than the time returned, even if it only keeps
    its speed. *)
Theorem C11_over_estimate :
  forall (v : vehR) pos vmax, 0 < max_acc v -> 0 < vmax -> vmax < v_vel v ->
    ahead v pos / v_vel v < min_reach_time v pos vmax.
Proof.
  intros v pos V A HV Hv. unfold min_reach_time. rewrite max_R. change (@nsub RA pos (v_pos v)) with (pos - v_pos v). change (@n0 RA) with 0. fold (ahead v pos).
  assert (0 <= ahead v pos) as D by apply Rmax_r. generalize dependent (ahead v pos). intros d D. unfold am_min_reach_time, max_acc in *. unfold powi2, n2, nhalf, lit. unR.
  set (a := am_max (v_acc v)) in *. set (u := v_vel v) in *.
  destruct (Rlt_bool_spec (2 * a * d + u * u) (V * V)) as [L|L]; [nra|].
  replace ((V - u) / a + (d - 1 / 2 * (u + V) * ((V - u) / a)) / V) with (d / V + (V - u) * (V - u) / (2 * a * V)) by (field; lra).
  assert (0 < (V - u) * (V - u) / (2 * a * V)) by (apply Rmult_lt_0_compat; [nra|apply Rinv_0_lt_compat; nra]).
  assert (d / u <= d / V) by (apply Rmult_le_compat_l; [exact D|apply Rinv_le_contravar; lra]). lra.
Qed.
Print Assumptions C11_over_estimate.
(** From rest, at 2 m/s^2 up to 10 m/s, 50 m take 7.5 s: 5 s and 25 m to speed up, 25 m at 10 m/s. *)
Definition car_R (vel : R) : vehR :=
  let v := @vehicle_new RA null_key (@Attrs RA 2 4 3 2 2 2) in
  @Vehicle RA (v_id v) (v_half_wid v) (v_half_len v) (v_wheel_base v) (v_acc v) (v_pathfind v) (v_pos v) vel
    (v_stop_cnt v) (v_route v) (v_entered v) (v_queued v) (v_flag v) (v_can_exit v) (v_lane_change v)
    (v_world_pos v) (v_world_dir v) (v_rear_lats v) (v_rear_coords v).
Lemma car_max u : max_acc (car_R u) = 2. Proof. reflexivity. Qed.
Lemma car_comf u : comf_dec (car_R u) = 2. Proof. reflexivity. Qed.
Lemma car_vel u : v_vel (car_R u) = u. Proof. reflexivity. Qed.
Ltac car := rewrite ?car_max, ?car_comf, ?car_vel; lra.
Example C11_example : min_reach_time (car_R 0) 50 10 = 15 / 2 /\ 0 < max_acc (car_R 0) /\ 0 <= v_vel (car_R 0) <= 10 /\ covered 2 0 10 (15 / 2) = 50.
Proof.
  split; [|split; [car|split; [car|]]].
  - unfold min_reach_time, am_min_reach_time. rewrite max_R. unfold powi2, n2, n0, nhalf, lit. cbn. unR. rewrite Rmax_left by lra. rewrite Rlt_bool_false by lra. field.
  - unfold covered. destruct Rle_dec; lra.
Qed.

(** ** C12: the stopping distance is enough, and no less would be *)
(** [can_stop] holds exactly if braking at the comfortable deceleration keeps the front of the
    vehicle 2.5 m before the position at every instant. *)
Theorem C12_can_stop :
  forall (v : vehR) pos, 0 < comf_dec v -> 0 <= v_vel v ->
    can_stop v pos = true <-> forall t, 0 <= t -> pos_front v + covered_braking (comf_dec v) (v_vel v) t <= pos - 5 / 2.
Proof.
  intros v pos B V. unfold can_stop, stopping_distance, am_stopping_distance. rewrite leb_R. unfold comf_dec in *. set (b := am_comf (v_acc v)) in *. set (u := v_vel v) in *.
  change (@pos_front RA v) with (v_pos v + v_half_len v). unfold nhalf, lit. unR. set (f := v_pos v + v_half_len v). change (nadd (v_pos v) (v_half_len v)) with f.
  set (ts := u / b). assert (b * ts = u) as Ts by (unfold ts; field; lra). assert (0 <= ts) as T0 by (apply Rmult_le_pos; [lra|left; apply Rinv_0_lt_compat; lra]).
  assert (u * ts - b * (ts * ts) / 2 = 1 / 2 * u * ts) as Es by (replace (b * (ts * ts)) with (b * ts * ts) by ring; rewrite Ts; field).
  split.
  - intros H t Ht. unfold covered_braking. fold ts. destruct (Rle_dec t ts) as [L|L]; [|lra].
    assert (u * t - b * (t * t) / 2 <= u * ts - b * (ts * ts) / 2); [|lra].
    assert (0 <= b * ((ts - t) * (ts - t))) by (apply Rmult_le_pos; [lra|apply Rle_0_sqr]).
    assert (u * t = b * ts * t) by (rewrite Ts; ring). assert (u * ts = b * ts * ts) by (rewrite Ts; ring). lra.
  - intros H. specialize (H ts T0). unfold covered_braking in H. fold ts in H. destruct (Rle_dec ts ts); lra.
Qed.
Print Assumptions C12_can_stop.
(** At 10 m/s and 2 m/s^2 a car 4 m long whose middle is at 0 can stop before 29.5 m, not before 29 m. *)
Example C12_example : 0 < comf_dec (car_R 10) /\ 0 <= v_vel (car_R 10) /\ can_stop (car_R 10) (59 / 2) = true /\ can_stop (car_R 10) 29 = false.
Proof.
  split; [car|]. split; [car|]. unfold can_stop, stopping_distance, am_stopping_distance, pos_front. rewrite leb_R, leb_R_false.
  unfold nhalf, lit. cbn. unR. split; lra.
Qed.

(** ** C13: following a vehicle *)
(** The acceleration of a vehicle that only follows a vehicle ahead: the driver model, at most the
    maximum acceleration and at least full braking. *)
Definition following (v : vehR) (gap lead : R) : R :=
  am_get (am_min (am_reset (v_acc v)) (x_follow_vehicle (v_acc v) gap (v_vel v) lead)).
(** The gap the driver aims at. *)
Definition wanted_gap (v : vehR) (lead : R) : R :=
  2 + v_vel v * headway v + v_vel v * (v_vel v - lead) / (2 * sqrt (max_acc v * comf_dec v)).

Lemma following_eq (v : vehR) (gap lead : R) : 0 < max_acc v -> 0 < comf_dec v ->
  following v gap lead = Rmax (Rmin (max_acc v) (if Rle_dec gap 2 then -10 * max_acc v else max_acc v * (1 - (wanted_gap v lead / gap) * (wanted_gap v lead / gap)))) (-6).
Proof.
  intros A B. unfold following, am_get, am_min, am_reset, x_follow_vehicle, idm, wanted_gap, max_acc, comf_dec, headway in *. rewrite max_R. cbn [am_acc am_set_acc]. rewrite min_R. cbn [am_acc am_max am_headway am_comf am_set_acc].
  f_equal. f_equal. unfold MIN_GAP, n2, n1. unR. assert (0 < sqrt (am_max (v_acc v) * am_comf (v_acc v))) by (apply sqrt_lt_R0, Rmult_lt_0_compat; auto).
  destruct (Rle_bool_spec gap 2), (Rle_dec gap 2); try lra.
Qed.
Theorem C13_at_most_max :
  forall (v : vehR) gap lead, 0 < max_acc v -> 0 < comf_dec v -> following v gap lead <= max_acc v.
Proof. intros v gap lead A B. rewrite following_eq by auto. apply Rmax_lub; [apply Rmin_l|lra]. Qed.
Print Assumptions C13_at_most_max.
(** It is the smaller the smaller the gap is. *)
Theorem C13_gap :
  forall (v : vehR) g1 g2 lead, 6 / 10 <= max_acc v -> 0 < comf_dec v -> g1 <= g2 -> following v g1 lead <= following v g2 lead.
Proof.
  intros v g1 g2 lead A B H. rewrite !following_eq by lra. set (w := wanted_gap v lead). set (a := max_acc v) in *.
  destruct (Rle_dec g1 2), (Rle_dec g2 2).
  - lra.
  - rewrite (Rmin_right _ (-10 * a)) by lra. rewrite (Rmax_right (-10 * a)) by lra. apply Rmax_r.
  - lra.
  - apply Rle_max_compat_r. apply Rle_min_compat_l. apply Rmult_le_compat_l; [lra|].
    assert ((w / g2) * (w / g2) <= (w / g1) * (w / g1)); [|lra].
    replace (w / g2 * (w / g2)) with ((w * w) * (/ g2 * / g2)) by (unfold Rdiv; ring). replace (w / g1 * (w / g1)) with ((w * w) * (/ g1 * / g1)) by (unfold Rdiv; ring).
    apply Rmult_le_compat_l; [nra|]. assert (0 < / g2) by (apply Rinv_0_lt_compat; lra). assert (/ g2 <= / g1) by (apply Rinv_le_contravar; lra). nra.
Qed.
Print Assumptions C13_gap.
(** It is the smaller the slower the leader is, as long as the leader is not so fast that the wanted
    gap gets negative. *)
Theorem C13_leader :
  forall (v : vehR) gap u1 u2, 0 < max_acc v -> 0 < comf_dec v -> 0 <= v_vel v -> u1 <= u2 -> 0 <= wanted_gap v u2 ->
    following v gap u1 <= following v gap u2.
Proof.
  intros v gap u1 u2 A B V H W. rewrite !following_eq by lra. destruct (Rle_dec gap 2); [lra|].
  apply Rle_max_compat_r. apply Rle_min_compat_l. apply Rmult_le_compat_l; [lra|].
  assert (wanted_gap v u2 <= wanted_gap v u1) as L.
  { unfold wanted_gap. assert (0 < sqrt (max_acc v * comf_dec v)) by (apply sqrt_lt_R0, Rmult_lt_0_compat; auto). apply Rplus_le_compat_l. apply Rmult_le_compat_r; [left; apply Rinv_0_lt_compat; lra|]. apply Rmult_le_compat_l; lra. }
  assert (0 < / gap) by (apply Rinv_0_lt_compat; lra). unfold Rdiv.
  assert (wanted_gap v u2 * / gap <= wanted_gap v u1 * / gap) by (apply Rmult_le_compat_r; lra). assert (0 <= wanted_gap v u2 * / gap) by (apply Rmult_le_pos; lra). nra.
Qed.
Print Assumptions C13_leader.
(** Without that condition it is false: a car at 10 m/s that is 20 m behind a vehicle of 10 m/s speeds
    up less, or brakes, when the vehicle is going at 110 m/s. *)
Theorem C13_leader_refuted :
  exists (v : vehR) gap u1 u2, 0 < max_acc v /\ 0 < comf_dec v /\ 0 <= v_vel v /\ u1 < u2 /\ following v gap u2 < 0 < following v gap u1.
Proof.
  exists (car_R 10), 30, 10, 110. split; [car|]. split; [car|]. split; [car|]. split; [lra|].
  rewrite !following_eq by car. unfold wanted_gap. change (max_acc (car_R 10)) with 2. change (comf_dec (car_R 10)) with 2. change (headway (car_R 10)) with 2. change (v_vel (car_R 10)) with 10.
  rewrite sqrt_square by lra. destruct (Rle_dec 30 2); [lra|]. unfold Rmin, Rmax. repeat destruct Rle_dec; lra.
Qed.
Print Assumptions C13_leader_refuted.
(** Within the minimum gap of 2 m it is full braking. *)
Theorem C13_minimum_gap :
  forall (v : vehR) gap lead, 6 / 10 <= max_acc v -> 0 < comf_dec v -> gap <= 2 -> following v gap lead = -6.
Proof.
  intros v gap lead A B G. rewrite following_eq by lra. destruct (Rle_dec gap 2); [|lra]. rewrite Rmin_right by lra. apply Rmax_right. lra.
Qed.
Print Assumptions C13_minimum_gap.
Example C13_example : 6 / 10 <= max_acc (car_R 10) /\ 0 < comf_dec (car_R 10) /\ 0 <= v_vel (car_R 10) /\ 0 <= wanted_gap (car_R 10) 15 /\
  following (car_R 10) 44 10 = 3 / 2.
Proof.
  split; [car|]. split; [car|]. split; [car|]. rewrite following_eq by car. unfold wanted_gap.
  change (max_acc (car_R 10)) with 2. change (comf_dec (car_R 10)) with 2. change (headway (car_R 10)) with 2. change (v_vel (car_R 10)) with 10.
  rewrite sqrt_square by lra. destruct (Rle_dec 44 2); [lra|]. split; [lra|]. unfold Rmin, Rmax. repeat destruct Rle_dec; lra.
Qed.

(** ** C53: link costs *)
(** In exact arithmetic the cost is [10 * length / limit] rounded down, as far as a [usize] goes. *)
Theorem C53_cost :
  forall len limit : R, 0 <= len -> 0 < limit ->
    @link_cost RA len limit = Z.min usize_max (Zfloor (10 * len / limit)) /\ (0 <= @link_cost RA len limit)%Z.
Proof.
  intros len limit L P. unfold link_cost. cbn [ncast RA]. unR. assert (0 <= 10 * len / limit) as Q by (apply Rmult_le_pos; [lra|left; apply Rinv_0_lt_compat; lra]).
  rewrite Ztrunc_floor by exact Q. assert (0 <= Zfloor (10 * len / limit))%Z by (apply Zfloor_lub; exact Q). unfold usize_max. lia.
Qed.
Print Assumptions C53_cost.
Theorem C53_monotone :
  forall l1 l2 v1 v2 : R, 0 <= l1 <= l2 -> 0 < v2 <= v1 -> (@link_cost RA l1 v1 <= @link_cost RA l2 v2)%Z.
Proof.
  intros l1 l2 v1 v2 L V. rewrite (proj1 (C53_cost l1 v1 ltac:(lra) ltac:(lra))), (proj1 (C53_cost l2 v2 ltac:(lra) ltac:(lra))).
  apply Z.min_le_compat_l. apply Zfloor_le. unfold Rdiv. apply Rmult_le_compat; try lra; [left; apply Rinv_0_lt_compat; lra|apply Rinv_le_contravar; lra].
Qed.
Print Assumptions C53_monotone.
(** The cost of a link is the one of its length and limit, over every history. *)
