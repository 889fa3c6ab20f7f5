(** * One follower and one leader: how the room between them changes in a step

    [K a c r v u g]: at speed [v], with a gap of [g] to something that moves at [u] and brakes with
    at most 6 m/s^2, there is room to accelerate with [a] for the time [r] and to stop then with
    6 m/s^2 in steps of at most [2 c]. *)
From Coq Require Import Reals Lra Psatz.
Local Open Scope R_scope.

Definition K (a c r v u g : R) : Prop := 0 <= g /\ (v + a * r) * (v + a * r) / 12 + c * (v + a * r) + v * r + a * r * r / 2 <= g + u * u / 12.
Lemma leader_pot u u' dt : 0 <= u -> 0 <= u' -> u - 6 * dt <= u' -> (u * u - u' * u') / 12 <= (u + u') / 2 * dt.
Proof. intros. assert (0 <= (u + u') * (6 * dt - (u - u'))) by (apply Rmult_le_pos; lra). nra. Qed.
Lemma K_mono a c r r' v u g : 0 <= a -> 0 <= c -> 0 <= v -> 0 <= r' <= r -> K a c r v u g -> K a c r' v u g.
Proof.
  intros Ha Hc Hv Hr (Hg & H). split; [exact Hg|].
  assert (a * r' <= a * r) by (apply Rmult_le_compat_l; lra). assert (0 <= a * r') by (apply Rmult_le_pos; lra).
  assert ((v + a * r') * (v + a * r') <= (v + a * r) * (v + a * r)) by (apply Rmult_le_compat; lra).
  assert (c * (v + a * r') <= c * (v + a * r)) by (apply Rmult_le_compat_l; lra).
  assert (v * r' <= v * r) by (apply Rmult_le_compat_l; lra).
  assert (a * r' * r' <= a * r * r) by (apply Rmult_le_compat; lra). lra.
Qed.
Lemma K_hold a c r v u g dt v' u' : 0 <= a -> 0 <= c -> 0 <= v -> 0 <= u -> 0 <= dt <= r -> 0 <= v' -> v' <= v + a * dt -> 0 <= u' -> u - 6 * dt <= u' ->
  K a c r v u g -> K a c (r - dt) v' u' (g + (u + u') / 2 * dt - (v + v') / 2 * dt).
Proof.
  intros Ha Hc Hv Hu Hd Hv' Lv Hu' Lu (Hg & H). pose proof (leader_pot u u' dt Hu Hu' Lu) as P.
  set (r' := r - dt) in *. assert (r = r' + dt) as Er by (unfold r'; lra). assert (0 <= r') by (unfold r'; lra). clearbody r'. subst r.
  assert (0 <= a * r') by (apply Rmult_le_pos; lra). assert (0 <= a * dt) by (apply Rmult_le_pos; lra).
  set (w := v + a * (r' + dt)) in *. set (w' := v' + a * r').
  assert (0 <= w' <= w) as Hw by (unfold w, w'; lra).
  assert (w' * w' <= w * w) by (apply Rmult_le_compat; lra). assert (c * w' <= c * w) by (apply Rmult_le_compat_l; lra).
  assert (v' * r' <= (v + a * dt) * r') by (apply Rmult_le_compat_r; lra).
  assert (v' * dt <= (v + a * dt) * dt) by (apply Rmult_le_compat_r; lra).
  assert (w' * w' / 12 + c * w' + v' * r' + a * r' * r' / 2 <= g + (u + u') / 2 * dt - (v + v') / 2 * dt + u' * u' / 12) as H'.
  { assert ((v + v') / 2 * dt <= v * dt + a * dt * dt / 2) by nra. nra. }
  split; [|exact H'].
  destruct (Rle_dec (v + v') (u + u')) as [L|L]; [nra|]. destruct (Rle_dec u' v') as [L'|L'].
  - assert (u' * u' <= w' * w') by (apply Rmult_le_compat; unfold w'; lra). assert (0 <= c * w') by (apply Rmult_le_pos; lra). assert (0 <= v' * r') by (apply Rmult_le_pos; lra). assert (0 <= a * r' * r') by (apply Rmult_le_pos; lra). lra.
  - assert (u * u <= w * w) by (apply Rmult_le_compat; unfold w; lra). assert (0 <= c * w) by (apply Rmult_le_pos; lra). assert (0 <= v * r') by (apply Rmult_le_pos; lra). assert (0 <= a * (r' + dt) * (r' + dt)) by (apply Rmult_le_pos; [apply Rmult_le_pos|]; lra).
    assert (v * dt <= g) by nra. assert ((v + v' - u - u') / 2 * dt <= v * dt). { apply Rmult_le_compat_r; lra. } nra.
Qed.
Lemma K_brake a c v u g dt v' u' : 0 <= v -> 0 <= u -> 0 <= dt <= 2 * c -> v' = Rmax (v + dt * -6) 0 -> 0 <= u' -> u - 6 * dt <= u' ->
  K a c 0 v u g -> K a c 0 v' u' (g + (u + u') / 2 * dt - (v + v') / 2 * dt).
Proof.
  intros Hv Hu Hd Ev Hu' Lu (Hg & H). pose proof (leader_pot u u' dt Hu Hu' Lu) as P. assert (v * v / 12 + c * v <= g + u * u / 12) as H0 by lra. clear H.
  assert (0 <= v' /\ v - 6 * dt <= v' /\ v' <= v /\ (v' = 0 \/ v' = v - 6 * dt)) as (H1 & H2 & H3 & H4).
  { rewrite Ev. unfold Rmax. destruct (Rle_dec _ _); lra. }
  assert (v' * v' / 12 + c * v' <= g + (u + u') / 2 * dt - (v + v') / 2 * dt + u' * u' / 12) as H'.
  { assert (v' * v' / 12 + c * v' + (v + v') / 2 * dt <= v * v / 12 + c * v); [|lra].
    assert (dt * v / 2 <= c * v) by nra.
    destruct H4 as [-> | E]; [nra|]. rewrite E. nra. }
  split; [|lra].
  destruct (Rle_dec (v + v') (u + u')) as [L|L]; [nra|]. assert (0 <= c * v) by nra. assert (0 <= c * v') by nra. destruct (Rle_dec u' v') as [L'|L'].
  - assert (u' * u' <= v' * v') by (apply Rmult_le_compat; lra). lra.
  - assert (u <= v) by lra. assert (u * u <= v * v) by (apply Rmult_le_compat; lra). assert (dt * v / 2 <= c * v) by nra.
    assert ((v + v' - u - u') / 2 * dt <= v / 2 * dt) by (apply Rmult_le_compat_r; lra). nra.
Qed.

(** ** The driver model leaves this room, or brakes fully *)
Lemma pq_facts a b : 0 < a -> 0 < b -> let p := sqrt (a / (a + 6)) in let Q := sqrt ((a + 6) * b) in
  0 < p /\ p * p = a / (a + 6) /\ 0 < Q /\ 0 < sqrt (a * b) /\ p / (2 * sqrt (a * b)) = / (2 * Q).
Proof.
  intros Ha Hb p Q. assert (0 < a / (a + 6)) by (apply Rdiv_lt_0_compat; lra). assert (0 < (a + 6) * b) by (apply Rmult_lt_0_compat; lra). assert (0 < a * b) by (apply Rmult_lt_0_compat; lra).
  assert (0 < p) by (apply sqrt_lt_R0; lra). assert (0 < Q) by (apply sqrt_lt_R0; lra). assert (0 < sqrt (a * b)) as Hr by (apply sqrt_lt_R0; lra).
  assert (p * p = a / (a + 6)) by (apply sqrt_sqrt; lra). assert (Q * Q = (a + 6) * b) by (apply sqrt_sqrt; lra). assert (sqrt (a * b) * sqrt (a * b) = a * b) as Er by (apply sqrt_sqrt; lra).
  repeat (split; [assumption|]). set (r := sqrt (a * b)) in *. clearbody p Q r.
  assert (p * Q = r) as E.
  { assert ((p * Q) * (p * Q) = r * r) as E. { rewrite Er. replace (p * Q * (p * Q)) with (p * p * (Q * Q)) by ring. replace (p * p) with (a / (a + 6)) by auto. replace (Q * Q) with ((a + 6) * b) by auto. field. lra. }
    assert (0 < p * Q) by (apply Rmult_lt_0_compat; lra). nra. }
  rewrite <- E. field. lra.
Qed.
Lemma close_speed q v u : - (v * v * ((6 * q - 1) * (6 * q - 1)) / 12) <= q * (v * (v - u)) - (v * v - u * u) / 12.
Proof. assert (0 <= (6 * v * (q - 1 / 6) + (v - u)) * (6 * v * (q - 1 / 6) + (v - u))) by apply Rle_0_sqr. nra. Qed.
Lemma K_driver a b T V d v u g : 0 < a -> 0 < b -> 0 <= d -> 0 <= v <= V -> 2 < g ->
  let t := 1 / 10 + d in let p := sqrt (a / (a + 6)) in let Q := sqrt ((a + 6) * b) in
  t * (1 + a / 6) + d / 2 + V / 12 * ((3 / Q - 1) * (3 / Q - 1)) <= T * p ->
  t * (a * t / 2 + a * a * t / 12 + a * d / 2) <= 2 * p ->
  let s := 2 + v * T + v * (v - u) * (1 / (2 * sqrt (a * b))) in
  -6 < a * (1 - s / g * (s / g)) -> K a (d / 2) t v u g.
Proof.
  intros Ha Hb Hd Hv Hg t p Q C1 C2 s Hi. destruct (pq_facts a b Ha Hb) as (Hp & Ep & HQ & Hr & Eq). fold p in Hp, Ep, Eq. fold Q in HQ, Eq.
  assert (s * p < g) as L.
  { assert (s / g * (s / g) < (a + 6) / a) as H1. { apply (Rmult_lt_reg_l a); [lra|]. replace (a * ((a + 6) / a)) with (a + 6) by (field; lra). lra. }
    assert (p * p * ((a + 6) / a) = 1) as E1 by (rewrite Ep; field; lra).
    assert ((p * (s / g)) * (p * (s / g)) < 1) as H2. { replace (p * (s / g) * (p * (s / g))) with (p * p * (s / g * (s / g))) by ring. rewrite <- E1. apply Rmult_lt_compat_l; [|exact H1]. apply Rmult_lt_0_compat; lra. }
    assert (p * (s / g) < 1) as H3 by nra. replace (s * p) with (p * (s / g) * g) by (field; lra). apply Rlt_le_trans with (1 * g); [apply Rmult_lt_compat_r; lra|lra]. }
  assert (s * p = 2 * p + v * (T * p) + / (2 * Q) * (v * (v - u))) as Es. { rewrite <- Eq. unfold s. field. lra. }
  pose proof (close_speed (/ (2 * Q)) v u) as Cs. replace (6 * / (2 * Q) - 1) with (3 / Q - 1) in Cs by (field; lra).
  set (z := (3 / Q - 1) * (3 / Q - 1)) in *. assert (0 <= z) by apply Rle_0_sqr. rewrite Es in L. clear Es. clearbody z p. clear Eq HQ Hr Hi s.
  assert (v * z <= V * z) by (apply Rmult_le_compat_r; lra).
  assert (v * (t * (1 + a / 6) + d / 2 + v / 12 * z) <= v * (T * p)) as L2. { apply Rmult_le_compat_l; [lra|]. lra. }
  split; [lra|]. nra.
Qed.
