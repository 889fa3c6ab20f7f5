(** * Lemmas about speeds and distances (ArriveProofs.v) *)
From Coq Require Import List Arith Lia Reals Lra.
Local Open Scope R_scope.

(** A vehicle that was at [p0] with speed [v0] when its acceleration became [a], a time [t] ago, is at [p] with speed [v]. *)
Definition kin (a p0 v0 t p v : R) : Prop :=
  0 <= v /\ p0 + v0 * v0 / 12 <= p + v * v / 12 /\
  (a < 0 -> p0 + v * t <= p) /\ (0 <= a -> v0 + a * t <= v /\ p0 + v0 * t + a * t * t / 2 <= p).
Lemma kin_start a p v : 0 <= v -> kin a p v 0 p v.
Proof. intros V. split; [exact V|]. split; [lra|]. split; intros H; [|split]; lra. Qed.
Lemma kin_step a p0 v0 t p v dt : -6 <= a -> 0 <= dt -> 0 <= t -> kin a p0 v0 t p v ->
  kin a p0 v0 (t + dt) (p + / 2 * (v + Rmax (v + dt * a) 0) * dt) (Rmax (v + dt * a) 0).
Proof.
  intros Ha Hd Ht (K0 & K1 & K2 & K3). set (w := Rmax (v + dt * a) 0). assert (0 <= w) by (apply Rmax_r). assert (v + dt * a <= w) by (apply Rmax_l).
  assert (v - 6 * dt <= w) by nra.
  split; [assumption|]. split; [|split].
  - assert ((v - w) * (v + w) <= 6 * dt * (v + w)) by (apply Rmult_le_compat_r; lra). nra.
  - intros Hn. specialize (K2 Hn). assert (w <= v) by (unfold w; apply Rmax_lub; nra). nra.
  - intros Hn. destruct (K3 Hn) as (K4 & K5). split; [nra|].
    assert (w = v + dt * a) as E by (unfold w; apply Rmax_left; nra). rewrite E. nra.
Qed.
(** How far it gets at least, if it accelerates by [a0] unless it is faster than [vs]. *)
Definition stride (a0 vs : R) : R := Rmin (a0 / 200) (Rmin (vs / 20) (vs * vs / 16)).
Lemma stride_pos a0 vs : 0 < a0 -> 0 < vs -> 0 < stride a0 vs.
Proof. intros A V. unfold stride. repeat apply Rmin_pos; try lra. nra. Qed.
Lemma kin_end a p0 v0 t p v a0 vs : -6 <= a -> 0 < a0 -> 0 < vs -> 0 <= v0 -> 1 / 10 <= t -> kin a p0 v0 t p v -> (v0 <= vs -> a0 <= a) -> p0 + stride a0 vs <= p.
Proof.
  intros Ha A V V0 T (K0 & K1 & K2 & K3) Acc.
  assert (stride a0 vs <= a0 / 200) by (apply Rmin_l). assert (stride a0 vs <= vs / 20) by (eapply Rle_trans; [apply Rmin_r|apply Rmin_l]). assert (stride a0 vs <= vs * vs / 16) by (eapply Rle_trans; [apply Rmin_r|apply Rmin_r]).
  destruct (Rle_or_lt v0 vs) as [L|L].
  - specialize (Acc L). destruct K3 as (_ & K3); [lra|]. assert (1 / 100 <= t * t) by nra. assert (a0 / 100 <= a * (t * t)) by nra. nra.
  - destruct (Rle_or_lt 0 a) as [P|N].
    + destruct (K3 P) as (_ & K4). assert (vs / 10 <= v0 * t) by nra. assert (0 <= a * t * t) by (apply Rmult_le_pos; [apply Rmult_le_pos|]; lra). lra.
    + specialize (K2 N). destruct (Rle_or_lt (v0 / 2) v) as [Q|Q]; [assert (v0 / 2 / 10 <= v * t) by nra; lra|]. assert (v * v <= v0 / 2 * (v0 / 2)) by nra. nra.
Qed.
