(** * Line segments in binary64 (C37) *)
From Coq Require Import List Bool ZArith NArith Arith Lia Reals Lra.
From Flocq Require Import Core IEEE754.BinarySingleNaN.
From Verif Require Import Arith F64 Base Util Geom.
Local Open Scope R_scope.

(** [a == b] for points; never true of a NaN. *)
Definition same_point (a b : @pt F64) : bool := Beqb (px a) (px b) && Beqb (py a) (py b).
Definition finite_point (a : @pt F64) : bool := is_finite (px a) && is_finite (py a).

Lemma minus_self (x : f64) : is_finite x = true -> Bminus mode_NE x x = B754_zero false.
Proof.
  intros F. pose proof (Bminus_correct prec emax _ _ mode_NE x x F F) as H. replace (B2R x - B2R x)%R with 0%R in H by ring. rewrite round_0 in H by auto with typeclass_instances. rewrite Rabs_R0 in H.
  rewrite Rlt_bool_true in H by (apply bpow_gt_0). destruct H as (H1 & H2 & H3). rewrite Rcompare_Eq in H3 by reflexivity.
  destruct (Bminus mode_NE x x) as [sg|sg| |sg m e Hb] eqn:E.
  - cbn in H3. destruct (Bsign x); cbn in H3; subst sg; reflexivity.
  - discriminate H2.
  - discriminate H2.
  - exfalso. cbn [B2R] in H1. apply eq_0_F2R in H1. cbn in H1. destruct sg; discriminate H1.
Qed.
Lemma plus_zero (x : f64) sg : is_finite x = true -> Beqb (Bplus mode_NE x (B754_zero sg)) x = true.
Proof.
  intros F. assert (forall y : f64, is_finite y = true -> Beqb y y = true) as K by (intros y Fy; rewrite Beqb_correct by auto; apply Req_bool_true; reflexivity).
  destruct x as [s|s| |s m e Hb]; try discriminate F; [destruct s, sg; reflexivity|]. cbn [Bplus]. apply K. reflexivity.
Qed.
Lemma times_zero (t : f64) : is_finite t = true -> exists sg, Bmult mode_NE t (B754_zero false) = B754_zero sg.
Proof. destruct t as [s|s| |s m e Hb]; try discriminate; intros _; eexists; reflexivity. Qed.

Lemma point_segment (a : @pt F64) : finite_point a = true -> ls_from_ends a a = @LineSeg F64 a vzero n0.
Proof.
  intros F. apply andb_prop in F. destruct F as (F1 & F2). unfold ls_from_ends, vsub. change (@nsub F64) with (@Bminus prec emax _ _ mode_NE). rewrite (minus_self _ F1), (minus_self _ F2). reflexivity.
Qed.
(** A line segment from a point to itself has no length and consists of that point alone: no NaN comes out of the division by its length. *)
Theorem C37_point :
  forall (a : @pt F64), finite_point a = true -> let l := ls_from_ends a a in
    ls_length l = @n0 F64 /\ same_point (ls_end l) a = true /\ same_point (ls_tangent l) vzero = true /\
    forall t : f64, is_finite t = true -> same_point (c_sample (ls_curve l) t) a = true.
Proof.
  intros a F l. unfold l. rewrite (point_segment a F). cbn [ls_length ls_tangent]. apply andb_prop in F. destruct F as (F1 & F2).
  assert (forall t : f64, is_finite t = true -> same_point (vadd a (vscale (t : @num F64) vzero)) a = true) as K.
  { intros t Ft. destruct (times_zero t Ft) as (sg & E). unfold same_point, vadd, vscale, vzero. cbn [px py]. change (@nmul F64) with (@Bmult prec emax _ _ mode_NE). change (@nadd F64) with (@Bplus prec emax _ _ mode_NE). change (@n0 F64) with (B754_zero false : f64). rewrite E, (plus_zero _ _ F1), (plus_zero _ _ F2). reflexivity. }
  split; [reflexivity|]. split; [apply K; reflexivity|]. split; [reflexivity|]. exact K.
Qed.
Print Assumptions C37_point.
Example C37_point_example : finite_point (@Pt F64 (@lit F64 1 3) (f_of_Z (-7))) = true.
Proof. vm_compute. reflexivity. Qed.

(** Not so for two different points whose distance is too small to be squared: the segment's own start is lost. *)
Theorem C37_tiny_refuted :
  exists a b : @pt F64, (finite_point a && finite_point b && negb (same_point a b) && negb (same_point (c_sample (ls_curve (ls_from_ends a b)) (@n0 F64)) a)) = true.
Proof.
  exists (@Pt F64 (@n0 F64) (@n0 F64)), (@Pt F64 (@lit F64 1 (10 ^ 200)) (@n0 F64)). vm_compute. reflexivity.
Qed.
Print Assumptions C37_tiny_refuted.
