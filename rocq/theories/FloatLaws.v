(** * Rounded operations of binary64 as saturated rounding of the real operations *)
From Coq Require Import ZArith Bool Reals Lra Lia.
From Flocq Require Import Core IEEE754.BinarySingleNaN.
From Verif Require Import Arith F64 RealArith Ord.
Local Open Scope R_scope.

Definition big : R := bpow radix2 emax.
Definition rnd (r : R) : R := round radix2 (SpecFloat.fexp prec emax) (round_mode mode_NE) r.
Definition sat (r : R) : R := Rmax (- big) (Rmin big (rnd r)).

Global Instance valid_fexp : Valid_exp (SpecFloat.fexp prec emax).
Proof. apply FLT_exp_valid. exact Hp. Qed.

Lemma big_pos : 0 < big. Proof. apply bpow_gt_0. Qed.
Lemma rnd_mono x y : x <= y -> rnd x <= rnd y.
Proof. apply round_le; try apply valid_fexp. apply valid_rnd_round_mode. Qed.
Lemma rnd_0 : rnd 0 = 0. Proof. apply round_0. apply valid_rnd_round_mode. Qed.
Lemma sat_mono x y : x <= y -> sat x <= sat y.
Proof.
  intros H. apply rnd_mono in H. unfold sat.
  apply Rle_max_compat_l. apply Rle_min_compat_l. exact H.
Qed.
Lemma sat_0 : sat 0 = 0.
Proof.
  unfold sat. rewrite rnd_0. pose proof big_pos. rewrite Rmin_right, Rmax_right; lra.
Qed.
Lemma sat_nonneg x : 0 <= x -> 0 <= sat x.
Proof. intros H. rewrite <- sat_0. apply sat_mono; auto. Qed.
Lemma rnd_float (x : f64) : rnd (B2R x) = B2R x.
Proof.
  apply round_generic; [apply valid_rnd_round_mode|]. apply generic_format_B2R.
Qed.
Lemma sat_float (x : f64) : is_finite x = true -> sat (B2R x) = fval x.
Proof.
  intros F. unfold sat. rewrite rnd_float. rewrite fval_finite by auto.
  pose proof (fval_bound x F). rewrite fval_finite in H by auto. fold big in H.
  rewrite Rmin_right, Rmax_right; lra.
Qed.

Lemma sat_in r : Rabs (rnd r) < big -> sat r = rnd r.
Proof. intros H. apply Rabs_def2 in H. unfold sat. rewrite Rmin_right, Rmax_right; lra. Qed.
Lemma sat_over_pos r : ~ Rabs (rnd r) < big -> 0 <= r -> sat r = big.
Proof.
  intros H Hr. apply rnd_mono in Hr. rewrite rnd_0 in Hr. rewrite Rabs_pos_eq in H by auto. pose proof big_pos.
  unfold sat. rewrite Rmin_left, Rmax_right; lra.
Qed.
Lemma sat_over_neg r : ~ Rabs (rnd r) < big -> r <= 0 -> sat r = - big.
Proof.
  intros H Hr. apply rnd_mono in Hr. rewrite rnd_0 in Hr. rewrite Rabs_left1 in H by auto. pose proof big_pos.
  unfold sat. rewrite Rmin_right, Rmax_left; lra.
Qed.

Lemma fval_over (z : f64) s : B2SF z = binary_overflow prec emax mode_NE s ->
  is_nan z = false /\ fval z = if s then - big else big.
Proof.
  intros H. unfold binary_overflow in H. simpl in H.
  destruct z; try discriminate. injection H as <-. split; auto.
Qed.

Lemma sign_neg (x : f64) : is_finite x = true -> Bsign x = true -> B2R x <= 0.
Proof.
  destruct x as [s| | |s m e H]; try discriminate; simpl; intros _ ->.
  - lra.
  - apply Rlt_le. apply F2R_lt_0. simpl. lia.
Qed.
Lemma sign_pos (x : f64) : is_finite x = true -> Bsign x = false -> 0 <= B2R x.
Proof.
  destruct x as [s| | |s m e H]; try discriminate; simpl; intros _ ->.
  - lra.
  - apply Rlt_le. apply F2R_gt_0. simpl. lia.
Qed.

Lemma finite_not_nan (x : f64) : is_finite x = true -> is_nan x = false.
Proof. destruct x; auto; discriminate. Qed.

Lemma fval_plus (x y : f64) : is_finite x = true -> is_finite y = true ->
  is_nan (Bplus mode_NE x y) = false /\ fval (Bplus mode_NE x y) = sat (B2R x + B2R y).
Proof.
  intros Fx Fy. pose proof (Bplus_correct prec emax Hp Hm mode_NE x y Fx Fy) as H. fold big in H. fold (rnd (B2R x + B2R y)) in H.
  destruct (Rlt_bool_spec (Rabs (rnd (B2R x + B2R y))) big) as [L|L].
  - destruct H as (H1 & H2 & _). split; [apply finite_not_nan; auto|]. rewrite fval_finite by auto. rewrite sat_in by auto. exact H1.
  - destruct H as (H1 & H2). apply fval_over in H1. destruct H1 as (H0 & ->). split; auto.
    destruct (Bsign x) eqn:S; symmetry; symmetry in H2.
    + apply sign_neg in S, H2; auto. apply sat_over_neg; lra.
    + apply sign_pos in S, H2; auto. apply sat_over_pos; lra.
Qed.

Lemma fval_minus (x y : f64) : is_finite x = true -> is_finite y = true ->
  is_nan (Bminus mode_NE x y) = false /\ fval (Bminus mode_NE x y) = sat (B2R x - B2R y).
Proof.
  intros Fx Fy. pose proof (Bminus_correct prec emax Hp Hm mode_NE x y Fx Fy) as H. fold big in H. fold (rnd (B2R x - B2R y)) in H.
  destruct (Rlt_bool_spec (Rabs (rnd (B2R x - B2R y))) big) as [L|L].
  - destruct H as (H1 & H2 & _). split; [apply finite_not_nan; auto|]. rewrite fval_finite by auto. rewrite sat_in by auto. exact H1.
  - destruct H as (H1 & H2). apply fval_over in H1. destruct H1 as (H0 & ->). split; auto.
    destruct (Bsign x) eqn:S; destruct (Bsign y) eqn:S'; try discriminate; symmetry.
    + apply sign_neg in S; auto. apply sign_pos in S'; auto. apply sat_over_neg; lra.
    + apply sign_pos in S; auto. apply sign_neg in S'; auto. apply sat_over_pos; lra.
Qed.

Lemma fval_mult (x y : f64) : is_finite x = true -> is_finite y = true ->
  is_nan (Bmult mode_NE x y) = false /\ fval (Bmult mode_NE x y) = sat (B2R x * B2R y).
Proof.
  intros Fx Fy. pose proof (Bmult_correct prec emax Hp Hm mode_NE x y) as H. fold big in H. fold (rnd (B2R x * B2R y)) in H.
  destruct (Rlt_bool_spec (Rabs (rnd (B2R x * B2R y))) big) as [L|L].
  - rewrite Fx, Fy in H. destruct H as (H1 & H2 & _). split; [apply finite_not_nan; auto|]. rewrite fval_finite by auto. rewrite sat_in by auto. exact H1.
  - apply fval_over in H. destruct H as (H0 & ->). split; auto.
    destruct (Bsign x) eqn:S; destruct (Bsign y) eqn:S'; simpl; symmetry.
    + apply sign_neg in S, S'; auto. apply sat_over_pos; [lra|]. nra.
    + apply sign_neg in S; auto. apply sign_pos in S'; auto. apply sat_over_neg; [lra|nra].
    + apply sign_neg in S'; auto. apply sign_pos in S; auto. apply sat_over_neg; [lra|nra].
    + apply sign_pos in S, S'; auto. apply sat_over_pos; [lra|nra].
Qed.

(** ** Laws used for motion: both arithmetics have them *)
Record PosLaws (A : Arith) (O : OrdLaws A) := {
  p_mul : forall x y : @num A, nleb n0 x = true -> nleb n0 y = true -> nltb (nmul x y) n0 = false;
  p_add : forall x y : @num A, nleb n0 x = true -> nleb n0 y = true -> nleb n0 (nadd x y) = true;
  p_ge : forall p x : @num A, nltb x n0 = false -> nltb (nadd p x) p = false
}.

Lemma n0_val : fval (@n0 F64) = 0. Proof. reflexivity. Qed.
Lemma n0_nan : @nnan F64 (@n0 F64) = false. Proof. reflexivity. Qed.

Lemma fval_nonneg_cases (x : f64) : is_nan x = false -> 0 <= fval x ->
  (is_finite x = true /\ 0 <= B2R x) \/ x = B754_infinity false.
Proof.
  intros N H. destruct (is_finite x) eqn:F.
  - left. rewrite fval_finite in H by auto. auto.
  - destruct x as [|[]| |]; try discriminate; auto. simpl in H. pose proof big_pos. unfold big in *. simpl in H0. lra.
Qed.

Lemma F64_pos : PosLaws F64 F64_ord.
Proof.
  split.
  - intros x y Hx Hy. apply (le_iff F64_ord) in Hx, Hy. destruct Hx as (_ & Nx & Hx), Hy as (_ & Ny & Hy).
    change (0 <= fval x) in Hx. change (0 <= fval y) in Hy. apply (lt_false F64_ord).
    change (is_nan x = false) in Nx. change (is_nan y = false) in Ny.
    destruct (fval_nonneg_cases x Nx Hx) as [(Fx & Px) | ->]; destruct (fval_nonneg_cases y Ny Hy) as [(Fy & Py) | ->].
    + destruct (fval_mult x y Fx Fy) as (N & E). right; right. change (0 <= fval (Bmult mode_NE x y)). rewrite E. apply sat_nonneg. nra.
    + destruct x as [s|s| |s m e ?]; try discriminate.
      * left; reflexivity.
      * destruct s.
        -- simpl in Px. exfalso. assert (F2R (Float radix2 (Zneg m) e) < 0) by (apply F2R_lt_0; simpl; lia). lra.
        -- right; right. apply Rlt_le, big_pos.
    + destruct y as [s|s| |s m e ?]; try discriminate.
      * left; reflexivity.
      * destruct s.
        -- simpl in Py. exfalso. assert (F2R (Float radix2 (Zneg m) e) < 0) by (apply F2R_lt_0; simpl; lia). lra.
        -- right; right. apply Rlt_le, big_pos.
    + simpl. right; right. apply Rlt_le, big_pos.
  - intros x y Hx Hy. apply (le_iff F64_ord) in Hx, Hy. destruct Hx as (_ & Nx & Hx), Hy as (_ & Ny & Hy).
    change (0 <= fval x) in Hx. change (0 <= fval y) in Hy. apply (le_iff F64_ord).
    change (is_nan x = false) in Nx. change (is_nan y = false) in Ny. split; [reflexivity|].
    change (is_nan (Bplus mode_NE x y) = false /\ 0 <= fval (Bplus mode_NE x y)).
    destruct (fval_nonneg_cases x Nx Hx) as [(Fx & Px) | ->]; destruct (fval_nonneg_cases y Ny Hy) as [(Fy & Py) | ->].
    + destruct (fval_plus x y Fx Fy) as (N & E). split; auto. rewrite E. apply sat_nonneg. lra.
    + destruct x as [s|[]| |[] m e ?]; try discriminate; simpl; split; auto; apply Rlt_le, big_pos.
    + destruct y as [s|[]| |[] m e ?]; try discriminate; simpl; split; auto; apply Rlt_le, big_pos.
    + simpl; split; auto; apply Rlt_le, big_pos.
  - intros p x Hx. apply (lt_false F64_ord). apply (lt_false F64_ord) in Hx.
    change (is_nan (Bplus mode_NE p x) = true \/ is_nan p = true \/ fval p <= fval (Bplus mode_NE p x)).
    destruct (is_nan x) eqn:Nx. { left. destruct x; try discriminate. destruct p as [|[]| |[]]; reflexivity. }
    assert (0 <= fval x) as Px. { destruct Hx as [H|[H|H]]; [|discriminate|exact H]. change (is_nan x = true) in H. congruence. }
    destruct (is_nan p) eqn:Np; auto.
    destruct (fval_nonneg_cases x Nx Px) as [(Fx & Qx) | ->].
    + destruct (is_finite p) eqn:Fp.
      * right; right. destruct (fval_plus p x Fp Fx) as (_ & ->). rewrite <- sat_float by auto. apply sat_mono. lra.
      * right; right. destruct p as [|[]| |]; try discriminate; destruct x as [|[]| |]; try discriminate; simpl; lra.
    + destruct p as [|[]| |[] m e B]; simpl; auto; right; right; try (pose proof big_pos; unfold big in *; simpl in *; lra).
      * apply Rlt_le. eapply Rlt_trans; [|apply big_pos]. apply F2R_lt_0; simpl; lia.
      * pose proof (fval_bound (B754_finite false m e B) eq_refl) as K. simpl in K. simpl. lra.
Qed.

Lemma RA_pos : PosLaws RA RA_ord.
Proof.
  split; simpl.
  - intros x y Hx Hy. apply (le_iff RA_ord) in Hx, Hy. apply (lt_false RA_ord). simpl in *. right; right. nra.
  - intros x y Hx Hy. apply (le_iff RA_ord) in Hx, Hy. apply (le_iff RA_ord). simpl in *. repeat split; auto. lra.
  - intros p x Hx. apply (lt_false RA_ord) in Hx. apply (lt_false RA_ord). simpl in *. right; right.
    destruct Hx as [H|[H|H]]; try discriminate. lra.
Qed.
