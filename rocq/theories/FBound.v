(** * Bounds on binary64 results *)
From Coq Require Import List Bool ZArith NArith Arith Lia Reals Lra Psatz.
From Flocq Require Import Core IEEE754.BinarySingleNaN.
From Verif Require Import Arith F64 RealArith Ord FloatLaws.
Local Open Scope R_scope.

(** A finite number between two bounds. *)
Definition inr (x : f64) (lo hi : R) : Prop := is_finite x = true /\ lo <= B2R x <= hi.
(** Bounds that are numbers themselves, and not too large. *)
Definition rep (r : R) : Prop := rnd r = r /\ - big < r < big.
Lemma rep_Z z : (Z.abs z <= 2 ^ 53)%Z -> rep (IZR z).
Proof.
  intros H. split.
  - apply round_generic; [apply valid_rnd_round_mode|]. change (SpecFloat.fexp prec emax) with (FLT_exp (SpecFloat.emin prec emax) prec).
    destruct (Z.eq_dec (Z.abs z) (2 ^ 53)) as [E|E].
    + assert (z = 2 ^ 53 \/ z = - 2 ^ 53)%Z as [-> | ->] by lia.
      * change (IZR (2 ^ 53)) with (bpow radix2 53). apply generic_format_bpow. vm_compute. discriminate.
      * change (- 2 ^ 53)%Z with (- (2 ^ 53))%Z. rewrite opp_IZR. apply generic_format_opp. change (IZR (2 ^ 53)) with (bpow radix2 53). apply generic_format_bpow. vm_compute. discriminate.
    + apply generic_format_FLT. apply (FLT_spec _ _ _ _ (Float radix2 z 0)); [unfold F2R; simpl; ring|simpl; change (2^53)%Z with 9007199254740992%Z in *; lia|vm_compute; discriminate].
  - assert (Rabs (IZR z) <= IZR (2 ^ 53)) as K by (rewrite <- abs_IZR; apply IZR_le; exact H). assert (IZR (2 ^ 53) < big) as B by (change (IZR (2 ^ 53)) with (bpow radix2 53); apply bpow_lt; reflexivity).
    assert (Rabs (IZR z) < big) as Q by lra. apply Rabs_def2 in Q. lra.
Qed.
Lemma rep_bpow e : (-1000 <= e <= 1000)%Z -> rep (bpow radix2 e).
Proof.
  intros H. split.
  - apply round_generic; [apply valid_rnd_round_mode|]. apply generic_format_bpow. change (SpecFloat.fexp prec emax) with (FLT_exp (-1074) 53). unfold FLT_exp. lia.
  - pose proof (bpow_gt_0 radix2 e). pose proof big_pos. split; [lra|]. apply bpow_lt. unfold emax. lia.
Qed.
Lemma rep_opp r : rep r -> rep (- r).
Proof. intros (H1 & H2). split; [|lra]. unfold rnd in *. cbn [round_mode] in *. rewrite round_NE_opp, H1. reflexivity. Qed.
Lemma rep_0 : rep 0. Proof. apply rep_Z. lia. Qed.

Lemma op_in (z : f64) r lo hi : is_nan z = false -> fval z = sat r -> lo <= r <= hi -> rep lo -> rep hi -> inr z lo hi /\ B2R z = rnd r.
Proof.
  intros N E (H1 & H2) (L1 & L2) (U1 & U2). apply rnd_mono in H1, H2. rewrite L1 in H1. rewrite U1 in H2.
  assert (sat r = rnd r) as Es by (apply sat_in; apply Rabs_def1; lra). rewrite Es in E.
  assert (is_finite z = true) as F. { destruct z as [s|[|]| |s m e Hz]; try reflexivity; try discriminate N; cbn [fval] in E; fold big in E; lra. }
  rewrite fval_finite in E by exact F. split; [split; [exact F|]|]; lra.
Qed.
Lemma plus_in x y lo hi : is_finite x = true -> is_finite y = true -> lo <= B2R x + B2R y <= hi -> rep lo -> rep hi -> inr (@nadd F64 x y) lo hi /\ B2R (@nadd F64 x y) = rnd (B2R x + B2R y).
Proof. intros Fx Fy H L U. destruct (fval_plus x y Fx Fy) as (N & E). exact (op_in _ _ _ _ N E H L U). Qed.
Lemma minus_in x y lo hi : is_finite x = true -> is_finite y = true -> lo <= B2R x - B2R y <= hi -> rep lo -> rep hi -> inr (@nsub F64 x y) lo hi /\ B2R (@nsub F64 x y) = rnd (B2R x - B2R y).
Proof. intros Fx Fy H L U. destruct (fval_minus x y Fx Fy) as (N & E). exact (op_in _ _ _ _ N E H L U). Qed.
Lemma mult_in x y lo hi : is_finite x = true -> is_finite y = true -> lo <= B2R x * B2R y <= hi -> rep lo -> rep hi -> inr (@nmul F64 x y) lo hi /\ B2R (@nmul F64 x y) = rnd (B2R x * B2R y).
Proof. intros Fx Fy H L U. destruct (fval_mult x y Fx Fy) as (N & E). exact (op_in _ _ _ _ N E H L U). Qed.
Lemma div_in x y lo hi : is_finite x = true -> B2R y <> 0 -> lo <= B2R x / B2R y <= hi -> rep lo -> rep hi -> inr (@ndiv F64 x y) lo hi /\ B2R (@ndiv F64 x y) = rnd (B2R x / B2R y).
Proof.
  intros Fx Hy (H1 & H2) (L1 & L2) (U1 & U2). pose proof (Bdiv_correct prec emax Hp Hm mode_NE x y Hy) as H. fold big in H. fold (rnd (B2R x / B2R y)) in H.
  apply rnd_mono in H1, H2. rewrite L1 in H1. rewrite U1 in H2. rewrite Rlt_bool_true in H by (apply Rabs_def1; lra). destruct H as (E & F & _). rewrite Fx in F. change (@ndiv F64 x y) with (Bdiv mode_NE x y).
  split; [split; [exact F|]|]; lra.
Qed.
Lemma sqrt_in x hi : is_finite x = true -> 0 <= B2R x -> sqrt (B2R x) <= hi -> rep hi -> inr (@nsqrt F64 x) 0 hi.
Proof.
  intros Fx H0 Hu (U1 & U2). destruct (Bsqrt_correct prec emax Hp Hm mode_NE x) as (E & F & _). fold (rnd (sqrt (B2R x))) in E. change (@nsqrt F64 x) with (Bsqrt mode_NE x).
  split.
  - rewrite F. destruct x as [s|[|]| |[|] m e Hx]; try reflexivity; try discriminate Fx. exfalso. apply (Rlt_not_le 0 (B2R (B754_finite true m e Hx))); [|exact H0]. cbn [B2R]. apply F2R_lt_0. reflexivity.
  - rewrite E. pose proof (sqrt_pos (B2R x)) as S0. apply rnd_mono in Hu, S0. rewrite rnd_0 in S0. rewrite U1 in Hu. split; lra.
Qed.
(** Comparisons of finite numbers. *)
Lemma ltb_in (x y : f64) : is_finite x = true -> is_finite y = true -> @nltb F64 x y = Rlt_bool (B2R x) (B2R y).
Proof. intros Fx Fy. change (@nltb F64 x y) with (Bltb x y). rewrite bltb_fval, !fval_finite, !finite_not_nan by assumption. reflexivity. Qed.
Lemma leb_in (x y : f64) : is_finite x = true -> is_finite y = true -> @nleb F64 x y = Rle_bool (B2R x) (B2R y).
Proof. intros Fx Fy. change (@nleb F64 x y) with (Bleb x y). rewrite bleb_fval, !fval_finite, !finite_not_nan by assumption. reflexivity. Qed.
Lemma max_in (x y : f64) : is_finite x = true -> is_finite y = true -> is_finite (@nmax F64 x y) = true /\ B2R (@nmax F64 x y) = Rmax (B2R x) (B2R y).
Proof.
  intros Fx Fy. pose proof (finite_not_nan _ Fx) as Nx. pose proof (finite_not_nan _ Fy) as Ny. unfold nmax. change (@nnan F64) with (@is_nan prec emax). rewrite Nx, Ny, ltb_in by assumption.
  destruct (Rlt_bool_spec (B2R x) (B2R y)) as [L|L]; (split; [assumption|]); [rewrite Rmax_right|rewrite Rmax_left]; lra.
Qed.
(** A number between two finite ones is finite. *)
Lemma between (lo x hi : f64) : is_finite lo = true -> is_finite hi = true -> @nleb F64 lo x = true -> @nleb F64 x hi = true -> inr x (B2R lo) (B2R hi).
Proof.
  intros Fl Fh H1 H2. apply (le_iff F64_ord) in H1, H2. destruct H1 as (_ & N & H1), H2 as (_ & _ & H2). cbn [val F64_ord] in H1, H2. rewrite fval_finite in H1 by exact Fl. rewrite (fval_finite hi) in H2 by exact Fh.
  pose proof (fval_bound _ Fl) as Bl. pose proof (fval_bound _ Fh) as Bh. rewrite fval_finite in Bl, Bh by assumption.
  assert (is_finite x = true) as F. { destruct x as [s|[|]| |s m e Hx]; try reflexivity; try discriminate N; cbn [fval] in *; lra. }
  rewrite fval_finite in H1, H2 by exact F. split; [exact F|]. lra.
Qed.
(** Rounding at moderate size. *)
Lemma rnd_err r e : (-1000 <= e - 53 <= 1000)%Z -> Rabs r <= bpow radix2 e -> Rabs (rnd r - r) <= bpow radix2 (e - 53).
Proof.
  intros He Hr. unfold rnd. eapply Rle_trans; [apply error_le_half_ulp; apply valid_fexp|].
  assert (ulp radix2 (SpecFloat.fexp prec emax) r <= ulp radix2 (SpecFloat.fexp prec emax) (bpow radix2 e)) as U.
  { apply ulp_le; [apply valid_fexp|change (SpecFloat.fexp prec emax) with (FLT_exp (SpecFloat.emin prec emax) prec); apply FLT_exp_monotone|]. rewrite (Rabs_pos_eq (bpow radix2 e)) by apply bpow_ge_0. exact Hr. }
  set (u := ulp radix2 (SpecFloat.fexp prec emax) r) in *.
  rewrite ulp_bpow in U. change (SpecFloat.fexp prec emax) with (FLT_exp (-1074) 53) in U. unfold FLT_exp in U. rewrite Z.max_l in U by lia. replace (e + 1 - 53)%Z with (e - 53 + 1)%Z in U by ring. rewrite bpow_plus in U. change (bpow radix2 1) with 2 in U. lra.
Qed.
