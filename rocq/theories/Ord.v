(** * Comparison laws shared by binary64 and the reals *)
From Coq Require Import ZArith Bool Reals Lra Lia.
From Flocq Require Import Core IEEE754.BinarySingleNaN.
From Verif Require Import Arith F64 RealArith.

(** The order of the numbers that are not NaN is the order of the reals below, in which the
    infinities are +-2^1024. *)
Record OrdLaws (A : Arith) := {
  val : @num A -> R;
  o_lt : forall x y : @num A, nltb x y = (negb (nnan x || nnan y) && Rlt_bool (val x) (val y));
  o_le : forall x y : @num A, nleb x y = (negb (nnan x || nnan y) && Rle_bool (val x) (val y));
  o_nan : forall z, nnan (nofZ z) = false
}.
Arguments val {A}. Arguments o_lt {A}. Arguments o_le {A}. Arguments o_nan {A}.

Definition RA_ord : OrdLaws RA.
Proof.
  refine {| val := fun x : @num RA => (x : R) |}; intros; simpl; auto.
Defined.

Definition fval (x : f64) : R :=
  match x with
  | B754_infinity false => bpow radix2 emax
  | B754_infinity true => - bpow radix2 emax
  | _ => B2R x
  end.

Lemma fval_finite x : is_finite x = true -> fval x = B2R x.
Proof. destruct x; simpl; auto; discriminate. Qed.
Lemma fval_bound x : is_finite x = true -> (- bpow radix2 emax < fval x < bpow radix2 emax)%R.
Proof.
  intros H. rewrite fval_finite by auto. pose proof (abs_B2R_lt_emax prec emax x) as B.
  apply Rabs_def2 in B. lra.
Qed.

Lemma bcompare_fval x y : is_nan x = false -> is_nan y = false ->
  Bcompare x y = Some (Rcompare (fval x) (fval y)).
Proof.
  intros Hx Hy. pose proof (bpow_gt_0 radix2 emax) as P.
  destruct (is_finite x) eqn:Fx; destruct (is_finite y) eqn:Fy.
  - rewrite Bcompare_correct by auto. rewrite !fval_finite by auto. auto.
  - destruct y as [| [|] | |]; try discriminate; pose proof (fval_bound x Fx) as B;
      destruct x as [| | |[]]; try discriminate; cbn [fval]; unfold Bcompare; simpl; f_equal; symmetry;
      (apply Rcompare_Lt || apply Rcompare_Gt); simpl in B; simpl; lra.
  - destruct x as [| [|] | |]; try discriminate; pose proof (fval_bound y Fy) as B;
      destruct y as [| | |[]]; try discriminate; cbn [fval]; unfold Bcompare; simpl; f_equal; symmetry;
      (apply Rcompare_Lt || apply Rcompare_Gt); simpl in B; simpl; lra.
  - destruct x as [| [|] | |]; try discriminate; destruct y as [| [|] | |]; try discriminate; unfold Bcompare; simpl; f_equal; symmetry;
      (apply Rcompare_Eq; lra) || (apply Rcompare_Lt; lra) || (apply Rcompare_Gt; lra).
Qed.

Lemma bltb_fval x y : Bltb x y = (negb (is_nan x || is_nan y) && Rlt_bool (fval x) (fval y)).
Proof.
  destruct (is_nan x) eqn:Hx; [destruct x; discriminate || auto|].
  destruct (is_nan y) eqn:Hy; [destruct y; try discriminate; destruct x as [|[]| |[]]; auto|].
  unfold Bltb, SpecFloat.SFltb. change (SpecFloat.SFcompare (B2SF x) (B2SF y)) with (Bcompare x y). rewrite bcompare_fval by auto. simpl. unfold Rlt_bool.
  destruct Rcompare; auto.
Qed.
Lemma bleb_fval x y : Bleb x y = (negb (is_nan x || is_nan y) && Rle_bool (fval x) (fval y)).
Proof.
  destruct (is_nan x) eqn:Hx; [destruct x; discriminate || auto|].
  destruct (is_nan y) eqn:Hy; [destruct y; try discriminate; destruct x as [|[]| |[]]; auto|].
  unfold Bleb, SpecFloat.SFleb. change (SpecFloat.SFcompare (B2SF x) (B2SF y)) with (Bcompare x y). rewrite bcompare_fval by auto. simpl. unfold Rle_bool.
  destruct Rcompare; auto.
Qed.

Lemma f_of_Z_nan z : is_nan (f_of_Z z) = false.
Proof.
  unfold f_of_Z. pose proof (binary_normalize_correct prec emax Hp Hm mode_NE z 0 false) as H.
  cbv zeta in H. destruct Rlt_bool in H.
  - destruct H as (_ & H & _). destruct binary_normalize; auto; discriminate.
  - destruct binary_normalize; auto. destruct (Rlt_bool (F2R _) 0) in H; unfold B2SF, binary_overflow in H; simpl in H; discriminate.
Qed.

Definition F64_ord : OrdLaws F64.
Proof.
  refine {| val := (fval : @num F64 -> R) |}; intros; simpl.
  - apply bltb_fval.
  - apply bleb_fval.
  - apply f_of_Z_nan.
Defined.

(** Consequences *)
Section Laws.
  Context {A : Arith} (O : OrdLaws A).
  Local Open Scope num_scope.

  Lemma lt_iff x y : (x <? y) = true <-> nnan x = false /\ nnan y = false /\ (val O x < val O y)%R.
  Proof.
    rewrite (o_lt O x y). destruct (nnan x), (nnan y); cbn [negb orb andb]; try (split; [discriminate|intuition discriminate]).
    destruct (Rlt_bool_spec (val O x) (val O y)); intros; split; intros; try discriminate; try lra; tauto.
  Qed.
  Lemma le_iff x y : (x <=? y) = true <-> nnan x = false /\ nnan y = false /\ (val O x <= val O y)%R.
  Proof.
    rewrite (o_le O x y). destruct (nnan x), (nnan y); cbn [negb orb andb]; try (split; [discriminate|intuition discriminate]).
    destruct (Rle_bool_spec (val O x) (val O y)); intros; split; intros; try discriminate; try lra; tauto.
  Qed.
  Lemma lt_false x y : (x <? y) = false <-> nnan x = true \/ nnan y = true \/ (val O y <= val O x)%R.
  Proof.
    rewrite (o_lt O x y). destruct (nnan x), (nnan y); cbn [negb orb andb]; try tauto.
    destruct (Rlt_bool_spec (val O x) (val O y)); intros; split; intros; try tauto; try discriminate.
    destruct H0 as [|[|]]; try discriminate; lra.
  Qed.
  Lemma le_false x y : (x <=? y) = false <-> nnan x = true \/ nnan y = true \/ (val O y < val O x)%R.
  Proof.
    rewrite (o_le O x y). destruct (nnan x), (nnan y); cbn [negb orb andb]; try tauto.
    destruct (Rle_bool_spec (val O x) (val O y)); intros; split; intros; try tauto; try discriminate.
    destruct H0 as [|[|]]; try discriminate; lra.
  Qed.
  Lemma le_refl x : nnan x = false -> (x <=? x) = true.
  Proof. intros. apply le_iff. repeat split; auto; lra. Qed.
  Lemma le_trans x y z : (x <=? y) = true -> (y <=? z) = true -> (x <=? z) = true.
  Proof. rewrite !le_iff. intros (?&?&?) (?&?&?). repeat split; auto; lra. Qed.
  Lemma lt_le x y : (x <? y) = true -> (x <=? y) = true.
  Proof. rewrite lt_iff, le_iff. intros (?&?&?). repeat split; auto; lra. Qed.
  Lemma not_lt_le x y : nnan x = false -> nnan y = false -> (x <? y) = false -> (y <=? x) = true.
  Proof. rewrite lt_false, le_iff. intros ?? [|[|]]; try congruence; auto. Qed.

  Lemma max_ge_r x y : nnan y = false -> (y <=? nmax x y) = true.
  Proof.
    intros H. unfold nmax. destruct (nnan x) eqn:Nx; [apply le_refl; auto|]. rewrite H.
    destruct (x <? y) eqn:E; [apply le_refl; auto|]. apply not_lt_le; auto.
  Qed.
  Lemma max_ge_l x y : nnan x = false -> (x <=? nmax x y) = true.
  Proof.
    intros H. unfold nmax. rewrite H. destruct (nnan y) eqn:Ny; [apply le_refl; auto|].
    destruct (x <? y) eqn:E; [apply lt_le; auto|apply le_refl; auto].
  Qed.
  Lemma max_lub x y z : (x <=? z) = true -> (y <=? z) = true -> (nmax x y <=? z) = true.
  Proof. intros Hx Hy. unfold nmax. destruct (nnan x); auto. destruct (nnan y); auto. destruct (x <? y); auto. Qed.
  Lemma max_nan x y : nnan y = false -> nnan (nmax x y) = false.
  Proof. intros H. pose proof (max_ge_r x y H) as L. apply le_iff in L. tauto. Qed.
  Lemma min_le_l x y : nnan x = false -> (nmin x y <=? x) = true.
  Proof.
    intros H. unfold nmin. rewrite H. destruct (nnan y) eqn:Ny; [apply le_refl; auto|].
    destruct (y <? x) eqn:E; [apply lt_le; auto|apply le_refl; auto].
  Qed.
  Lemma min_le_r x y : nnan y = false -> (nmin x y <=? y) = true.
  Proof.
    intros H. unfold nmin. destruct (nnan x) eqn:Nx; [apply le_refl; auto|]. rewrite H.
    destruct (y <? x) eqn:E; [apply le_refl; auto|apply not_lt_le; auto].
  Qed.
  Lemma min_le x y z : (x <=? z) = true -> (nmin x y <=? z) = true.
  Proof.
    intros H. assert (nnan x = false) by (apply le_iff in H; tauto). eapply le_trans; [apply min_le_l|]; auto.
  Qed.
  Lemma min_nan x y : nnan x = false -> nnan (nmin x y) = false.
  Proof. intros H. pose proof (min_le_l x y H) as L. apply le_iff in L. tauto. Qed.
  Lemma min_glb x y z : (z <=? x) = true -> (z <=? y) = true -> (z <=? nmin x y) = true.
  Proof. intros Hx Hy. unfold nmin. destruct (nnan x); auto. destruct (nnan y); auto. destruct (y <? x); auto. Qed.
End Laws.
