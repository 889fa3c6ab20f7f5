(** * Facts about the exact arithmetic RA *)
From Coq Require Import ZArith Bool Reals Lra.
From Flocq Require Import Core.Raux.
From Verif Require Import Arith RealArith.
Local Open Scope R_scope.

(** Turns the operations of [RA] into those of the reals. *)
Ltac unR := cbn [nadd nsub nmul ndiv nneg nabs nsqrt nceil nltb nleb neqb nnan nofZ num RA] in *.

Lemma ltb_R (x y : R) : @nltb RA x y = true <-> x < y.
Proof. unR. destruct (Rlt_bool_spec x y); split; intros; auto; try discriminate; lra. Qed.
Lemma ltb_R_false (x y : R) : @nltb RA x y = false <-> y <= x.
Proof. unR. destruct (Rlt_bool_spec x y); split; intros; auto; try discriminate; lra. Qed.
Lemma leb_R (x y : R) : @nleb RA x y = true <-> x <= y.
Proof. unR. destruct (Rle_bool_spec x y); split; intros; auto; try discriminate; lra. Qed.
Lemma leb_R_false (x y : R) : @nleb RA x y = false <-> y < x.
Proof. unR. destruct (Rle_bool_spec x y); split; intros; auto; try discriminate; lra. Qed.
Lemma max_R (x y : R) : @nmax RA x y = Rmax x y.
Proof. unfold nmax. unR. destruct (Rlt_bool_spec x y); [rewrite Rmax_right|rewrite Rmax_left]; lra. Qed.
Lemma min_R (x y : R) : @nmin RA x y = Rmin x y.
Proof. unfold nmin. unR. destruct (Rlt_bool_spec y x); [rewrite Rmin_right|rewrite Rmin_left]; lra. Qed.
Lemma half_R : @nhalf RA = / 2. Proof. unfold nhalf, lit. unR. lra. Qed.
