(** * IEEE-754 binary64: the arithmetic of the program. *)
From Coq Require Import ZArith Bool Reals.
From Flocq Require Import Core IEEE754.BinarySingleNaN.
From Verif Require Import Arith.

Definition prec : Z := 53.
Definition emax : Z := 1024.
Definition f64 := binary_float prec emax.

Definition Hp : FLX.Prec_gt_0 prec := eq_refl.
Definition Hm : Prec_lt_emax prec emax := eq_refl.
#[export] Existing Instance Hp.
#[export] Existing Instance Hm.

(** [z as f64] *)
Definition f_of_Z (z : Z) : f64 := binary_normalize prec emax Hp Hm mode_NE z 0 false.

(** [x as uN] where [mx] is the largest value of the type *)
Definition f_cast (mx : Z) (x : f64) : Z :=
  match x with
  | B754_nan => 0
  | B754_infinity true => 0
  | B754_infinity false => mx
  | _ => Z.max 0 (Z.min mx (Btrunc x))
  end%Z.

(** [f64::ceil] *)
Definition f_ceil (x : f64) : f64 := Bnearbyint mode_UP x.

(** Rust's f64 operations round to nearest even; all NaNs are identified. *)
Definition F64 : Arith := {|
  num := f64;
  nadd := Bplus mode_NE;
  nsub := Bminus mode_NE;
  nmul := Bmult mode_NE;
  ndiv := Bdiv mode_NE;
  nneg := Bopp;
  nabs := Babs;
  nsqrt := Bsqrt mode_NE;
  nceil := f_ceil;
  nltb := Bltb;
  nleb := Bleb;
  neqb := Beqb;
  nnan := is_nan;
  nofZ := f_of_Z;
  ncast := f_cast
|}.
