(** * Exact real arithmetic: the formulas of the program without rounding. *)
From Coq Require Import ZArith Bool Reals Lra.
From Flocq Require Import Core.Raux.
From Verif Require Import Arith.

(** Division by zero yields 0 here ([Rdiv] of the standard library leaves it unspecified and the
    program gets an infinity or NaN); theorems over the reals assume the divisor is not zero
    wherever it matters.  There are no infinities and no NaN. *)
Definition RA : Arith := {|
  num := R;
  nadd := Rplus;
  nsub := Rminus;
  nmul := Rmult;
  ndiv := Rdiv;
  nneg := Ropp;
  nabs := Rabs;
  nsqrt := sqrt;
  nceil := fun x => IZR (Zceil x);
  nltb := Rlt_bool;
  nleb := Rle_bool;
  neqb := Req_bool;
  nnan := fun _ => false;
  nofZ := IZR;
  ncast := fun mx x => Z.max 0 (Z.min mx (Ztrunc x))
|}.
