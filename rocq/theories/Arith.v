(** * Number interface of the model.

    The Rust code computes with [f64].  Every definition of the model is written
    over the class [Arith]; it is instantiated by IEEE binary64 ([F64], see F64.v)
    and by exact real arithmetic ([RA], see RealArith.v). *)
From Coq Require Import ZArith Bool List.
Import ListNotations.

Class Arith := {
  num : Type;
  nadd : num -> num -> num;      (* x + y *)
  nsub : num -> num -> num;      (* x - y *)
  nmul : num -> num -> num;      (* x * y *)
  ndiv : num -> num -> num;      (* x / y *)
  nneg : num -> num;             (* -x *)
  nabs : num -> num;             (* f64::abs *)
  nsqrt : num -> num;            (* f64::sqrt *)
  nceil : num -> num;            (* f64::ceil *)
  nltb : num -> num -> bool;     (* x < y, false if either is NaN *)
  nleb : num -> num -> bool;     (* x <= y, false if either is NaN *)
  neqb : num -> num -> bool;     (* x == y, false if either is NaN *)
  nnan : num -> bool;            (* f64::is_nan *)
  nofZ : Z -> num;               (* integer literal / [n as f64] *)
  ncast : Z -> num -> Z          (* [x as uN] with [uN::MAX] given: truncate, saturate, NaN -> 0 *)
}.

Declare Scope num_scope.
Delimit Scope num_scope with num.
Infix "+" := nadd : num_scope.
Infix "-" := nsub : num_scope.
Infix "*" := nmul : num_scope.
Infix "/" := ndiv : num_scope.
Notation "- x" := (nneg x) : num_scope.
Notation "x <? y" := (nltb x y) : num_scope.
Notation "x <=? y" := (nleb x y) : num_scope.
Notation "x =? y" := (neqb x y) : num_scope.
Notation "x >? y" := (nltb y x) (only parsing) : num_scope.
Notation "x >=? y" := (nleb y x) (only parsing) : num_scope.

Section Derived.
  Context {A : Arith}.
  Local Open Scope num_scope.

  (** A decimal literal [m/d].  In binary64 the correctly rounded quotient of two
      exactly representable integers is the correctly rounded literal. *)
  Definition lit (m : Z) (d : Z) : num := nofZ m / nofZ d.
  Definition n0 : num := nofZ 0.
  Definition n1 : num := nofZ 1.
  Definition n2 : num := nofZ 2.
  Definition nhalf : num := lit 1 2.

  (** [f64::max] / [f64::min] (Rust core): if one argument is NaN the other is returned.
      Which zero is returned for [max(-0.0, 0.0)] is unspecified in Rust; here the first. *)
  Definition nmax (x y : num) : num :=
    if nnan x then y else if nnan y then x else if x <? y then y else x.
  Definition nmin (x y : num) : num :=
    if nnan x then y else if nnan y then x else if y <? x then y else x.

  (** [f64::clamp(lo, hi)] for literals [lo <= hi]: NaN stays NaN. *)
  Definition nclamp (lo hi x : num) : num :=
    if x <? lo then lo else if hi <? x then hi else x.

  (** [f64::powi], as compiled by compiler-rt's [__powidf2] (square and multiply). *)
  Definition powi2 (x : num) : num := x * x.
  Definition powi4 (x : num) : num := (x * x) * (x * x).
  Definition powi_m1 (x : num) : num := n1 / x.
  Definition powi_m2 (x : num) : num := n1 / (x * x).
  Definition powi_m3 (x : num) : num := n1 / (x * (x * x)).
End Derived.

(** [u32::MAX] and [usize::MAX] (64-bit target). *)
Definition u32_max : Z := 4294967295.
Definition usize_max : Z := 18446744073709551615.
