(** * Specification: moving on between two decisions *)
From Coq Require Import List Bool ZArith NArith Arith Reals.
From Verif Require Import Arith RealArith Base SlotMap Util Geom Light Accel Net Path Vehicle LinkOps Sim SpecSim SpecMotion.
Import ListNotations.
Local Open Scope R_scope.

(** The lengths of time steps added up. *)
Definition time_of (dts : list R) : R := fold_right Rplus 0 dts.

(** In none of the steps [dts] that follow the calls [ops] are accelerations or lanes chosen anew (see C24). *)
Definition undisturbed (ops : list (@op RA)) (dts : list R) : Prop :=
  forall before dt after, dts = before ++ dt :: after ->
    due (@lit RA 1 10) (ops ++ map (@OStep RA) before) = false /\ due (@lit RA 3 10) (ops ++ map (@OStep RA) before) = false.

(** How far it is from the start of the first link of a route to the start of its [n]-th next link. *)
Definition length_of (s : @sim RA) (k : key) : R := match link_at s k with Some l => lk_length l | None => 0 end.
Fixpoint along (s : @sim RA) (route : list key) (n : nat) {struct n} : R :=
  match n, route with
  | S n, k :: route => length_of s k + along s route n
  | _, _ => 0
  end.

(** The vehicle has come to [way], measured from the start of the first link of [route]. *)
Definition is_at (s : @sim RA) (route : list key) (way : R) (v : @vehicle RA) : Prop :=
  exists n, v_route v = skipn n route /\ v_pos v = way - along s route n.

(** The vehicle is on its link: past the start, not past the end. *)
Definition inside (s : @sim RA) (v : @vehicle RA) : Prop :=
  exists k, v_link v = Some k /\ 0 < v_pos v <= length_of s k.
