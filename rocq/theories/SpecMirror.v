(** * Specification: the mirror image of a network

    Exact arithmetic.  The mirror is the x axis: points and directions keep their first coordinate and change the sign of the second.  A network for
    driving on the left becomes one for driving on the right. *)
From Coq Require Import List Bool ZArith NArith Arith Reals.
From Verif Require Import Arith RealArith Base SlotMap Util Geom Light Accel Net Path Vehicle LinkOps Sim.
Import ListNotations.
Local Open Scope R_scope.

Definition mirrored (p : @pt RA) : @pt RA := @Pt RA (px p) (- py p).
Definition mirrored_curve (c : @curve RA) : @curve RA :=
  @Curve RA (fun t => mirrored (c_sample c t)) (c_bounds c) (fun t => mirrored (c_dt c t)) (fun t => mirrored (c_dt2 c t)).
(** Only the curves of new links are mirrored; all other calls are made with the same arguments. *)
Definition mirrored_call (o : @op RA) : @op RA :=
  match o with OAddLink c limit => OAddLink (mirrored_curve c) limit | _ => o end.
