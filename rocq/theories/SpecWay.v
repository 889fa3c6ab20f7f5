(** * Specification: distances along the road (C97) *)
From Coq Require Import List Reals.
From Verif Require Import Arith RealArith Base SlotMap Util Geom Light Accel Net Path Vehicle LinkOps Sim SpecSim.
Local Open Scope R_scope.

(** One can drive from the start of [a] to the start of [b] from link to link, and that way is [d] metres long. *)
Inductive way (links : @linkset RA) : key -> key -> R -> Prop :=
| way_here a : way links a a 0
| way_on a la c b d : sm_get links a = Some la -> In c (lk_out la) -> way links c b d -> way links a b (lk_length la + d).

(** No link can be left sideways. *)
Definition no_lanes (links : @linkset RA) : Prop := forall a la, sm_get links a = Some la -> lk_changes la = nil.
