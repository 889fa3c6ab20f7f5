(** * What the property about the way that is taken talks about *)
From Coq Require Import List Bool ZArith NArith Arith.
From Verif Require Import Arith Base SlotMap Util Geom Light Accel Net Path Vehicle LinkOps Sim SpecSim SpecRoute.
Import ListNotations.

Section SpecCheap.
  Context {A : Arith}.
  (** No links beside each other: no groups, so no lane changes. *)
  Definition no_lanes (s : sim) : Prop := forall x l, link_at s x = Some l -> lk_group l = None /\ lk_changes l = [].
  (** [p] is a way from [a] to [d] (its cost is the sum of the costs of the links it leaves), and there is no cheaper one. *)
  Definition cheapest (links : linkset) (a : key) (p : list key) (d : key) : Prop :=
    exists c, drive links a p d c /\ forall p' c', drive links a p' d c' -> (c <= c')%Z.
  (** [y] is the first of the links after [x], in the order in which they were connected, that the vehicle has an entry for. *)
  Definition first_routed (links : linkset) (v : vehicle) (x y : key) : Prop :=
    exists l before after, sm_get links x = Some l /\ lk_out l = before ++ y :: after /\ routed v y /\ forall z, In z before -> ~ routed v z.
End SpecCheap.
