(** * Specification: calls that have nothing to do with each other *)
From Coq Require Import List Bool ZArith NArith Arith.
From Verif Require Import Arith Base SlotMap Util Geom Light Accel Net Path Vehicle LinkOps Sim SpecSim SpecLocal SpecUndo.
Import ListNotations.

Section SpecSwap.
  Context {A : Arith}.

  (** Calls between two steps: set the control of a link, freeze or release a vehicle, set its destination, remove it, add a new one.  Two of them are
      independent unless they set the control of the same link, freeze and release the same vehicle, set the destination of the same vehicle, set the destination of a vehicle that
      the other one removes, or hand out an id or take one away while the other hands one out. *)
  Definition independent (o1 o2 : op) : Prop :=
    match o1, o2 with
    | OSetControl k _, OSetControl k' _ => k <> k'
    | OSetFrozen v _, OSetFrozen w _ => v <> w
    | OSetDestination v _, OSetDestination w _ => v <> w
    | OSetDestination v _, ORemoveVehicle w => v <> w
    | ORemoveVehicle v, OSetDestination w _ => v <> w
    | ORemoveVehicle _, ORemoveVehicle _ => True
    | OAddVehicle _ _, (OSetControl _ _ | OSetFrozen _ _ | OSetDestination _ _) => True
    | (OSetControl _ _ | OSetFrozen _ _ | OSetDestination _ _), OAddVehicle _ _ => True
    | OSetControl _ _, (OSetFrozen _ _ | OSetDestination _ _ | ORemoveVehicle _) => True
    | OSetFrozen _ _, (OSetControl _ _ | OSetDestination _ _ | ORemoveVehicle _) => True
    | OSetDestination _ _, (OSetControl _ _ | OSetFrozen _ _) => True
    | ORemoveVehicle _, (OSetControl _ _ | OSetFrozen _ _) => True
    | _, _ => False
    end.
End SpecSwap.
