(** * Specification: the road map *)
From Coq Require Import List Bool ZArith NArith Arith.
From Verif Require Import Arith Base SlotMap Util Geom Light Accel Net Path Vehicle LinkOps Sim SpecSim.
Import ListNotations.

Section SpecMap.
  Context {A : Arith}.

  (** The link is the same on the map: the same curve and travel time, the same connections out of it, the same lanes beside it.  Its vehicles, its
      control and its crossings may differ. *)
  Definition same_on_map (l l' : link) : Prop :=
    lk_id l = lk_id l' /\ lk_curve l = lk_curve l' /\ lk_cost l = lk_cost l' /\ lk_out l = lk_out l' /\ lk_group l = lk_group l' /\ lk_changes l = lk_changes l'.
  Definition same_map (a b : linkset) : Prop :=
    forall k, match sm_get a k, sm_get b k with Some l, Some l' => same_on_map l l' | None, None => True | _, _ => False end.

  (** The same bound on loops, and ties between routes of equal cost broken the same way if the map is the same. *)
  Definition ties_by_map (e1 e2 : env) : Prop :=
    e_fuel e1 = e_fuel e2 /\ forall a b src dst n, same_map a b -> e_pick e1 a src dst n = e_pick e2 b src dst n.

  (** A call that does not change the map. *)
  Definition keeps_map (o : op) : Prop :=
    match o with OAddLink _ _ | OAddGroup _ _ | OAddConnection _ _ => False | _ => True end.

  (** What a vehicle knows of its way: its destination, the distances it can drive, and the paths it chooses among. *)
  Definition same_way (v w : vehicle) : Prop := v_pathfind v = v_pathfind w.
End SpecMap.
