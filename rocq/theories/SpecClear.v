(** * Roads of several links: what the property about arriving there talks about (C74) *)
From Coq Require Import List Bool ZArith NArith Arith Reals.
From Verif Require Import Arith RealArith Base SlotMap Util Geom Light Accel Net Path Vehicle LinkOps Sim SpecSim SpecMotion SpecEnter SpecRoute SpecGap SpecRoad.
Import ListNotations.
Local Open Scope R_scope.

(** The last call that concerns where [k] goes sent it to the last link of the road, while it was on another link of the
    road without plans; [ops] are the calls so far. *)
Definition sent_ahead (ops : list (@op RA)) (s : @sim RA) (road : list key) (k : key) : Prop :=
  exists ops1 e s0 s1 ops2 v0 a, ops = ops1 ++ OSetDestination k (last road null_key) :: ops2 /\
    history sim_new ops1 s0 /\ exec e s0 (OSetDestination k (last road null_key)) = Ok s1 /\ history s1 ops2 s /\
    vehicle_at s0 k = Some v0 /\ v_route v0 = [a] /\ In a road /\ a <> last road null_key /\
    forall o, In o ops2 -> redirects k o = false /\ moves k o = false /\ builds o = false.
(** All vehicles on the road are free to go: not frozen, and sent to its end from before its last link. *)
Definition all_go (road : list key) (ops : list (@op RA)) (s : @sim RA) : Prop :=
  forall k v, on_road s road k v -> get_vehicle_frozen s k = false /\ sent_ahead ops s road k.
