(** * Roads onto which vehicles are let one after the other: what the property about them talks about (C76)

    All in exact arithmetic, in metres and seconds. *)
From Coq Require Import List Bool ZArith NArith Arith Reals.
From Verif Require Import Arith RealArith Base SlotMap Util Geom Light Accel Net Path Vehicle LinkOps Sim SpecSim SpecMotion SpecEnter SpecRoute SpecGap SpecRoad.
Import ListNotations.
Local Open Scope R_scope.

(** The vehicle [k] that has just been added to the road drives as in C73 and has room to react to the vehicles in
    front of it, and those behind it have room to react to it. *)
Definition fits (L d m h : R) (s : @sim RA) (road : list key) (k : key) : Prop :=
  forall v, vehicle_at s k = Some v -> drives_well L d m h v /\
    forall k2 v2, on_road s road k2 v2 -> k2 <> k ->
      (road_pos s road v <= road_pos s road v2 -> room_to_react (max_acc v) d (v_vel v) (v_vel v2) (road_gap s road v v2)) /\
      (road_pos s road v2 <= road_pos s road v -> room_to_react (max_acc v2) d (v_vel v2) (v_vel v) (road_gap s road v2 v)).

(** Calls between which no vehicle is let onto the road: as in C73, where the destinations of the vehicles on the road are left alone. *)
Definition passing_call (L d : R) (road : list key) (s : @sim RA) (o : @op RA) : Prop :=
  match o with
  | OStep dt => 0 <= dt <= d
  | OAddVehicle a x => (0 < a_max_acc a /\ 4 * a_max_acc a * (1 / 10 + d) <= L) /\ ~ In x road
  | OSetDestination k _ => forall v, ~ on_road s road k v
  | OSetFrozen _ _ | OSetControl _ _ | ORemoveVehicle _ | OAddLight _ => True
  | _ => False
  end.

(** A history in which vehicles are let onto the road from time to time: a vehicle is added at the beginning of one of the
    links of the road other than the last one, fits in, and is sent to the end of the road at once. *)
Inductive traffic (L d m h : R) (road : list key) : @sim RA -> list (@op RA) -> @sim RA -> Prop :=
| tr_nil : forall s, traffic L d m h road s [] s
| tr_call : forall e s o s1 ops s', passing_call L d road s o -> exec e s o = Ok s1 -> traffic L d m h road s1 ops s' ->
    traffic L d m h road s (o :: ops) s'
| tr_enter : forall e e2 (s : @sim RA) (a : @attrs RA) x s1 k s2 ops s', In x road -> x <> last road null_key ->
    0 < a_max_acc a /\ 4 * a_max_acc a * (1 / 10 + d) <= L ->
    add_vehicle e s a x = Ok (s1, k) -> fits L d m h s1 road k ->
    exec e2 s1 (OSetDestination k (last road null_key)) = Ok s2 -> traffic L d m h road s2 ops s' ->
    traffic L d m h road s (OAddVehicle a x :: OSetDestination k (last road null_key) :: ops) s'.
