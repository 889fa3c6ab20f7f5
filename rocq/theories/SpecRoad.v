(** * Roads of several links: what the property about collisions on them talks about (C73)

    All in exact arithmetic, in metres and seconds. *)
From Coq Require Import List Bool ZArith NArith Arith Reals.
From Verif Require Import Arith RealArith Base SlotMap Util Geom Light Accel Net Path Vehicle LinkOps Sim SpecSim SpecMotion SpecEnter SpecRoute P_Order SpecGap.
Import ListNotations.
Local Open Scope R_scope.

(** [y] comes right after [x] on the road. *)
Definition next_on (road : list key) (x y : key) : Prop := exists pre post, road = pre ++ x :: y :: post.
(** A road without junctions: a list of different links that lead from one to the next, and from and to no others. *)
Definition single_road (links : @linkset RA) (road : list key) : Prop :=
  NoDup road /\ (forall x, In x road -> valid links x) /\
  forall x y, In x road \/ In y road -> (succ_of links x y <-> next_on road x y).

(** The length of a link, and where a link of the road starts, in metres from the start of the road. *)
Definition length_of (s : @sim RA) (x : key) : R := match link_at s x with Some l => lk_length l | None => 0 end.
Fixpoint start_of (len : key -> R) (road : list key) (x : key) : R :=
  match road with [] => 0 | y :: road => if key_eqb x y then 0 else len y + start_of len road x end.
(** Where on the road the middle of a vehicle is. *)
Definition road_pos (s : @sim RA) (road : list key) (v : @vehicle RA) : R :=
  match v_link v with Some x => start_of (length_of s) road x + v_pos v | None => 0 end.
(** The distance from the front of [v] to the rear of [v2]. *)
Definition road_gap (s : @sim RA) (road : list key) (v v2 : @vehicle RA) : R :=
  (road_pos s road v2 - v_half_len v2) - (road_pos s road v + v_half_len v).
Definition on_road (s : @sim RA) (road : list key) (k : key) (v : @vehicle RA) : Prop :=
  vehicle_at s k = Some v /\ exists x, v_link v = Some x /\ In x road.

(** A driver as in [careful], at speeds up to [L], of a vehicle that is at most [2 h] metres long.  It has room
    to react when it comes within sight (five seconds at the speed limit) of the traffic on the next link, and also if
    it learns only when it is 0.3 seconds of driving into a link of length [m] how it goes on after that link. *)
Definition drives_well (L d m h : R) (v : @vehicle RA) : Prop :=
  careful L d v /\ 0 < v_half_len v <= h /\
  room_to_react (max_acc v) d L 0 (5 * L - h) /\
  room_to_react (max_acc v) d L 0 (m - 3 / 10 * L - v_half_len v - h).

(** The last call that concerns where [k] goes sent it to the last link of the road, while it was on the road
    without plans; [ops] are the calls so far. *)
Definition sent_along (ops : list (@op RA)) (s : @sim RA) (road : list key) (k : key) : Prop :=
  exists ops1 e s0 s1 ops2 v0 a, ops = ops1 ++ OSetDestination k (last road null_key) :: ops2 /\
    history sim_new ops1 s0 /\ exec e s0 (OSetDestination k (last road null_key)) = Ok s1 /\ history s1 ops2 s /\
    vehicle_at s0 k = Some v0 /\ v_route v0 = [a] /\ In a road /\
    forall o, In o ops2 -> redirects k o = false /\ moves k o = false /\ builds o = false.
(** The vehicle is within its link and not in the middle of a lane change; it is on the last link of the road, or knows which
    link comes next, or is at the very beginning of its link. *)
Definition well_placed (s : @sim RA) (road : list key) (v : @vehicle RA) : Prop :=
  v_lane_change v = None /\ exists x, v_link v = Some x /\ 0 <= v_pos v <= length_of s x /\
    (x = last road null_key \/ (exists y, heads_to v 1 y) \/ (v_pos v : R) = 0).

(** The links are at least [m] long and list their vehicles in order; all vehicles on the road are as above, are on their way
    to its end and have room to react to those in front of them. *)
Definition good_traffic (L d m h : R) (road ks : list key) (ops : list (@op RA)) (s : @sim RA) : Prop :=
  (forall x l, In x road -> link_at s x = Some l -> m <= lk_length l /\ ordered s (lk_vehicles l)) /\
  (forall k v, on_road s road k v -> In k ks /\ sent_along ops s road k /\ drives_well L d m h v /\ well_placed s road v) /\
  (forall k k2 v v2, on_road s road k v -> on_road s road k2 v2 -> k <> k2 -> road_pos s road v <= road_pos s road v2 ->
    room_to_react (max_acc v) d (v_vel v) (v_vel v2) (road_gap s road v v2)).

(** Calls in the course of which the theorem holds: time steps between 0 and [d] seconds, and calls that do not
    change the roads, do not randomise speeds, move no vehicle to another lane, add no vehicle to the road (and elsewhere only such as
    keep the limit, see C10) and do not redirect the vehicles [ks]. *)
Definition road_call (L d : R) (road ks : list key) (o : @op RA) : Prop :=
  match o with
  | OStep dt => 0 <= dt <= d
  | OAddVehicle a x => (0 < a_max_acc a /\ 4 * a_max_acc a * (1 / 10 + d) <= L) /\ ~ In x road
  | OSetDestination k _ => ~ In k ks
  | OSetFrozen _ _ | OSetControl _ _ | ORemoveVehicle _ | OAddLight _ => True
  | _ => False
  end.
