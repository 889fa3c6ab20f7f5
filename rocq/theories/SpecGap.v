(** * What the properties about collisions talk about

    All in exact arithmetic, in metres and seconds. *)
From Coq Require Import List Bool ZArith NArith Arith Reals.
From Verif Require Import Arith RealArith Base SlotMap Util Geom Light Accel Net Path Vehicle LinkOps Sim SpecSim SpecMotion SpecEnter.
Import ListNotations.
Local Open Scope R_scope.

(** The distance from the front of [v] to the rear of [v2], both on one link. *)
Definition gap (v v2 : @vehicle RA) : R := (pos_rear v2 : R) - (pos_front v : R).
(** The longest time between two refreshes of the accelerations if steps take at most [d]. *)
Definition refresh_time (d : R) : R := 1 / 10 + d.

(** Room to react: a vehicle at speed [v] that accelerates with [a] until the next refresh, and only
    then brakes with 6 m/s^2, needs at most [g] metres more than something in front of it that moves
    at [u] and brakes with 6 m/s^2 at once. *)
Definition room_to_react (a d v u g : R) : Prop :=
  let t := refresh_time d in let w := v + a * t in
  0 <= g /\ v * t + a * t * t / 2 + w * w / 12 + w * d / 2 <= g + u * u / 12.

(** A driver whose headway is long enough for speeds up to [V]: [a], [b] and [T] are the maximum
    acceleration, the comfortable deceleration and the headway of the vehicle. *)
Definition careful (V d : R) (v : @vehicle RA) : Prop :=
  let a : R := max_acc v in let b : R := comf_dec v in let T : R := headway v in
  let t := refresh_time d in let p := sqrt (a / (a + 6)) in let q := 3 / sqrt ((a + 6) * b) in
  3 / 5 <= a /\ 0 < b /\
  t * (1 + a / 6) + d / 2 + V / 12 * ((q - 1) * (q - 1)) <= T * p /\
  t * (a * t / 2 + a * a * t / 12 + a * d / 2) <= 2 * p.

(** A link that does not lead to itself and that no lane change enters or leaves. *)
Definition plain_road (s : @sim RA) (lid : key) : Prop :=
  ~ succ_of (s_links s) lid lid /\ forall x, ~ chg_of (s_links s) x lid /\ ~ chg_of (s_links s) lid x.

(** A call that does not run time backwards. *)
Definition forward (o : @op RA) : Prop := match o with OStep dt => 0 <= dt | _ => True end.

(** A history all of whose states satisfy [P] and all of whose calls satisfy [Q]. *)
Inductive throughout (P : @sim RA -> Prop) (Q : @op RA -> Prop) : @sim RA -> list (@op RA) -> @sim RA -> Prop :=
| thr_nil s : P s -> throughout P Q s [] s
| thr_call e s o s1 ops s' : P s -> Q o -> exec e s o = Ok s1 -> throughout P Q s1 ops s' -> throughout P Q s (o :: ops) s'.

(** Any calls, but time steps take between 0 and [d] seconds and no call moves the vehicles [ks] to
    another lane. *)
Definition keep_lanes (d : R) (ks : list key) (o : @op RA) : Prop :=
  match o with OStep dt => 0 <= dt <= d | OLaneChange v _ _ => ~ In v ks | _ => True end.

(** [k] is on the link [lid], at a speed of at most [V], with [k2] next in front of it. *)
Definition follows (V : R) (lid k k2 : key) (s : @sim RA) : Prop :=
  plain_road s lid /\
  exists l v v2, link_at s lid = Some l /\ right_behind l k k2 /\ vehicle_at s k = Some v /\ vehicle_at s k2 = Some v2 /\ (v_vel v : R) <= V.

(** A state in which [P] holds, also after the choice of lanes and routes with which the next time
    step begins. *)
Definition settled (P : @sim RA -> Prop) (s : @sim RA) : Prop :=
  P s /\ forall e s1, calculate_lane_changes e s = Ok s1 -> P s1.
(** [k], at a speed of at most [V], is the first vehicle on the link [lid] and has to stop at its end: it
    may not enter the next link of its route yet, or it has none and no leave to exit. *)
Definition held (V : R) (lid k : key) (s : @sim RA) : Prop :=
  plain_road s lid /\
  exists l v behind, link_at s lid = Some l /\ lk_vehicles l = behind ++ [k] /\ vehicle_at s k = Some v /\ v_entered v = 1%nat /\ (v_vel v : R) <= V /\
    ((exists x lx, next_link v = Some x /\ link_at s x = Some lx /\ must_wait s v l lx) \/ next_link v = None /\ v_can_exit v = false).
(** The distance from the front of a vehicle to the end of its link. *)
Definition room_left (l : @link RA) (v : @vehicle RA) : R := (lk_length l : R) - (pos_front v : R).
