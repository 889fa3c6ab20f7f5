(** * What the property about queues (C66) talks about

    In exact arithmetic, in metres and seconds. *)
From Coq Require Import List Bool ZArith NArith Arith Reals.
From Verif Require Import Arith RealArith Base SlotMap Util Geom Light Accel Net Path Vehicle LinkOps Sim SpecSim SpecMotion SpecEnter SpecGap.
Import ListNotations.
Local Open Scope R_scope.

(** All links after [lid] are closed, or there are none. *)
Definition closed_end (lid : key) (s : @sim RA) : Prop :=
  forall x, succ_of (s_links s) lid x -> exists lx, link_at s x = Some lx /\ lk_control lx = CClosed.
(** All links after [lid] are closed or have a give-way or stop sign with a waiting distance of zero or less; or there are none. *)
Definition shut_end (lid : key) (s : @sim RA) : Prop :=
  forall x, succ_of (s_links s) lid x -> exists lx, link_at s x = Some lx /\
    (lk_control lx = CClosed \/ exists dist must_stop prio, lk_control lx = CYield dist must_stop prio /\ dist <= 0).
(** No vehicle on [lid] has been registered as waiting yet. *)
Definition none_registered (lid : key) (s : @sim RA) : Prop :=
  forall k v, vehicle_at s k = Some v -> v_link v = Some lid -> v_queued v = None.
(** No link leads to [lid] and no lane change enters or leaves it. *)
Definition no_way_in (s : @sim RA) (lid : key) : Prop :=
  forall x, ~ succ_of (s_links s) x lid /\ ~ chg_of (s_links s) x lid /\ ~ chg_of (s_links s) lid x.
(** A time step of at most [d] seconds. *)
Definition short_step (d : R) (o : @op RA) : Prop := match o with OStep dt => 0 <= dt <= d | _ => False end.
(** A vehicle on [lid], of positive length, that has not been let into another link and is not going to [lid]; it is careful
    at speeds up to [L], and sees the end of the link early enough (drivers look five seconds ahead, at the speed limit). *)
Definition waits_well (L d : R) (lid : key) (v : @vehicle RA) : Prop :=
  careful L d v /\ 0 < v_half_len v /\ v_entered v = 1%nat /\ v_destination v <> lid /\ room_to_react (max_acc v) d L 0 (5 * L).
(** [k] is the first vehicle on the link. *)
Definition first_on (l : @link RA) (k : key) : Prop := exists behind, lk_vehicles l = behind ++ [k].
(** [k2] is somewhere in front of [k] on the link. *)
Definition in_front (l : @link RA) (k k2 : key) : Prop := exists pre mid post, lk_vehicles l = pre ++ k :: mid ++ k2 :: post.
(** The vehicles of [l] are all still on [lid] in [s'], in the same order; none of them has passed the end of the link, not even with its front,
    and no two of them overlap. *)
Definition still_queued (lid : key) (l : @link RA) (s' : @sim RA) : Prop :=
  exists l', link_at s' lid = Some l' /\ lk_vehicles l' = lk_vehicles l /\
    (forall k, In k (lk_vehicles l) -> exists v', vehicle_at s' k = Some v' /\ v_link v' = Some lid /\ pos_front v' <= lk_length l') /\
    (forall k k2 v' v2', in_front l k k2 -> vehicle_at s' k = Some v' -> vehicle_at s' k2 = Some v2' -> 0 <= gap v' v2').
