(** * Giving way at a crossing: what property C79 talks about

    In exact arithmetic, in metres and seconds. *)
From Coq Require Import List Bool ZArith NArith Arith Reals.
From Verif Require Import Arith RealArith Base SlotMap Util Geom Light Accel Net Path Vehicle LinkOps Sim SpecSim SpecMotion SpecEnter SpecAhead SpecConf SpecGap.
Import ListNotations.
Local Open Scope R_scope.

(** The [i]-th registered conflict of two links [a] and [b] is a crossing: the links do not run in the
    same direction there.  It reaches from [amin] to [amax] on [a] and from [bmin] to [bmax] on [b]. *)
Definition crossing (s : @sim RA) (a b : key) (i : nat) (amin amax bmin bmax : R) : Prop :=
  a <> b /\ exists la lb c c', link_at s a = Some la /\ link_at s b = Some lb /\
    nth_error (conflicts_with la b) i = Some c /\ nth_error (conflicts_with lb a) i = Some c' /\
    cf_min c' = amin /\ cf_max c' = amax /\ cf_min c = bmin /\ cf_max c = bmax /\
    @same_direction RA la lb amin amax bmin bmax = false.

(** [k] is on link [b], at a speed of at most [V], and of the vehicles of that link it is the next to
    reach the crossing:
    - it is on its way to the crossing, or still more than five seconds away from it;
    - all other vehicles that are at the crossing on link [b], or on their way to it, are behind it. *)
Definition next_at_crossing (V : R) (b : key) (bmin bmax : R) (k : key) (v : @vehicle RA) (s : @sim RA) : Prop :=
  plain_road s b /\
  exists lb : @link RA, link_at s b = Some lb /\ In k (lk_vehicles lb) /\ vehicle_at s k = Some v /\ (v_vel v : R) <= V /\
    let me := @Arrival RA k v b bmin in
    (near_zone s b bmin bmax me \/ (pos_front v : R) < bmin - 5 * lk_limit lb) /\
    (forall r, @near_zone RA s b bmin bmax r -> r = me \/ (ar_front r : R) < ar_front me).

(** It is not the turn of [k]: a vehicle of the other link that has not left the crossing is further
    ahead. *)
Definition not_its_turn (V : R) (a b : key) (i : nat) (amin amax bmin bmax : R) (k : key) (s : @sim RA) : Prop :=
  crossing s a b i amin amax bmin bmax /\
  exists v, next_at_crossing V b bmin bmax k v s /\
    exists r, @near_zone RA s a amin amax r /\ (ar_front (@Arrival RA k v b bmin) : R) < ar_front r.
(** The crossing is taken: the front of a vehicle of the other link is past its start, and the rear is not
    past its end. *)
Definition taken (V : R) (a b : key) (i : nat) (amin amax bmin bmax : R) (k : key) (s : @sim RA) : Prop :=
  crossing s a b i amin amax bmin bmax /\
  (exists v, next_at_crossing V b bmin bmax k v s) /\
  exists r, @near_zone RA s a amin amax r /\ 0 < (ar_front r : R).

(** The distance from the front of a vehicle to a place on its link. *)
Definition room_before (p : R) (v : @vehicle RA) : R := p - (pos_front v : R).

(** ** Merging *)
(** The [i]-th registered conflict of two links [a] and [b] reaches from [amin] to [amax] on [a] and from [bmin] to [bmax] on [b]; the links
    cross there, or they come together. *)
Definition meeting (s : @sim RA) (a b : key) (i : nat) (amin amax bmin bmax : R) : Prop :=
  a <> b /\ exists la lb c c', link_at s a = Some la /\ link_at s b = Some lb /\
    nth_error (conflicts_with la b) i = Some c /\ nth_error (conflicts_with lb a) i = Some c' /\
    cf_min c' = amin /\ cf_max c' = amax /\ cf_min c = bmin /\ cf_max c = bmax.
(** A vehicle of the other link is on its way into the place where the links come together: its front is past the start, its rear is not,
    and so it is with all vehicles of that link that are at that place or on their way to it: no rear is past the start. *)
Definition going_in (V : R) (a b : key) (i : nat) (amin amax bmin bmax : R) (k : key) (s : @sim RA) : Prop :=
  meeting s a b i amin amax bmin bmax /\
  (exists v, next_at_crossing V b bmin bmax k v s) /\
  (exists r, @near_zone RA s a amin amax r /\ 0 < (ar_front r : R)) /\
  forall r, @near_zone RA s a amin amax r -> (ar_rear r : R) <= 0.
