(** * Junctions with give-way and stop signs: what property C80 talks about *)
From Coq Require Import List Bool ZArith NArith Arith.
From Verif Require Import Arith Base SlotMap Util Geom Light Accel Net Path Vehicle LinkOps Sim SpecSim SpecEnter.
Import ListNotations.

Section SpecJunction.
  Context {A : Arith}.

  (** The sign at the start of link [x], and its priority. *)
  Definition sign_at (s : sim) (x : key) (prio : Z) : Prop :=
    exists l dist must_stop, link_at s x = Some l /\ lk_control l = CYield dist must_stop prio.
  (** Link [x] conflicts with link [y] in [c]. *)
  Definition conflict_at (s : sim) (x y : key) (c : link_conflict) : Prop :=
    exists l, link_at s x = Some l /\ In c (lk_conflicts l) /\ cf_link c = y.
  (** The links [J] are a junction: each has a sign, and conflicts only with others of them. *)
  Definition junction (s : sim) (J : list key) : Prop :=
    forall x, In x J -> (exists prio, sign_at s x prio) /\ forall y c, conflict_at s x y c -> In y J /\ y <> x.

  (** Vehicle [k] waits for link [x], since it was given number [since], at a sign of priority [prio]. *)
  Definition waits_for (s : sim) (k x : key) (prio : Z) (since : nat) : Prop :=
    exists v, vehicle_at s k = Some v /\ next_link v = Some x /\ v_queued v = Some since /\ sign_at s x prio.
  (** It is the first at the end of the link it is on. *)
  Definition at_the_line (s : sim) (k : key) : Prop :=
    exists v lid l, v_link v = Some lid /\ link_at s lid = Some l /\ first_at_line s l k v.

  (** No vehicle is in the junction: nobody who is not on one of its links has been let in, and those who
      are on one have all of the vehicle past every conflict of this link with another one. *)
  Definition nobody_in (s : sim) (J : list key) : Prop :=
    forall k v i y, vehicle_at s k = Some v -> In y J -> heads_to v i y -> i < v_entered v ->
      i = 0 /\ forall x c, In x J -> conflict_at s x y c -> nltb (cf_max c) (pos_rear v) = true.
  (** All who wait at the junction are the first at their line. *)
  Definition all_first (s : sim) (J : list key) : Prop :=
    forall k x prio since, In x J -> waits_for s k x prio since -> at_the_line s k.
  (** Nobody who waits has to let anyone pass who does not wait: the links to which vehicles that do not
      wait at the line are on their way do not have a higher priority. *)
  Definition none_with_priority_comes (s : sim) (J : list key) : Prop :=
    forall k x prio since, In x J -> waits_for s k x prio since ->
      forall k2 w y i prio2, vehicle_at s k2 = Some w -> In y J -> heads_to w i y -> not_there_yet w i -> sign_at s y prio2 -> (prio2 <= prio)%Z.

  (** Going back along the links before the link [l2]: link [l] is [i] links before it, the zone of the
      conflict [c] is from [p0] to [p1] metres after the start of [l], and [vmax] is the highest speed limit on
      the way. *)
  Inductive back (s : sim) (c : link_conflict) (l2 : link) : nat -> link -> num -> num -> num -> Prop :=
  | back_here : back s c l2 0 l2 (cf_min c) (cf_max c) (nmax n0 (lk_limit l2))
  | back_more i l p0 p1 vmax k' l' : back s c l2 i l p0 p1 vmax -> In k' (lk_in l) -> link_at s k' = Some l' ->
      back s c l2 (S i) l' (nadd p0 (lk_length l')) (nadd p1 (lk_length l')) (nmax vmax (lk_limit l')).
  (** Vehicle [kw] is the cause that vehicle [v], which waits at the end of [l] for [lx], of priority [prio],
      since it was given number [since], has to go on waiting: [kw] is on its way to, or on, a link with which [lx]
      conflicts, is not yet past the conflict, does not give way, and may reach the zone of the conflict before
      [v] has left it, and half a second has passed.  (As in the code, the length of [l] is counted twice.) *)
  Definition held_up_by (s : sim) (v : vehicle) (l lx : link) (prio : Z) (since : nat) (kw : key) : Prop :=
    exists c l2 w i lw p0 p1 vmax past rest, In c (lk_conflicts lx) /\ link_at s (cf_link c) = Some l2 /\ back s c l2 i lw p0 p1 vmax /\
      past_and_rest s lw p1 past rest /\ In kw rest /\ vehicle_at s kw = Some w /\ heads_to w i (cf_link c) /\
      ~ gives_way (precedence prio since (lk_control l2)) w i /\
      nltb (nadd (min_reach_time v (nadd (nadd (lk_length l) (lk_length l)) (cf_own_max c)) (lk_limit lx)) nhalf) (min_reach_time w p0 vmax) = false.
End SpecJunction.

Section SpecTogether.
  Context {A : Arith}.

  (** Vehicle [k] is on link [a] and waits for link [x] since it was given number [since], at a sign of priority [prio]. *)
  Record at_sign (s : sim) (k : key) (v : vehicle) (a : key) (l : link) (x : key) (lx : link) (prio : Z) (since : nat) : Prop := {
    as_there : vehicle_at s k = Some v;
    as_on : v_link v = Some a;
    as_link : link_at s a = Some l;
    as_entered : v_entered v = 1;
    as_next : next_link v = Some x;
    as_goal : link_at s x = Some lx;
    as_sign : exists dist must_stop, lk_control lx = CYield dist must_stop prio;
    as_since : v_queued v = Some since;
  }.
  (** In the last step, which led to [s'], vehicle [k] was let into link [x] and did not leave link [a]. *)
  Definition just_let_in (s s' : sim) (k a x : key) : Prop :=
    a <> x /\ (exists v, vehicle_at s k = Some v /\ ~ In x (entered_links v)) /\
    exists v', vehicle_at s' k = Some v' /\ v_link v' = Some a /\ In x (entered_links v').
  (** Vehicle [k] is the next one to reach the zone of conflict [c] on link [y]: those on [y] are past it, it is on
      link [l], which leads to [y], and none of those in front of it on [l] goes to [y]. *)
  Definition next_to_reach (s : sim) (c : link_conflict) (y : key) (ly : link) (a : key) (l : link) (k : key) : Prop :=
    In a (lk_in ly) /\
    (forall kw, In kw (lk_vehicles ly) -> exists w, vehicle_at s kw = Some w /\ nltb (cf_max c) (pos_rear w) = true) /\
    exists behind ahead, lk_vehicles l = behind ++ k :: ahead /\
      (forall kw, In kw (k :: ahead) -> exists w, vehicle_at s kw = Some w /\ nltb (nadd (cf_max c) (lk_length l)) (pos_rear w) = false) /\
      (forall kw, In kw ahead -> exists w, vehicle_at s kw = Some w /\ ~ heads_to w 1 y).
  (** Vehicle [v], which waits at the end of [l] for [lx], is out of the zone of [c] half a second before vehicle [w],
      at the end of [lw], can reach it at a speed of up to the limits there and on [ly]. *)
  Definition out_in_time (v : vehicle) (l lx : link) (c : link_conflict) (w : vehicle) (lw ly : link) : Prop :=
    let time := nadd (min_reach_time v (nadd (nadd (lk_length l) (lk_length l)) (cf_own_max c)) (lk_limit lx)) nhalf in
    nltb time (ndiv (cf_min c) (nmax n0 (lk_limit ly))) = true \/
    nltb time (ndiv (nadd (cf_min c) (lk_length lw)) (nmax (nmax n0 (lk_limit ly)) (lk_limit lw))) = true \/
    nltb time (min_reach_time w (nadd (cf_min c) (lk_length lw)) (nmax (nmax n0 (lk_limit ly)) (lk_limit lw))) = true.
End SpecTogether.
