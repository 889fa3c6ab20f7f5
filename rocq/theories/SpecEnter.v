(** * Entering links: what the properties C23 and C49 talk about *)
From Coq Require Import List Bool ZArith NArith Arith.
From Verif Require Import Arith Base SlotMap Util Geom Light Accel Net Path Vehicle LinkOps Sim SpecSim.
Import ListNotations.

Section SpecEnter.
  Context {A : Arith}.

  (** The links of its route a vehicle has entered: the one it is on, and those it may drive onto
      without stopping. *)
  Definition entered_links (v : vehicle) : list key := firstn (v_entered v) (v_route v).
  (** The next link of the route, which it has not entered yet. *)
  Definition next_link (v : vehicle) : option key := nth_error (v_route v) (v_entered v).
  (** The last link it has entered: the one before the stop line of [next_link]. *)
  Definition last_entered (v : vehicle) : option key := nth_error (v_route v) (pred (v_entered v)).
  Definition heads_to (v : vehicle) (idx : nat) (x : key) : Prop := nth_error (v_route v) idx = Some x.
  (** Number [idx] of its route is not entered, and the vehicle does not wait for it. *)
  Definition not_there_yet (v : vehicle) (idx : nat) : Prop :=
    v_entered v < idx \/ v_entered v = idx /\ v_queued v = None.
  Definition waits_since (v : vehicle) (idx : nat) (a : nat) : Prop := v_entered v = idx /\ v_queued v = Some a.

  (** Lengths of runs of links that follow each other. *)
  Inductive run_length (s : sim) : num -> Prop :=
  | run_one k l : link_at s k = Some l -> run_length s (lk_length l)
  | run_more x k l : run_length s x -> link_at s k = Some l -> run_length s (nadd x (lk_length l)).
  (** Adding a link to a run gives more than the length of that link. *)
  Definition lengths_add_up (s : sim) : Prop :=
    forall x k l, run_length s x -> link_at s k = Some l -> nltb (lk_length l) (nadd x (lk_length l)) = true.

  (** Which waiting vehicles may be ignored: none if the conflicting link has precedence; all of
      them if the own link has; otherwise those that have waited for less long. *)
  Inductive rule := Ignore_none | Ignore_later (since : nat).
  Definition precedence (own : Z) (since : nat) (other : control) : rule :=
    match other with
    | COpen => Ignore_none
    | CClosed => Ignore_later 0
    | CYield _ _ p => if Z.ltb own p then Ignore_none else if Z.eqb own p then Ignore_later since else Ignore_later 0
    end.
  Definition gives_way (r : rule) (w : vehicle) (idx : nat) : Prop :=
    exists since, r = Ignore_later since /\ (not_there_yet w idx \/ exists a, waits_since w idx a /\ since < a).

  (** The vehicles of a link, front one first: those past position [p], and the others. *)
  Definition past_and_rest (s : sim) (l : link) (p : num) (past rest : list key) : Prop :=
    rev (lk_vehicles l) = past ++ rest /\
    Forall (fun k => exists v, vehicle_at s k = Some v /\ nltb p (pos_rear v) = true) past /\
    match rest with [] => True | k :: _ => exists v, vehicle_at s k = Some v /\ nltb p (pos_rear v) = false end.
  Definition none_heads (s : sim) (idx : nat) (tgt : key) (ks : list key) : Prop :=
    Forall (fun k => exists v, vehicle_at s k = Some v /\ ~ heads_to v idx tgt) ks.

  (** The way to the zone from [p0] to [p1] on link [tgt] is clear for [time] seconds: going back
      along the links before it, one meets first a vehicle on its way there that gives way or
      needs longer than [time] to reach the zone at the highest speed limit met so far, or gets so
      far back that even that speed is not enough.  [l] is the link the search is on, [idx] links
      before [tgt]; [p0], [p1] are positions relative to its start. *)
  Inductive clear (s : sim) (time : num) (r : rule) (tgt : key) : nat -> link -> num -> num -> num -> Prop :=
  | clear_vehicle idx l p0 p1 vmax past others k behind w :
      past_and_rest s l p1 past (others ++ k :: behind) -> none_heads s idx tgt others ->
      vehicle_at s k = Some w -> heads_to w idx tgt ->
      gives_way r w idx \/ nltb time (min_reach_time w p0 (nmax vmax (lk_limit l))) = true ->
      clear s time r tgt idx l p0 p1 vmax
  | clear_far idx l p0 p1 vmax past others :
      past_and_rest s l p1 past others -> none_heads s idx tgt others ->
      nltb time (ndiv p0 (nmax vmax (lk_limit l))) = true ->
      clear s time r tgt idx l p0 p1 vmax
  | clear_before idx l p0 p1 vmax past others :
      past_and_rest s l p1 past others -> none_heads s idx tgt others ->
      (forall k', In k' (lk_in l) -> exists l', link_at s k' = Some l' /\
         clear s time r tgt (S idx) l' (nadd p0 (lk_length l')) (nadd p1 (lk_length l')) (nmax vmax (lk_limit l))) ->
      clear s time r tgt idx l p0 p1 vmax.

  (** Vehicle [v], [pos] metres (counted from the start of the link it is on) before the yield link
      [l] of priority [prio] for which it waits since [since], has a sufficient gap at conflict [c]:
      the way to the zone is clear for the time it needs to leave the zone, plus half a second. *)
  Definition sufficient_gap (s : sim) (v : vehicle) (pos : num) (l : link) (prio : Z) (since : nat) (c : link_conflict) : Prop :=
    exists l2, link_at s (cf_link c) = Some l2 /\
      clear s (nadd (min_reach_time v (nadd pos (cf_own_max c)) (lk_limit l)) nhalf) (precedence prio since (lk_control l2))
        (cf_link c) 0 l2 (cf_min c) (cf_max c) n0.

  (** Vehicle [v] may enter link [x] in state [s]. *)
  Definition may_enter (s : sim) (v : vehicle) (x : key) : Prop :=
    exists l, link_at s x = Some l /\
      (lk_control l = COpen \/
       exists dist must_stop prio since self ls pos, lk_control l = CYield dist must_stop prio /\
         v_queued v = Some since /\ last_entered v = Some self /\ link_at s self = Some ls /\
         run_length s pos /\ (v_entered v = 1 -> pos = lk_length ls) /\
         Forall (sufficient_gap s v (nadd pos (lk_length ls)) l prio since) (lk_conflicts l)).

  (** Vehicle [v] may queue for link [x]: it is close to the stop line, and has stopped if it must. *)
  Definition may_queue (s : sim) (v : vehicle) (x : key) : Prop :=
    v_queued v = None /\ exists l dist must_stop prio pos, link_at s x = Some l /\ lk_control l = CYield dist must_stop prio /\
      run_length s pos /\ (v_entered v = 1 -> exists self ls, last_entered v = Some self /\ link_at s self = Some ls /\ pos = lk_length ls) /\
      nltb (nneg dist) (nsub (pos_front v) pos) = true /\ (must_stop = true -> nltb (v_vel v) (lit 1 10) = true).

  (** Vehicle [v] (with id [k]) is the first one on link [l] that has to stop at its end: it has not
      entered the next link of its route, all those in front of it have; all of them are within five
      seconds, at the speed limit, of the end of the link. *)
  Definition near_end (l : link) (v : vehicle) : Prop :=
    nltb (pos_front v) (nsub (lk_length l) (nmul (nofZ 5) (lk_limit l))) = false.
  Definition first_at_line (s : sim) (l : link) (k : key) (v : vehicle) : Prop :=
    exists behind ahead, lk_vehicles l = behind ++ k :: ahead /\
      (forall kw, In kw ahead -> exists w, vehicle_at s kw = Some w /\ 2 <= v_entered w /\ near_end l w) /\
      vehicle_at s k = Some v /\ v_entered v = 1 /\ near_end l v.
  (** All conflicts of the yield link [lx] after [l] have a sufficient gap.  As in the code, the length
      of [l] is counted twice. *)
  Definition all_gaps (s : sim) (v : vehicle) (l lx : link) (prio : Z) (since : nat) : Prop :=
    Forall (sufficient_gap s v (nadd (lk_length l) (lk_length l)) lx prio since) (lk_conflicts lx).
  (** The first vehicle on [l], whose next link is [lx], has to stop. *)
  Definition must_wait (s : sim) (v : vehicle) (l lx : link) : Prop :=
    lk_control lx = CClosed \/
    exists dist must_stop prio, lk_control lx = CYield dist must_stop prio /\
      (v_queued v = None \/ exists since, v_queued v = Some since /\ ~ all_gaps s v l lx prio since).
  (** It is let in: it waits and the gaps are sufficient, or the link is open and it could not stop
      comfortably five metres before the line. *)
  Definition let_in (s : sim) (v : vehicle) (l lx : link) : Prop :=
    lk_control lx = COpen /\ can_stop v (nadd (lk_length l) (nofZ (-5))) = false \/
    exists dist must_stop prio since, lk_control lx = CYield dist must_stop prio /\
      v_queued v = Some since /\ all_gaps s v l lx prio since.
  (** The first vehicle on [l] begins to wait: it does not wait yet, is near enough to the yield link [lx], and has stopped if it must. *)
  Definition lines_up (v : vehicle) (l lx : link) : Prop :=
    v_queued v = None /\ exists dist must_stop prio, lk_control lx = CYield dist must_stop prio /\
      nltb (nneg dist) (nsub (pos_front v) (lk_length l)) = true /\ (must_stop = true -> nltb (v_vel v) (lit 1 10) = true).
End SpecEnter.
