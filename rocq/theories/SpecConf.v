(** * Conflicts between links: what the properties C48 and C52 talk about *)
From Coq Require Import List Bool ZArith NArith Arith.
From Verif Require Import Arith Base SlotMap Util Geom Light Accel Net Path Vehicle LinkOps Sim SpecSim SpecMotion SpecEnter SpecAhead.
Import ListNotations.

Section SpecConf.
  Context {A : Arith}.

  (** The conflicts of a link with link [y]. *)
  Definition conflicts_with (l : link) (y : key) : list link_conflict := filter (fun c => key_eqb (cf_link c) y) (lk_conflicts l).
  (** Two records of the same conflict, one for each of the links: each says where the zone ends on
      its own link, and where it begins and ends on the other. *)
  Definition mirrored (c c' : link_conflict) : Prop := cf_own_max c = cf_max c' /\ cf_own_max c' = cf_max c.

  (** ** Where the zone is *)
  (** Places on the first link, a quarter of a metre apart: number [i] is that many steps from its
      start.  [probe c1 c2 i o]: [o] is the point on the second link found for the place before
      number [i]; the search starts from the point found before it. *)
  Fixpoint quarters (i : nat) : num := match i with O => n0 | S i => nadd (quarters i) (lit 1 4) end.
  Definition place (c : link_curve) (i : nat) : lsample := sample_centre c (quarters i).
  Inductive probe (c1 c2 : link_curve) : nat -> option num -> Prop :=
  | probe_0 : probe c1 c2 0 None
  | probe_S i o o' : probe c1 c2 i o -> project_point_onto_curve (lc_curve c2) (sm_pos (place c1 i)) (lit 1 10) o = Ok o' -> probe c1 c2 (S i) o'.
  (** The two links are close to each other there: less than 1.8 m, or up to twice as much if they
      are parallel. *)
  Definition close (a b : lsample) : bool :=
    nltb (nsub (distance (sm_pos a) (sm_pos b)) (nmul (lit 9 5) (nabs (dot (sm_tan a) (sm_tan b))))) (lit 9 5).
  Definition close_at (c1 c2 : link_curve) (i : nat) : Prop :=
    exists p, probe c1 c2 (S i) (Some p) /\ close (place c1 i) (sample_centre c2 p) = true.

  (** The zone on the first link: from a quarter of a metre before the first place where the links
      are close to a quarter of a metre after the last one, of the places on the link. *)
  Definition on_link (c : link_curve) (i : nat) : Prop := forall j, j <= i -> nltb (quarters j) (lc_length c) = true.
  Definition zone (c1 c2 : link_curve) (lo hi : num) : Prop :=
    exists p q, p <= q /\ (on_link c1 p /\ close_at c1 c2 p) /\ (on_link c1 q /\ close_at c1 c2 q) /\
      (forall i, on_link c1 i -> close_at c1 c2 i -> p <= i <= q) /\
      lo = nsub (quarters p) (lit 1 4) /\ hi = nadd (quarters q) (lit 1 4).
  (** Somewhere on the first link the second is close. *)
  Definition meets (c1 c2 : link_curve) : Prop := exists i, on_link c1 i /\ close_at c1 c2 i.

  (** The direction of a link through a zone, and whether two links run in the same direction. *)
  Definition direction (l : link) (from to : num) : pt :=
    normalize (vsub (sm_pos (sample_centre (lk_curve l) to)) (sm_pos (sample_centre (lk_curve l) from))).
  Definition same_direction (la lb : link) (amin amax bmin bmax : num) : bool :=
    nltb (lit 1 4) (dot (direction la amin amax) (direction lb bmin bmax)).

  (** ** Vehicles on their way to a zone *)
  (** Vehicle [w] of link [l], [idx] links before [x], does not end the search for vehicles headed for [x]. *)
  Definition lets_pass (x : key) (idx : nat) (l : link) (pos : num) (w : vehicle) : Prop :=
    within l pos w /\ (heads_to w idx x -> idx < v_entered w \/ nltb (lk_length l) pos = false).
  Definition let_pass (s : sim) (x : key) (idx : nat) (l : link) (pos : num) (ks : list key) : Prop :=
    forall k, In k ks -> exists w, vehicle_at s k = Some w /\ lets_pass x idx l pos w.
  (** Going back from link [a], [idx] links before [x] and starting [pos] metres before the zone,
      one meets vehicle [k], which is headed for [x]; the link it is on starts [d] metres before the
      zone and is [i] links before [x]. *)
  Inductive approaching (s : sim) (x : key) : nat -> key -> num -> key -> vehicle -> nat -> num -> Prop :=
  | appr_here idx a la pos behind k ahead v :
      link_at s a = Some la -> in_use s a -> lk_vehicles la = behind ++ k :: ahead -> let_pass s x idx la pos ahead ->
      vehicle_at s k = Some v -> heads_to v idx x -> lets_pass x idx la pos v ->
      approaching s x idx a pos k v idx pos
  | appr_further idx a la pos b lb k v i d :
      link_at s a = Some la -> in_use s a -> let_pass s x idx la pos (lk_vehicles la) ->
      nleb n0 (nsub pos (nmul (nofZ 5) (lk_limit la))) = false ->
      In b (lk_in la) -> link_at s b = Some lb -> approaching s x (S idx) b (nadd pos (lk_length lb)) k v i d ->
      approaching s x idx a pos k v i d.

  (** A vehicle near a conflict: the link of the conflict it is on or headed for, and how far before
      the zone the link starts that it is on. *)
  Record arrival := Arrival { ar_key : key; ar_veh : vehicle; ar_link : key; ar_dist : num }.
  (** How far the front and the rear are past the start of the zone. *)
  Definition ar_front (r : arrival) : num := nsub (pos_front (ar_veh r)) (ar_dist r).
  Definition ar_rear (r : arrival) : num := nsub (pos_rear (ar_veh r)) (ar_dist r).
  (** [r] is near the zone from [zmin] to [zmax] on link [x]: it is met going back from the start of
      the zone, and its rear has not left the zone. *)
  Definition near_zone (s : sim) (x : key) (zmin zmax : num) (r : arrival) : Prop :=
    ar_link r = x /\ nltb (ar_rear r) (nsub zmax zmin) = true /\
    exists i, approaching s x 0 x zmin (ar_key r) (ar_veh r) i (ar_dist r).

  (** Nobody is further than somebody earlier in the list. *)
  Fixpoint by_front (l : list arrival) : Prop :=
    match l with [] => True | r :: l => (forall r', In r' l -> nltb (ar_front r) (ar_front r') = false) /\ by_front l end.

  (** The acceleration with which [v] follows an obstacle between the two given points. *)
  Definition follow_points (v : vehicle) (pts : pt * pt) (vel : num) : num :=
    let d p := dot (v_world_dir v) (vsub p (v_world_pos v)) in
    driver_model v (nsub (nmin (d (fst pts)) (d (snd pts))) (v_half_len v)) vel.
  (** What the second of two vehicles does: if the links run in the same direction and the rear of
      the first is past the start of the zone it follows it, otherwise it stops before the zone. *)
  Definition yield_to (same : bool) (leader follower : arrival) : num :=
    if same && nltb n0 (ar_rear leader)
    then follow_points (ar_veh follower) (v_rear_coords (ar_veh leader)) (v_vel (ar_veh leader))
    else driver_model (ar_veh follower) (nsub (nadd (ar_dist follower) n0) (pos_front (ar_veh follower))) n0.
End SpecConf.
