(** * Vehicles in the other lanes: what property C60 talks about *)
From Coq Require Import List Bool ZArith NArith Arith.
From Verif Require Import Arith Base SlotMap Util Geom Light Accel Net Path Vehicle LinkOps Sim SpecSim SpecMotion SpecEnter SpecAhead.
Import ListNotations.

Section SpecSide.
  Context {A : Arith}.

  (** Vehicle [w], which is on another lane, as it appears on the lane that [p] projects to: the
      position and the sideways extent of its rear there, the corners of its rear and its speed. *)
  Definition appears_as (w : vehicle) (p : projection) (o : obstacle) : Prop := v_project w p = Ok o.

  (** Where the middle of vehicle [v] is sideways of the centre line of its lane when its front is at [pos]. *)
  Definition sideways (v : vehicle) (pos : num) : num := offset_at v (nsub pos (v_half_len v)).
  (** There is more than 0.5 m between [v] and the obstacle when [v] drives past it. *)
  Definition clear_of (v : vehicle) (o : obstacle) : Prop :=
    let x := sideways v (o_pos o) in
    nltb (nadd (v_half_wid v) nhalf) (nmax (nsub x (i_max (o_lat o))) (nsub (i_min (o_lat o)) x)) = true.

  (** How far the corners of the obstacle are ahead of, and sideways of, the point at its position on the lane. *)
  Definition corner_ahead (l : link) (o : obstacle) (c : pt) : num :=
    let m := sample_centre (lk_curve l) (o_pos o) in
    nadd (nmul (nsub (px c) (px (sm_pos m))) (px (sm_tan m))) (nmul (nsub (py c) (py (sm_pos m))) (py (sm_tan m))).
  Definition corner_aside (l : link) (o : obstacle) (c : pt) : num :=
    let m := sample_centre (lk_curve l) (o_pos o) in
    nadd (nmul (nsub (px c) (px (sm_pos m))) (nneg (py (sm_tan m)))) (nmul (nsub (py c) (py (sm_pos m))) (px (sm_tan m))).
  (** How far ahead of its position the nearest corner of the obstacle is. *)
  Definition ahead_of (l : link) (o : obstacle) : num := nmin (corner_ahead l o (fst (o_rear o))) (corner_ahead l o (snd (o_rear o))).

  (** [o'] is obstacle [o], with its position moved along the lane to its nearest corner until that
      is less than 0.1 m away, and its sideways extent measured there. *)
  Inductive measured (l : link) : obstacle -> obstacle -> Prop :=
  | measured_now o : nltb (ahead_of l o) (lit 1 10) = true ->
      measured l o (Obst (nadd (o_pos o) (ahead_of l o)) (Itv (corner_aside l o (fst (o_rear o))) (corner_aside l o (snd (o_rear o)))) (o_rear o) (o_vel o))
  | measured_further o o' : nltb (ahead_of l o) (lit 1 10) = false ->
      measured l (Obst (nadd (o_pos o) (ahead_of l o)) (o_lat o) (o_rear o) (o_vel o)) o' -> measured l o o'.

  (** [v] has enough room to drive past [o] on lane [l]. *)
  Definition has_room (v : vehicle) (o : obstacle) (l : link) : Prop :=
    clear_of v o \/ exists o', measured l o o' /\ clear_of v o'.
  (** [v] does not: the obstacle is in its way at the position of [o']. *)
  Definition in_the_way (v : vehicle) (o : obstacle) (l : link) (o' : obstacle) : Prop :=
    ~ clear_of v o /\ measured l o o' /\ ~ clear_of v o'.

  (** The middle of the vehicle is behind the position. *)
  Definition is_behind (v : vehicle) (pos : num) : Prop := nltb (v_pos v) pos = true.

  (** Going back on lane [l] from obstacle [o], [k] is the first vehicle: those in front of it are
      not behind the obstacle, or are at most five seconds away and have room to pass. *)
  Definition first_without_room (s : sim) (l : link) (o : obstacle) (k : key) (v : vehicle) : Prop :=
    exists behind between ahead, lk_vehicles l = behind ++ k :: between ++ ahead /\ vehicle_at s k = Some v /\ within l (o_pos o) v /\
    (forall k', In k' ahead -> exists v', vehicle_at s k' = Some v' /\ ~ is_behind v' (o_pos o)) /\
    (forall k', In k' between -> exists v', vehicle_at s k' = Some v' /\ within l (o_pos o) v' /\ has_room v' o l).
End SpecSide.
