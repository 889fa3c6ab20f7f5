(** * Specification: the rear of a vehicle, as others see it

    Exact arithmetic. *)
From Coq Require Import List Bool ZArith NArith Arith Reals.
From Verif Require Import Arith RealArith Base SlotMap Util Geom Light Accel Net Path Vehicle LinkOps Sim SpecSim.
Import ListNotations.
Local Open Scope R_scope.

(** The point [x] ahead of and [y] to the left of a point of a road, and how far a point is ahead of it and to the left of it. *)
Definition ahead_of (c : @lsample RA) (p : @pt RA) : R := (px p - px (sm_pos c)) * px (sm_tan c) + (py p - py (sm_pos c)) * py (sm_tan c).
Definition left_of (c : @lsample RA) (p : @pt RA) : R := (py p - py (sm_pos c)) * px (sm_tan c) - (px p - px (sm_pos c)) * py (sm_tan c).
(** The centre line of the road where the vehicle is. *)
Definition road_at (l : @link RA) (v : @vehicle RA) : @lsample RA := sample_centre (lk_curve l) (v_pos v).
(** The point of the vehicle's body [x] ahead of its centre and [y] to the left of it. *)
Definition body (v : @vehicle RA) (x y : R) : @pt RA :=
  @Pt RA (px (v_world_pos v) + x * px (v_world_dir v) - y * py (v_world_dir v)) (py (v_world_pos v) + x * py (v_world_dir v) + y * px (v_world_dir v)).
Definition directed (u : @pt RA) : Prop := px u * px u + py u * py u = 1.
(** The corners of the rear: half a length behind the vehicle's position along the road, and half a width beyond the outermost, to each side,
    of the centre line and the middle of the rear of the body. *)
Definition rear_ok (l : @link RA) (v : @vehicle RA) : Prop :=
  let c := road_at l v in
  directed (sm_tan c) ->
  ahead_of c (v_world_pos v) = 0 /\
  ahead_of c (fst (v_rear_coords v)) = - (v_length v / 2) /\ ahead_of c (snd (v_rear_coords v)) = - (v_length v / 2) /\
  left_of c (fst (v_rear_coords v)) = Rmin 0 (left_of c (body v (- (v_length v / 2)) 0)) - v_width v / 2 /\
  left_of c (snd (v_rear_coords v)) = Rmax 0 (left_of c (body v (- (v_length v / 2)) 0)) + v_width v / 2.
