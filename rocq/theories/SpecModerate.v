(** * Simulations in binary64 whose numbers are of a moderate size *)
From Coq Require Import List Bool ZArith NArith Arith.
From Verif Require Import Arith F64 Base SlotMap Util Geom Light Accel Net Path Vehicle LinkOps Sim SpecSim SpecMotion.
Import ListNotations.

Definition from_to (lo x hi : @num F64) : Prop := nleb lo x = true /\ nleb x hi = true.
(** Links are between a centimetre and a thousand kilometres long, with limits between 0.1 and 250 m/s. *)
Definition moderate_roads (s : @sim F64) : Prop := forall k l, link_at s k = Some l ->
  from_to (lit 1 100) (lk_length l) (nofZ 1000000) /\ from_to (lit 1 10) (lk_limit l) (nofZ 250).
(** Vehicles can accelerate by 0.01 to 100 m/s^2, drive at 0 to 1000 m/s, and are at most two thousand kilometres from the start of their link. *)
Definition moderate_vehicles (s : @sim F64) : Prop := forall k v, vehicle_at s k = Some v ->
  from_to (lit 1 100) (max_acc v) (nofZ 100) /\ from_to (nofZ 0) (v_vel v) (nofZ 1000) /\ from_to (nofZ 0) (v_pos v) (nofZ 2000000).
(** They are at most two hundred metres long. *)
Definition moderate_lengths (s : @sim F64) : Prop := forall k v, vehicle_at s k = Some v -> from_to (nofZ 0) (v_half_len v) (nofZ 100).
(** No links lie beside each other. *)
Definition no_lanes_beside (s : @sim F64) : Prop := forall k l, link_at s k = Some l -> lk_group l = None /\ lk_changes l = [].
