(** * src/vehicle/acceleration.rs and src/vehicle/dynamics.rs *)
From Coq Require Import ZArith Bool List.
From Verif Require Import Arith Base Util Geom.
Import ListNotations.

Section Accel.
  Context {A : Arith}.
  Local Open Scope num_scope.

  (** acceleration.rs:4,7 *)
  Definition MIN_GAP : num := n2.
  Definition MAX_DECEL : num := nofZ (-6).

  (** acceleration.rs:11-17; the cell [acc] is the last field *)
  Record accel := Accel {
    am_headway : num; am_max : num; am_comf : num; am_adj : num; am_acc : num }.

  (** acceleration.rs:31-39 *)
  Definition accel_new (headway max_acc comf_dec : num) : accel :=
    Accel headway max_acc comf_dec n1 max_acc.

  Definition am_set_acc (m : accel) (x : num) : accel :=
    Accel (am_headway m) (am_max m) (am_comf m) (am_adj m) x.

  (** acceleration.rs:42-44 *)
  Definition am_set_adj (m : accel) (x : num) : accel :=
    Accel (am_headway m) (am_max m) (am_comf m) x (am_acc m).

  (** acceleration.rs:47-49 *)
  Definition am_reset (m : accel) : accel := am_set_acc m (am_max m).

  (** acceleration.rs:52-54 *)
  Definition am_get (m : accel) : num := nmax (am_acc m) MAX_DECEL.

  (** acceleration.rs:57-59 *)
  Definition am_emergency (m : accel) : accel := am_set_acc m MAX_DECEL.

  (** [acc.set(f64::min(acc.get(), x))] *)
  Definition am_min (m : accel) (x : num) : accel := am_set_acc m (nmin (am_acc m) x).

  (** acceleration.rs:63-72 *)
  Definition am_min_reach_time (m : accel) (vel dist max_vel : num) : num :=
    let discr := n2 * am_max m * dist + powi2 vel in
    if discr <? powi2 max_vel then (nsqrt discr - vel) / am_max m
    else
      let t := (max_vel - vel) / am_max m in
      let d := nhalf * (vel + max_vel) * t in
      t + (dist - d) / max_vel.

  (** The functions below give the value [x] of the [acc.set(min(acc, x))] the Rust method
      performs; [None] if it leaves the cell alone. *)

  (** acceleration.rs:78-83 *)
  Definition x_current_speed_limit (m : accel) (vel speed_limit : num) : num :=
    let speed_limit := am_adj m * speed_limit in
    am_max m * (n1 - powi4 (vel / speed_limit)).

  (** acceleration.rs:91-103 *)
  Definition x_speed_limit (m : accel) (vel speed_limit distance : num) : option num :=
    if distance <=? n0 then Some (x_current_speed_limit m vel speed_limit)
    else
      let speed_limit := am_adj m * speed_limit in
      let comf_acc := - am_comf m in
      let this_acc := (powi2 speed_limit - powi2 vel) / (n2 * distance) in
      if this_acc <=? comf_acc then Some (nmax (n2 * comf_acc) this_acc) else None.

  (** acceleration.rs:134-147 *)
  Definition idm (m : accel) (net_dist my_vel their_vel : num) : num :=
    if net_dist <=? MIN_GAP then nofZ (-10) * am_max m
    else
      let appr := my_vel - their_vel in
      let factor := n1 / (n2 * nsqrt (am_max m * am_comf m)) in
      let ss := MIN_GAP + (my_vel * am_headway m) + (my_vel * appr * factor) in
      let term := ss / net_dist in
      am_max m * (n1 - term * term).

  (** acceleration.rs:110-113 *)
  Definition x_stop_at_line (m : accel) (net_dist my_vel : num) : num := idm m net_dist my_vel n0.

  (** acceleration.rs:121-124 *)
  Definition x_follow_vehicle (m : accel) (net_dist my_vel their_vel : num) : num :=
    idm m net_dist my_vel their_vel.

  (** acceleration.rs:127-131 *)
  Definition am_stopping_distance (m : accel) (my_vel : num) : num :=
    let min_dist := lit 5 2 in
    let t := my_vel / am_comf m in
    nhalf * my_vel * t + min_dist.

  (** dynamics.rs:4-10 *)
  Definition calc_direction (pos dir new_pos : pt) (radius : num) : pt :=
    let b := vsub pos (vscale radius dir) in
    let v := vsub pos b in
    let h := (magnitude2 v - powi2 radius) / (n2 * (radius + dot v dir)) in
    let bp := vadd b (vscale h dir) in
    normalize (vsub new_pos bp).
End Accel.
