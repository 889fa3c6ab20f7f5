(** * Textbook kinematics, independent of the model *)
From Coq Require Import Reals Lra.
Local Open Scope R_scope.

(** What a body covers in time [t] that starts at speed [v], accelerates at [a] until its speed is
    [vmax] and keeps that speed. *)
Definition covered (a v vmax t : R) : R :=
  let ta := (vmax - v) / a in
  if Rle_dec t ta then v * t + a * (t * t) / 2
  else v * ta + a * (ta * ta) / 2 + vmax * (t - ta).

(** What a body covers in time [t] that starts at speed [v], brakes at [b] and then stands. *)
Definition covered_braking (b v t : R) : R :=
  let ts := v / b in
  if Rle_dec t ts then v * t - b * (t * t) / 2 else v * ts - b * (ts * ts) / 2.
