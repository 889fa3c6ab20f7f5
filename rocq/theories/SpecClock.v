(** * What C94 speaks of *)
From Coq Require Import List.
From Verif Require Import Arith Base Light Net Vehicle Sim.
Import ListNotations.

(** How long the steps among some calls last, in order. *)
Definition durations {A : Arith} (ops : list op) : list num := flat_map (fun o => match o with OStep dt => [dt] | _ => [] end) ops.
