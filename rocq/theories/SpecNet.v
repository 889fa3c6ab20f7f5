(** * The road network a user builds *)
From Coq Require Import List Bool.
From Verif Require Import Arith Base SlotMap Util Geom Light Accel Net Path Vehicle LinkOps Sim SpecSim.
Import ListNotations.

Section SpecNet.
  Context {A : Arith}.
  (** The links to which the calls connect [k], and those they connect to [k], in order. *)
  Definition connected_to (ops : list op) (k : key) : list key :=
    flat_map (fun o => match o with OAddConnection a b => if key_eqb a k then [b] else [] | _ => [] end) ops.
  Definition connected_from (ops : list op) (k : key) : list key :=
    flat_map (fun o => match o with OAddConnection a b => if key_eqb b k then [a] else [] | _ => [] end) ops.
  (** Same curve, same speed limit. *)
  Definition same_road (l l' : link) : Prop := lk_curve l' = lk_curve l /\ lk_limit l' = lk_limit l /\ lk_cost l' = lk_cost l.
End SpecNet.
