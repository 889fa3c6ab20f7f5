(** * Lane distances and the choice of a path: what the properties C33 and C58 talk about *)
From Coq Require Import List Bool ZArith NArith Arith.
From Verif Require Import Arith Base SlotMap Util Geom Light Accel Net Path Vehicle LinkOps Sim SpecSim.
Import ListNotations.

Section SpecChoice.
  Context {A : Arith}.

  (** Entry [i] of lane distances: how far, in tenths of a metre, one can go on with at most [i] lane changes. *)
  Definition entry (d : dists) (i : nat) : Z := match i with 0 => d0 d | 1 => d1 d | 2 => d2 d | 3 => d3 d | _ => 0%Z end.
  (** A lane distance as stored in 32 bits. *)
  Definition u32s (d : dists) : Prop := forall i, i < 4 -> (0 <= entry d i <= u32_max)%Z.
  Definition no_further (a b : dists) : Prop := forall i, i < 4 -> (entry a i <= entry b i)%Z.
  (** What is left of entry [i] for a vehicle at [pos]. *)
  Definition remaining (d : dists) (pos : num) (i : nat) : num := nsub (nmul (lit 1 10) (nofZ (entry d i))) pos.

  (** The cost of candidate path [p] for a vehicle [v]: a thousand times the cost of its lane distances where the vehicle is, or would be
      after a change to the lane on which the path starts; then five are added. *)
  Inductive costs (links : linkset) (v : vehicle) (p : path) : Z -> Prop :=
  | costs_own a : v_link v = Some a -> hd_error (pt_links p) = Some a ->
      costs links v p (ncast usize_max (nmul (nofZ 1000) (dists_cost (pt_dists p) (v_pos v))))
  | costs_change a b l pos : v_link v = Some a -> hd_error (pt_links p) = Some b -> a <> b -> sm_get links a = Some l ->
      link_project_approx l b (v_pos v) = Ok pos ->
      costs links v p (ncast usize_max (nadd (nmul (nofZ 1000) (dists_cost (pt_dists p) pos)) (nofZ 5))).
  (** [p] is the cheapest candidate of [v]; among several the first. *)
  Definition cheapest (links : linkset) (v : vehicle) (p : path) : Prop :=
    exists before after c, pf_paths (v_pathfind v) = before ++ p :: after /\ costs links v p c /\
      (forall q, In q before -> exists c', costs links v q c' /\ (c < c')%Z) /\
      (forall q, In q after -> exists c', costs links v q c' /\ (c <= c')%Z).
End SpecChoice.
