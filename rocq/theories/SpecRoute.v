(** * Lanes, routes and plans: what the routing properties talk about *)
From Coq Require Import List Bool ZArith NArith Arith Relation_Operators.
From Verif Require Import Arith Base SlotMap Util Geom Light Accel Net Path Vehicle LinkOps Sim SpecSim.
Import ListNotations.

(** In a group of lanes numbered from the left, bit [2 i] of the mask permits changing from lane
    [i] to the lane on its left and bit [2 i + 1] to the lane on its right. *)
Definition may_change (mask : N) (i j : nat) : Prop :=
  (i = S j /\ N.testbit mask (N.of_nat (2 * i)) = true) \/
  (j = S i /\ N.testbit mask (N.of_nat (2 * i + 1)) = true).

(** One permitted lane change between links of a group. *)
Definition lane_step (lanes : list key) (mask : N) (a b : key) : Prop :=
  exists i j, nth_error lanes i = Some a /\ nth_error lanes j = Some b /\ may_change mask i j.

(** A sequence of permitted lane changes, perhaps none. *)
Definition lane_reach (lanes : list key) (mask : N) : key -> key -> Prop :=
  clos_refl_trans key (lane_step lanes mask).

(** A route through a weighted graph, given by the edges out of each node: its nodes and its cost. *)
Inductive route (succ : key -> res (list (key * Z))) : key -> list key -> key -> Z -> Prop :=
| route_end a : route succ a [a] a 0
| route_step a es b w p c z : succ a = Ok es -> In (b, w) es -> route succ b p c z -> route succ a (a :: p) c (w + z).

Section SpecRoute.
  Context {A : Arith}.
  (** The lanes and the mask of the latest call of [add_link_group] that names link [k]. *)
  Fixpoint group_of (ops : list op) (k : key) : option (list key * N) :=
    match ops with
    | [] => None
    | o :: ops =>
        match group_of ops k with
        | Some g => Some g
        | None => match o with
                  | OAddGroup ids mask => if existsb (key_eqb k) ids then Some (ids, mask) else None
                  | _ => None
                  end
        end
    end.
End SpecRoute.

Section SpecDrive.
  Context {A : Arith}.
  (** From [a] to [b] by following [links_out()] or a permitted lane change ([lane_changes()]) once;
      by any number of permitted lane changes; by any number of both. *)
  Definition next_of (links : linkset) (a b : key) : Prop := succ_of links a b \/ chg_of links a b.
  Definition changes (links : linkset) : key -> key -> Prop := clos_refl_trans key (chg_of links).
  Definition leads (links : linkset) : key -> key -> Prop := clos_refl_trans key (next_of links).

  (** A drive from road to road: change lanes as permitted, then go on to a following link, at the
      cost of the link that is left; its links are those reached by going on. *)
  Inductive drive (links : linkset) : key -> list key -> key -> Z -> Prop :=
  | drive_end a : drive links a [a] a 0
  | drive_on a x l b p c z : changes links a x -> sm_get links x = Some l -> In b (lk_out l) -> drive links b p c z ->
      drive links a (a :: p) c (lk_cost l + z).

  (** No link is named twice in the calls of [add_link_group] of a history. *)
  Definition groups_apart (ops : list op) : Prop :=
    NoDup (flat_map (fun o => match o with OAddGroup ids _ => ids | _ => [] end) ops).

  (** The calls that change the roads, and the call that sends vehicle [k] elsewhere. *)
  Definition builds (o : op) : bool :=
    match o with OAddLink _ _ | OAddGroup _ _ | OAddConnection _ _ | OAddConvergence _ _ => true | _ => false end.
  Definition redirects (k : key) (o : op) : bool := match o with OSetDestination k' _ => key_eqb k' k | _ => false end.
  Definition moves (k : key) (o : op) : bool := match o with OLaneChange k' _ _ => key_eqb k' k | _ => false end.

  (** The vehicle's routing table has an entry for the link. *)
  Definition routed (v : vehicle) (k : key) : Prop := mx_get (pf_matrix (v_pathfind v)) k <> None.
  (** The links of the vehicle's candidate paths. *)
  Definition candidates (v : vehicle) : list (list key) := map pt_links (pf_paths (v_pathfind v)).

  (** A planned path from link [a], which starts [dist] metres ahead, with room for [room] links
      after it.  It stays on links of the table.  It goes on to a following link as long as there
      is room, the link starts less than 200 m ahead and some following link is in the table. *)
  Inductive plan (links : linkset) (table : key -> Prop) : nat -> num -> key -> list key -> Prop :=
  | plan_stop room dist a : table a ->
      room = 0 \/ nltb dist (nofZ 200) = false \/ (forall b, succ_of links a b -> ~ table b) ->
      plan links table room dist a [a]
  | plan_on room dist a l b p : table a -> nltb dist (nofZ 200) = true ->
      sm_get links a = Some l -> In b (lk_out l) -> plan links table room (nadd dist (lk_length l)) b p ->
      plan links table (S room) dist a (a :: p).
  (** The candidate paths of a vehicle on [src]: they start there or on a lane it may change to, and have at most 8 links. *)
  Definition planned (links : linkset) (table : key -> Prop) (src : key) (p : list key) : Prop :=
    exists a, (a = src \/ chg_of links src a) /\ plan links table 7 n0 a p.
End SpecDrive.
