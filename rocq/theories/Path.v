(** * src/vehicle/pathfinding.rs and the search functions of the crate [pathfinding] it uses *)
From Coq Require Import List Arith ZArith NArith Bool.
From Verif Require Import Arith Base SlotMap Util Geom Light Net.
Import ListNotations.

(** ** pathfinding::directed::dijkstra (crate pathfinding 3.0, not part of /repo)

    The crate keeps a binary heap of (cost, node) entries and a table of the best known
    (parent, cost) of each node; it pops a cheapest entry, stops if it is a goal, ignores it if
    a cheaper way is known, and otherwise relaxes the outgoing edges.  Which of several
    cheapest entries a heap pops is left to an arbitrary function [pick] of the step number.
    [usize] overflow of a cost is a panic. *)

(** Best known parent (none for the start) and cost of each discovered node. *)
Definition dtable := list (key * (option key * Z)).

Fixpoint dt_get (t : dtable) (k : key) : option (option key * Z) :=
  match t with
  | [] => None
  | (k', v) :: t => if key_eqb k' k then Some v else dt_get t k
  end.
Fixpoint dt_set (t : dtable) (k : key) (v : option key * Z) : dtable :=
  match t with
  | [] => [(k, v)]
  | (k', v') :: t => if key_eqb k' k then (k, v) :: t else (k', v') :: dt_set t k v
  end.

(** The smallest cost in the heap. *)
Fixpoint heap_min (h : list (Z * key)) : option Z :=
  match h with
  | [] => None
  | (c, _) :: h => match heap_min h with
                   | None => Some c
                   | Some c' => Some (Z.min c c')
                   end
  end.

(** Removes a cheapest entry: the one at index [pick] if that is a cheapest one, otherwise the
    first cheapest one. *)
Definition heap_pop (pick : nat) (h : list (Z * key)) : option ((Z * key) * list (Z * key)) :=
  match heap_min h with
  | None => None
  | Some m =>
      let is_min i := match nth_error h i with Some (c, _) => Z.eqb c m | None => false end in
      let i := if is_min pick then pick
               else match position (fun e => Z.eqb (fst e) m) h with Some i => i | None => O end in
      match nth_error h i with
      | Some e => Some (e, remove_at i h)
      | None => None
      end
  end.

(** Relaxes the edges out of [node], reached at [cost]. *)
Fixpoint dij_relax (node : key) (cost : Z) (succ : list (key * Z)) (t : dtable) (h : list (Z * key))
    : res (dtable * list (Z * key)) :=
  match succ with
  | [] => Ok (t, h)
  | (s, w) :: succ =>
      let c := (cost + w)%Z in
      if Z.ltb usize_max c then Panic POverflow else
      let better := match dt_get t s with None => true | Some (_, c') => Z.ltb c c' end in
      if better then dij_relax node cost succ (dt_set t s (Some node, c)) (h ++ [(c, s)])
      else dij_relax node cost succ t h
  end.

(** The main loop; [pick i] is the tie-breaking choice of the [i]-th pop from here on. *)
Fixpoint dij_run (fuel : nat) (pick : nat -> nat) (succ : key -> res (list (key * Z)))
    (goal : key -> bool) (t : dtable) (h : list (Z * key)) : res (option (key * dtable)) :=
  match fuel with
  | O => OutOfFuel
  | S fuel =>
      match heap_pop (pick O) h with
      | None => Ok None
      | Some ((cost, node), h) =>
          if goal node then Ok (Some (node, t))
          else
            let stale := match dt_get t node with Some (_, c) => Z.ltb c cost | None => false end in
            if stale then dij_run fuel (fun i => pick (S i)) succ goal t h
            else bind (succ node) (fun es =>
                 bind (dij_relax node cost es t h) (fun th =>
                 dij_run fuel (fun i => pick (S i)) succ goal (fst th) (snd th)))
      end
  end.

(** [reverse_path]: follow the parents back to the start. *)
Fixpoint dij_path (fuel : nat) (t : dtable) (node : key) (acc : list key) : res (list key) :=
  match fuel with
  | O => OutOfFuel
  | S fuel =>
      match dt_get t node with
      | Some (Some p, _) => dij_path fuel t p (node :: acc)
      | _ => Ok (node :: acc)
      end
  end.

Definition dijkstra (fuel : nat) (pick : nat -> nat) (start : key)
    (succ : key -> res (list (key * Z))) (goal : key -> bool) : res (option (list key * Z)) :=
  bind (dij_run fuel pick succ goal [(start, (None, 0%Z))] [(0%Z, start)]) (fun r =>
    match r with
    | None => Ok None
    | Some (node, t) =>
        bind (dij_path fuel t node []) (fun p =>
          Ok (Some (p, match dt_get t node with Some (_, c) => c | None => 0%Z end)))
    end).

(** ** pathfinding::directed::dfs::dfs_reach: depth-first enumeration; the stack has its top first *)
Definition key_mem (k : key) (l : list key) : bool := existsb (key_eqb k) l.

Fixpoint dfs_reach (fuel : nat) (succ : key -> res (list key)) (stack seen : list key) : res (list key) :=
  match fuel with
  | O => OutOfFuel
  | S fuel =>
      match stack with
      | [] => Ok []
      | n :: stack =>
          if key_mem n seen then dfs_reach fuel succ stack seen
          else bind (succ n) (fun es =>
               bind (dfs_reach fuel succ (filter (fun s => negb (key_mem s (n :: seen))) es ++ stack) (n :: seen))
                    (fun l => Ok (n :: l)))
      end
  end.

Section Path.
  Context {A : Arith}.
  Local Open Scope num_scope.

  (** The parts of a run that the model leaves open: a bound on the number of loop rounds and
      recursive calls (theorems quantify over it), and how ties are broken by the heap of a
      shortest-path search, as an arbitrary function of the network, the two ends and the step. *)
  Record env := Env {
    e_fuel : nat;
    e_pick : linkset -> key -> key -> nat -> nat
  }.

  (** ** LaneDists, pathfinding.rs:181-222; entries are u32 *)
  Record dists := Dists { d0 : Z; d1 : Z; d2 : Z; d3 : Z }.

  (** pathfinding.rs:219-221 *)
  Definition make_dist (d : num) : Z := ncast u32_max (nofZ 10 * d).
  (** pathfinding.rs:185-187 *)
  Definition dists_dead (d : num) : dists :=
    let x := make_dist d in Dists x x x x.
  (** pathfinding.rs:189-191 *)
  Definition dists_exit : dists := Dists u32_max u32_max u32_max u32_max.
  (** pathfinding.rs:194-196 *)
  Definition sat_add (x y : Z) : Z := Z.min (x + y) u32_max.
  Definition dists_offset (d : dists) (distance : num) : dists :=
    let y := make_dist distance in
    Dists (sat_add (d0 d) y) (sat_add (d1 d) y) (sat_add (d2 d) y) (sat_add (d3 d) y).
  (** pathfinding.rs:199-201 *)
  Definition dists_shift (d : dists) : dists := Dists 0 (d0 d) (d1 d) (d2 d).
  (** pathfinding.rs:204-206 *)
  Definition dists_combine (a b : dists) : dists :=
    Dists (Z.max (d0 a) (d0 b)) (Z.max (d1 a) (d1 b)) (Z.max (d2 a) (d2 b)) (Z.max (d3 a) (d3 b)).
  (** pathfinding.rs:209-217 *)
  Definition dists_cost (d : dists) (pos : num) : num :=
    let f k x := nofZ k / (lit 1 10 * nofZ x - pos) in
    nmax (nmax (nmax (f 1%Z (d0 d)) (f 2%Z (d1 d))) (f 3%Z (d2 d))) (f 4%Z (d3 d)).

  (** ** SparseSecondaryMap<LinkId, LaneDists>.  Link keys are never removed, so a key is just
      looked up by equality.  Inserting the null key has no effect. *)
  Definition matrix := list (key * dists).
  Fixpoint mx_get (m : matrix) (k : key) : option dists :=
    match m with
    | [] => None
    | (k', d) :: m => if key_eqb k' k then Some d else mx_get m k
    end.
  Definition mx_insert (m : matrix) (k : key) (d : dists) : matrix :=
    if key_eqb k null_key then m else (k, d) :: m.

  (** pathfinding.rs:22-27 *)
  Record path := Path { pt_links : list key; pt_dists : dists; pt_exit : bool }.

  (** pathfinding.rs:9-19 *)
  Record pathfind := PF { pf_src : key; pf_dst : key; pf_matrix : matrix; pf_paths : list path }.

  (** [Default] *)
  Definition pf_default : pathfind := PF null_key null_key [] [].

  (** pathfinding.rs:173-179 *)
  Definition successors (links : linkset) (id : key) : res (list (key * Z)) :=
    bind (get_link links id) (fun l =>
    bind (reachable_lanes l) (fun lanes =>
    bind (mapM (fun k => bind (get_link links k) (fun l =>
                         Ok (map (fun o => (o, lk_cost l)) (lk_out l)))) lanes) (fun ess =>
      Ok (concat ess)))).

  (** pathfinding.rs:80-84 *)
  Definition group_links (l : link) (id : key) : list key :=
    match lk_group l with Some g => g_links g | None => [id] end.

  (** [iter.reduce(..)] *)
  Definition reduce {X} (f : X -> X -> X) (l : list X) : option X :=
    match l with [] => None | x :: l => Some (fold_left f l x) end.

  (** pathfinding.rs:87-99: propagate backwards to one link *)
  Definition propagate_back (links : linkset) (m : matrix) (id : key) : res matrix :=
    bind (get_link links id) (fun l =>
      let ds := flat_map (fun o => match mx_get m o with Some d => [d] | None => [] end) (lk_out l) in
      match reduce dists_combine ds with
      | Some d => Ok (mx_insert m id (dists_offset d (lk_length l)))
      | None => Ok m
      end).

  (** pathfinding.rs:103-112: propagate across one lane change *)
  Definition propagate_across (links : linkset) (m : matrix) (ft : key * key) : res matrix :=
    match mx_get m (snd ft) with
    | None => Ok m
    | Some td =>
        bind (get_link links (fst ft)) (fun l =>
          let fd := match mx_get m (fst ft) with Some d => d | None => dists_dead (lk_length l) end in
          Ok (mx_insert m (fst ft) (dists_combine fd (dists_shift td))))
    end.

  (** pathfinding.rs:80-114: one link of the route *)
  Definition matrix_step (links : linkset) (m : matrix) (id : key) : res matrix :=
    bind (get_link links id) (fun l =>
    bind (foldM (propagate_back links) (group_links l id) m) (fun m =>
      match lk_group l with
      | None => Ok m
      | Some g => bind (g_lane_changes g) (fun lcs => foldM (propagate_across links) lcs m)
      end)).

  (** pathfinding.rs:76-117 *)
  Definition calc_lane_matrix (links : linkset) (dst : key) (route : list key) : res matrix :=
    foldM (matrix_step links) (rev route) (mx_insert [] dst dists_exit).

  (** pathfinding.rs:58-73 *)
  Definition reroute (e : env) (links : linkset) (pf : pathfind) : res pathfind :=
    if key_eqb (pf_src pf) null_key || key_eqb (pf_dst pf) null_key
    then Ok (PF (pf_src pf) (pf_dst pf) [] (pf_paths pf))
    else
      bind (get_link links (pf_dst pf)) (fun dl =>
      bind (reachable_from_lanes dl) (fun dsts =>
      bind (dijkstra (e_fuel e) (e_pick e links (pf_src pf) (pf_dst pf)) (pf_src pf)
              (successors links) (fun k => key_mem k dsts)) (fun r =>
        match r with
        | Some (route, _) =>
            bind (calc_lane_matrix links (pf_dst pf) route) (fun m =>
              Ok (PF (pf_src pf) (pf_dst pf) m (pf_paths pf)))
        | None => Ok pf
        end))).

  (** pathfinding.rs:5 *)
  Definition PLAN_DIST : num := nofZ 200.

  (** pathfinding.rs:132-170.  [room] is the free capacity of the [ArrayVec<_, 8>]; the result
      is the returned flag and the paths pushed. *)
  Fixpoint make_paths_inner (room : nat) (links : linkset) (mx : matrix) (dst : key)
      (pre : list key) (id : key) (dist : num) : res (bool * list path) :=
    match mx_get mx id with
    | None => Ok (false, [])
    | Some d0 =>
        let d := dists_offset d0 dist in
        let here := pre ++ [id] in
        let leaf := Path here d (key_eqb id dst) in
        match room with
        | O => Ok (true, [leaf])
        | S room =>
            if dist <? PLAN_DIST then
              bind (get_link links id) (fun l =>
              bind (mapM (fun s => make_paths_inner room links mx dst here s (dist + lk_length l)) (lk_out l))
                (fun rs =>
                   let sub := concat (map snd rs) in
                   if existsb fst rs then Ok (true, sub) else Ok (true, sub ++ [leaf])))
            else Ok (true, [leaf])
        end
    end.

  (** pathfinding.rs:119-130 *)
  Definition make_paths (links : linkset) (pf : pathfind) : res pathfind :=
    bind (make_paths_inner 7 links (pf_matrix pf) (pf_dst pf) [] (pf_src pf) n0) (fun r0 =>
    bind (get_link links (pf_src pf)) (fun l =>
    bind (mapM (fun s => make_paths_inner 7 links (pf_matrix pf) (pf_dst pf) [] s n0) (lk_changes l)) (fun rs =>
      Ok (PF (pf_src pf) (pf_dst pf) (pf_matrix pf) (snd r0 ++ concat (map snd rs)))))).

  (** pathfinding.rs:31-37 *)
  Definition set_origin (e : env) (links : linkset) (pf : pathfind) (id : key) : res pathfind :=
    let pf := PF id (pf_dst pf) (pf_matrix pf) (pf_paths pf) in
    bind (match mx_get (pf_matrix pf) id with
          | Some _ => Ok pf
          | None => reroute e links pf
          end) (make_paths links).

  (** pathfinding.rs:40-44 *)
  Definition pf_set_destination (e : env) (links : linkset) (pf : pathfind) (id : key) : res pathfind :=
    let pf := PF (pf_src pf) id (pf_matrix pf) (pf_paths pf) in
    bind (reroute e links pf) (make_paths links).
End Path.
