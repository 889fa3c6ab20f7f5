(** * The road network: src/group.rs and the [Link] type of src/link.rs *)
From Coq Require Import List Arith ZArith NArith Bool.
From Verif Require Import Arith Base SlotMap Util Geom Light.
Import ListNotations.

(** [iter.filter(..)] whose predicate may panic. *)
Fixpoint filterM {X} (f : X -> res bool) (l : list X) : res (list X) :=
  match l with
  | [] => Ok []
  | x :: l => bind (f x) (fun b => bind (filterM f l) (fun l' => Ok (if b then x :: l' else l')))
  end.

(** util.rs:9-13 *)
Inductive direction := DLeft | DRight.

Section Net.
  Context {A : Arith}.
  Local Open Scope num_scope.

  (** group.rs:38-42 *)
  Record psample := PSample { ps_pos : num; ps_lat : num }.

  (** group.rs:18-23.  [pj_src] is a ghost field (not in the code): the link the projection was
      computed from; no modelled function reads it. *)
  Record projection := Proj {
    pj_src : key; pj_dst : key; pj_inv : num; pj_samples : list psample }.

  (** group.rs:11-16 *)
  Record group := Group { g_links : list key; g_projs : list projection; g_mask : N }.

  (** conflict.rs:25-35 *)
  Record link_conflict := LConf {
    cf_link : key; cf_own_max : num; cf_min : num; cf_max : num }.

  (** link.rs:24-52 *)
  Record link := Link {
    lk_id : key;
    lk_group : option group;
    lk_curve : link_curve;
    lk_in : list key;
    lk_out : list key;
    lk_changes : list key;
    lk_conflicts : list link_conflict;
    lk_last : nat;
    lk_limit : num;
    lk_cost : Z;
    lk_vehicles : list key;
    lk_control : control;
    lk_active : bool
  }.

  Definition linkset := slotmap link.

  (** link.rs:108-110 *)
  Definition lk_length (l : link) : num := lc_length (lk_curve l).

  (** [links[id]] *)
  Definition get_link (links : linkset) (id : key) : res link := of_option PBadLink (sm_get links id).

  (** link.rs:84: [(10.0 * length / speed_limit) as usize] *)
  Definition link_cost (len limit : num) : Z := ncast usize_max (nofZ 10 * len / limit).

  (** link.rs:82-100 *)
  Definition link_new (fuel : nat) (id : key) (c : curve) (speed_limit : num) : res link :=
    bind (lc_new fuel c) (fun curve =>
      Ok (Link id None curve [] [] [] [] 0 speed_limit
               (link_cost (lc_length curve) speed_limit) [] COpen false)).

  (** Field updates (link.rs:165-192, 231-233, 477-484 and direct assignments). *)
  Definition add_link_out (l : link) (k : key) : link :=
    Link (lk_id l) (lk_group l) (lk_curve l) (lk_in l) (lk_out l ++ [k]) (lk_changes l)
         (lk_conflicts l) (lk_last l) (lk_limit l) (lk_cost l) (lk_vehicles l) (lk_control l) (lk_active l).
  Definition add_link_in (l : link) (k : key) : link :=
    Link (lk_id l) (lk_group l) (lk_curve l) (lk_in l ++ [k]) (lk_out l) (lk_changes l)
         (lk_conflicts l) (lk_last l) (lk_limit l) (lk_cost l) (lk_vehicles l) (lk_control l) (lk_active l).
  Definition set_group (l : link) (g : group) : link :=
    Link (lk_id l) (Some g) (lk_curve l) (lk_in l) (lk_out l) (lk_changes l)
         (lk_conflicts l) (lk_last l) (lk_limit l) (lk_cost l) (lk_vehicles l) (lk_control l) (lk_active l).
  (** link.rs:180-182: [ArrayVec<_, 2>::push] panics when full *)
  Definition add_lane_change (l : link) (k : key) : res link :=
    if Nat.ltb (length (lk_changes l)) 2 then
      Ok (Link (lk_id l) (lk_group l) (lk_curve l) (lk_in l) (lk_out l) (lk_changes l ++ [k])
               (lk_conflicts l) (lk_last l) (lk_limit l) (lk_cost l) (lk_vehicles l) (lk_control l) (lk_active l))
    else Panic PLaneChangesFull.
  Definition add_conflict (l : link) (c : link_conflict) : link :=
    Link (lk_id l) (lk_group l) (lk_curve l) (lk_in l) (lk_out l) (lk_changes l)
         (lk_conflicts l ++ [c]) (lk_last l) (lk_limit l) (lk_cost l) (lk_vehicles l) (lk_control l) (lk_active l).
  Definition set_last (l : link) (i : nat) : link :=
    Link (lk_id l) (lk_group l) (lk_curve l) (lk_in l) (lk_out l) (lk_changes l)
         (lk_conflicts l) i (lk_limit l) (lk_cost l) (lk_vehicles l) (lk_control l) (lk_active l).
  Definition set_vehicles (l : link) (vs : list key) : link :=
    Link (lk_id l) (lk_group l) (lk_curve l) (lk_in l) (lk_out l) (lk_changes l)
         (lk_conflicts l) (lk_last l) (lk_limit l) (lk_cost l) vs (lk_control l) (lk_active l).
  Definition set_control (l : link) (c : control) : link :=
    Link (lk_id l) (lk_group l) (lk_curve l) (lk_in l) (lk_out l) (lk_changes l)
         (lk_conflicts l) (lk_last l) (lk_limit l) (lk_cost l) (lk_vehicles l) c (lk_active l).
  Definition set_lk_active (l : link) (b : bool) : link :=
    Link (lk_id l) (lk_group l) (lk_curve l) (lk_in l) (lk_out l) (lk_changes l)
         (lk_conflicts l) (lk_last l) (lk_limit l) (lk_cost l) (lk_vehicles l) (lk_control l) b.

  (** ** group.rs *)

  (** group.rs:50 *)
  Definition segment_len : num := n2.

  (** group.rs:57-70: the lazily produced samples; ends when the position reaches the length of
      the source link or when a projection fails. *)
  Fixpoint proj_samples (fuel : nat) (src dst : link_curve) (i : nat) (last : num) : res (list psample) :=
    match fuel with
    | O => OutOfFuel
    | S fuel =>
        let pos := segment_len * nofZ (Z.of_nat i) in
        if pos <? lc_length src then
          let point := sm_pos (sample_centre src pos) in
          bind (project_point_onto_curve (lc_curve dst) point (lit 1 10) (Some last)) (fun o =>
            match o with
            | None => Ok []
            | Some p =>
                let s := sample_centre dst p in
                let lat := dot (vsub point (sm_pos s)) (rot90 (sm_tan s)) in
                bind (proj_samples fuel src dst (S i) p) (fun l => Ok (PSample p lat :: l))
            end)
        else Ok []
    end.

  (** group.rs:54-71 *)
  Definition mk_projection (fuel : nat) (src dst : link) : res projection :=
    bind (proj_samples fuel (lk_curve src) (lk_curve dst) 0 n0) (fun s =>
      Ok (Proj (lk_id src) (lk_id dst) (n1 / segment_len) s)).

  (** group.rs:52-53: all ordered pairs with different ids, row by row *)
  Definition proj_pairs (links : list link) : list (link * link) :=
    filter (fun sd => negb (key_eqb (lk_id (fst sd)) (lk_id (snd sd))))
           (list_prod links links).

  (** group.rs:45-79 *)
  Definition group_new (fuel : nat) (links : list link) (lc_mask : N) : res group :=
    if Nat.ltb (length links) 2 then Panic PGroupSmall else
    bind (mapM (fun sd => mk_projection fuel (fst sd) (snd sd)) (proj_pairs links)) (fun ps =>
      Ok (Group (map lk_id links) ps lc_mask)).

  (** group.rs:99-101 *)
  Definition find_link (g : group) (id : key) : option nat := position (fun k => key_eqb k id) (g_links g).

  (** group.rs:145-152: [lc_mask] is a u32 *)
  Definition lc_bit (g : group) (idx : nat) (dir : direction) : res bool :=
    let bit := (2 * idx + match dir with DLeft => 0 | DRight => 1 end)%nat in
    if Nat.ltb bit 32 then Ok (N.testbit (g_mask g) (N.of_nat bit)) else Panic PShift.

  (** group.rs:85-89 *)
  Definition projections_from_link (g : group) (src : key) : res (list projection) :=
    bind (of_option PNotInGroup (find_link g src)) (fun idx =>
      let n := (length (g_links g) - 1)%nat in
      if Nat.leb (n * (idx + 1)) (length (g_projs g))
      then Ok (firstn n (skipn (n * idx) (g_projs g)))
      else Panic PIndex).

  (** group.rs:91-96 *)
  Definition g_projection (g : group) (src dst : key) : res projection :=
    bind (of_option PNotInGroup (find_link g src)) (fun src_idx =>
    bind (of_option PNotInGroup (find_link g dst)) (fun dst_idx =>
      let n := (length (g_links g) - 1)%nat in
      of_option PIndex (nth_error (g_projs g) (n * src_idx + dst_idx)))).

  (** group.rs:106-109 and 120-123: moving left while the bit is set.  [off] is 0 for
      [lc_bit(left, Left)] and selects the bit tested. *)
  Fixpoint walk_left (test : nat -> res bool) (left : nat) : res nat :=
    match left with
    | O => Ok O
    | S left' => bind (test left) (fun b => if b then walk_left test left' else Ok left)
    end.
  (** group.rs:110-113 and 124-127: moving right, [todo] = number of lanes to the right *)
  Fixpoint walk_right (test : nat -> res bool) (todo right : nat) : res nat :=
    match todo with
    | O => Ok right
    | S todo => bind (test right) (fun b => if b then walk_right test todo (S right) else Ok right)
    end.

  (** [&links[left..=right]] *)
  Definition slice {X} (left right : nat) (l : list X) : list X :=
    firstn (right + 1 - left) (skipn left l).

  (** group.rs:105-115 *)
  Definition g_reachable_lanes (g : group) (src : nat) : res (list key) :=
    bind (walk_left (fun i => lc_bit g i DLeft) src) (fun left =>
    bind (walk_right (fun i => lc_bit g i DRight) (length (g_links g) - 1 - src) src) (fun right =>
      Ok (slice left right (g_links g)))).

  (** group.rs:119-129 *)
  Definition g_reachable_from_lanes (g : group) (dst : nat) : res (list key) :=
    bind (walk_left (fun i => lc_bit g (i - 1) DRight) dst) (fun left =>
    bind (walk_right (fun i => lc_bit g (i + 1) DLeft) (length (g_links g) - 1 - dst) dst) (fun right =>
      Ok (slice left right (g_links g)))).

  (** group.rs:132-141 *)
  Definition g_lane_changes (g : group) : res (list (key * key)) :=
    let n := length (g_links g) in
    let at_ i := nth i (g_links g) null_key in
    bind (filterM (fun i => lc_bit g i DRight) (rev (seq 0 (n - 1)))) (fun r =>
    bind (filterM (fun i => lc_bit g i DLeft) (seq 1 (n - 1))) (fun l =>
      Ok (map (fun i => (at_ i, at_ (i + 1)%nat)) r ++ map (fun i => (at_ i, at_ (i - 1)%nat)) l))).

  (** group.rs:182-191; the unchecked access is in range when the table is not empty *)
  Definition proj_sample (p : projection) (pos : num) : res psample :=
    match length (pj_samples p) with
    | O => Panic PEmptySamples
    | S n => of_option PUnchecked
               (nth_error (pj_samples p) (Nat.min (Z.to_nat (ncast usize_max (pos * pj_inv p))) n))
    end.

  (** group.rs:27-36 *)
  Record obstacle := Obst { o_pos : num; o_lat : interval; o_rear : pt * pt; o_vel : num }.

  (** group.rs:160-176 *)
  Definition proj_project (p : projection) (rear : pt * pt) (pos : num) (lat : interval) (vel : num)
      : res obstacle :=
    bind (proj_sample p pos) (fun s =>
      let behind := nmin pos n0 in
      Ok (Obst (ps_pos s + behind) (i_add lat (ps_lat s)) rear vel)).

  (** group.rs:178-180 *)
  Definition proj_approx (p : projection) (pos : num) : res num :=
    bind (proj_sample p pos) (fun s => Ok (ps_pos s)).

  (** ** link.rs *)

  (** link.rs:143-151 *)
  Definition reachable_lanes (l : link) : res (list key) :=
    match lk_group l with
    | None => Ok [lk_id l]
    | Some g => bind (of_option PNotInGroup (find_link g (lk_id l))) (g_reachable_lanes g)
    end.

  (** link.rs:154-162 *)
  Definition reachable_from_lanes (l : link) : res (list key) :=
    match lk_group l with
    | None => Ok [lk_id l]
    | Some g => bind (of_option PNotInGroup (find_link g (lk_id l))) (g_reachable_from_lanes g)
    end.

  (** link.rs:557-563 *)
  Definition link_project_approx (l : link) (dst : key) (pos : num) : res num :=
    match lk_group l with
    | None => Panic PNotInGroup
    | Some g => bind (g_projection g (lk_id l) dst) (fun p => proj_approx p pos)
    end.
End Net.
