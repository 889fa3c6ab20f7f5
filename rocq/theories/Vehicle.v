(** * src/vehicle.rs *)
From Coq Require Import List Arith ZArith NArith Bool.
From Verif Require Import Arith Base SlotMap Util Geom Light Accel Net Path.
Import ListNotations.

Section Vehicle.
  Context {A : Arith}.
  Local Open Scope num_scope.

  (** vehicle.rs:16 *)
  Definition LATERAL_CLEARANCE : num := nhalf.

  (** vehicle.rs:82-87 *)
  Record lane_change := LaneChg { lch_end : num; lch_offset : cubic }.

  (** vehicle.rs:20-61 *)
  Record vehicle := Vehicle {
    v_id : key;
    v_half_wid : num;
    v_half_len : num;
    v_wheel_base : num;
    v_acc : accel;
    v_pathfind : pathfind;
    v_pos : num;
    v_vel : num;
    v_stop_cnt : nat;
    v_route : list key;
    v_entered : nat;
    v_queued : option nat;
    v_flag : nat;                 (* will_queue_or_enter: 0 = no change, 1 = enqueue, 2 = enter *)
    v_can_exit : bool;
    v_lane_change : option lane_change;
    v_world_pos : pt;
    v_world_dir : pt;
    v_rear_lats : interval;
    v_rear_coords : pt * pt
  }.

  Definition vehset := slotmap vehicle.

  (** [vehicles[id]] *)
  Definition get_vehicle (vs : vehset) (id : key) : res vehicle := of_option PBadVehicle (sm_get vs id).

  (** vehicle.rs:65-78 *)
  Record attrs := Attrs {
    a_width : num; a_length : num; a_wheel_base : num;
    a_headway : num; a_max_acc : num; a_comf_dec : num }.

  (** vehicle.rs:91-95 *)
  Inductive route_state := NotEntered | QueuedAt (n : nat) | Entered.

  (** vehicle.rs:104-130 *)
  Definition vehicle_new (id : key) (a : attrs) : vehicle :=
    Vehicle id (nhalf * a_width a) (nhalf * a_length a) (a_wheel_base a)
            (accel_new (a_headway a) (a_max_acc a) (a_comf_dec a))
            pf_default n0 n0 0 [] 0 None 0 true None vzero vzero (Itv n0 n0) (vzero, vzero).

  (** Field updates *)
  Definition set_acc (v : vehicle) (x : accel) : vehicle :=
    Vehicle (v_id v) (v_half_wid v) (v_half_len v) (v_wheel_base v) x (v_pathfind v) (v_pos v) (v_vel v)
      (v_stop_cnt v) (v_route v) (v_entered v) (v_queued v) (v_flag v) (v_can_exit v) (v_lane_change v)
      (v_world_pos v) (v_world_dir v) (v_rear_lats v) (v_rear_coords v).
  Definition set_pathfind (v : vehicle) (x : pathfind) : vehicle :=
    Vehicle (v_id v) (v_half_wid v) (v_half_len v) (v_wheel_base v) (v_acc v) x (v_pos v) (v_vel v)
      (v_stop_cnt v) (v_route v) (v_entered v) (v_queued v) (v_flag v) (v_can_exit v) (v_lane_change v)
      (v_world_pos v) (v_world_dir v) (v_rear_lats v) (v_rear_coords v).
  Definition set_flag (v : vehicle) (x : nat) : vehicle :=
    Vehicle (v_id v) (v_half_wid v) (v_half_len v) (v_wheel_base v) (v_acc v) (v_pathfind v) (v_pos v) (v_vel v)
      (v_stop_cnt v) (v_route v) (v_entered v) (v_queued v) x (v_can_exit v) (v_lane_change v)
      (v_world_pos v) (v_world_dir v) (v_rear_lats v) (v_rear_coords v).
  Definition set_can_exit (v : vehicle) (x : bool) : vehicle :=
    Vehicle (v_id v) (v_half_wid v) (v_half_len v) (v_wheel_base v) (v_acc v) (v_pathfind v) (v_pos v) (v_vel v)
      (v_stop_cnt v) (v_route v) (v_entered v) (v_queued v) (v_flag v) x (v_lane_change v)
      (v_world_pos v) (v_world_dir v) (v_rear_lats v) (v_rear_coords v).

  (** vehicle.rs:148-165 *)
  Definition v_link (v : vehicle) : option key := hd_error (v_route v).
  Definition pos_rear (v : vehicle) : num := v_pos v - v_half_len v.
  Definition pos_front (v : vehicle) : num := v_pos v + v_half_len v.
  (** vehicle.rs:138-145 *)
  Definition v_width (v : vehicle) : num := n2 * v_half_wid v.
  Definition v_length (v : vehicle) : num := n2 * v_half_len v.

  (** vehicle.rs:188-190 *)
  Definition has_stopped (v : vehicle) : bool := v_vel v <? lit 1 10.

  (** vehicle.rs:195-197 *)
  Definition set_velocity_adjust (v : vehicle) (f : num) : vehicle := set_acc v (am_set_adj (v_acc v) f).

  (** vehicle.rs:201-204 *)
  Definition min_reach_time (v : vehicle) (pos max_vel : num) : num :=
    am_min_reach_time (v_acc v) (v_vel v) (nmax (pos - v_pos v) n0) max_vel.

  (** vehicle.rs:207-217 *)
  Definition get_route (v : vehicle) (idx : nat) : option (key * route_state) :=
    option_map (fun k =>
      (k, if Nat.ltb idx (v_entered v) then Entered
          else if Nat.eqb (v_entered v) idx
               then match v_queued v with Some f => QueuedAt f | None => NotEntered end
               else NotEntered))
      (nth_error (v_route v) idx).

  (** vehicle.rs:231-233, 225-228 *)
  Definition stopping_distance (v : vehicle) : num := am_stopping_distance (v_acc v) (v_vel v).
  Definition can_stop (v : vehicle) (pos : num) : bool := pos - pos_front v >=? stopping_distance v.

  (** vehicle.rs:246-276: the values applied to the acceleration cell *)
  Definition vx_stop_at_line (v : vehicle) (pos : num) : num :=
    x_stop_at_line (v_acc v) (pos - pos_front v) (v_vel v).
  Definition vx_follow_vehicle (v : vehicle) (pos vel : num) : num :=
    x_follow_vehicle (v_acc v) (pos - pos_front v) (v_vel v) vel.
  Definition vx_follow_obstacle (v : vehicle) (coords : pt * pt) (vel : num) : num :=
    let mid_dist := nmin (dot (v_world_dir v) (vsub (fst coords) (v_world_pos v)))
                         (dot (v_world_dir v) (vsub (snd coords) (v_world_pos v))) in
    x_follow_vehicle (v_acc v) (mid_dist - v_half_len v) (v_vel v) vel.
  Definition vx_current_speed_limit (v : vehicle) (limit : num) : num :=
    x_current_speed_limit (v_acc v) (v_vel v) limit.
  Definition vx_speed_limit (v : vehicle) (limit pos : num) : option num :=
    x_speed_limit (v_acc v) (v_vel v) limit (pos - v_pos v).

  (** vehicle.rs:279-281, 303-305 *)
  Definition v_emergency_stop (v : vehicle) : vehicle := set_acc v (am_emergency (v_acc v)).
  Definition v_reset (v : vehicle) : vehicle := set_acc v (am_reset (v_acc v)).

  (** vehicle.rs:284-291 *)
  Definition v_project (v : vehicle) (p : projection) : res obstacle :=
    proj_project p (v_rear_coords v) (v_pos v - v_half_len v) (v_rear_lats v) (v_vel v).

  (** [Option::filter(|lc| lc.end_pos > pos)] *)
  Definition lc_filter (lc : option lane_change) (pos : num) : option lane_change :=
    match lc with Some c => if lch_end c >? pos then Some c else None | None => None end.

  (** vehicle.rs:295-300 *)
  Definition offset_at (v : vehicle) (pos : num) : num :=
    match lc_filter (v_lane_change v) pos with
    | Some lc => cubic_y (lch_offset lc) pos
    | None => n0
    end.

  (** vehicle.rs:313-325: the queue/enter part of [integrate]; the state is the sequence counter *)
  Definition integrate_queue (v : vehicle) (seq : nat) : res (nat * (nat * option nat)) :=
    match v_flag v with
    | 0 => Ok (seq, (v_entered v, v_queued v))
    | 1 => Ok (S seq, (v_entered v, match v_queued v with Some q => Some q | None => Some (S seq) end))
    | 2 => Ok (seq, (S (v_entered v), None))
    | _ => Panic PUnreachable
    end%nat.

  (** vehicle.rs:328-329 *)
  Definition new_vel (v : vehicle) (dt : num) : num := nmax (v_vel v + dt * am_get (v_acc v)) n0.
  Definition new_pos (v : vehicle) (dt : num) : num :=
    v_pos v + nhalf * (v_vel v + new_vel v dt) * dt.

  (** vehicle.rs:311-347 *)
  Definition integrate (v : vehicle) (dt : num) (seq : nat) : res (nat * vehicle) :=
    bind (integrate_queue v seq) (fun '(seq, (entered, queued)) =>
      let vel := new_vel v dt in
      let pos := new_pos v dt in
      let stop_cnt := if vel <? lit 1 10 then S (v_stop_cnt v) else O in
      Ok (seq,
          Vehicle (v_id v) (v_half_wid v) (v_half_len v) (v_wheel_base v) (v_acc v) (v_pathfind v) pos vel
            stop_cnt (v_route v) entered queued 0 (v_can_exit v) (lc_filter (v_lane_change v) pos)
            (v_world_pos v) (v_world_dir v) (v_rear_lats v) (v_rear_coords v))).

  (** vehicle.rs:366-369 *)
  Definition lc_advance (len : num) (lc : option lane_change) : option lane_change :=
    option_map (fun c => LaneChg (lch_end c - len) (cubic_translate_x (lch_offset c) len)) lc.

  (** vehicle.rs:356-374.  Returns whether the vehicle advanced. *)
  Definition advance (e : env) (links : linkset) (v : vehicle) : res (bool * vehicle) :=
    match v_route v with
    | [] => Ok (false, v)
    | id :: rest =>
        bind (get_link links id) (fun l =>
          let len := lk_length l in
          if len <? v_pos v then
            bind (match rest with
                  | [] => Ok (v_pathfind v)
                  | id' :: _ => set_origin e links (v_pathfind v) id'
                  end) (fun pf =>
            match v_entered v with
            | O => Panic PUnderflow
            | S n =>
                Ok (true,
                    Vehicle (v_id v) (v_half_wid v) (v_half_len v) (v_wheel_base v) (v_acc v) pf
                      (v_pos v - len) (v_vel v) (v_stop_cnt v) rest (Nat.max n 1) (v_queued v) (v_flag v)
                      (v_can_exit v) (lc_advance len (v_lane_change v))
                      (v_world_pos v) (v_world_dir v) (v_rear_lats v) (v_rear_coords v))
            end)
          else Ok (false, v))
    end.

  (** vehicle.rs:378-391 *)
  Definition set_location (e : env) (links : linkset) (v : vehicle) (id : key) (pos : num)
      (lc : option lane_change) : res vehicle :=
    bind (set_origin e links (v_pathfind v) id) (fun pf =>
      Ok (Vehicle (v_id v) (v_half_wid v) (v_half_len v) (v_wheel_base v) (v_acc v) pf
            pos (v_vel v) (v_stop_cnt v) [id] 1 (v_queued v) (v_flag v) false lc
            (v_world_pos v) (v_world_dir v) (v_rear_lats v) (v_rear_coords v))).

  (** vehicle.rs:394-397 *)
  Definition set_destination (e : env) (links : linkset) (v : vehicle) (id : key) : res vehicle :=
    bind (pf_set_destination e links (v_pathfind v) id) (fun pf =>
      Ok (set_can_exit (set_pathfind v pf) false)).

  (** vehicle.rs:400-402 *)
  Definition v_destination (v : vehicle) : key := pf_dst (v_pathfind v).

  (** vehicle.rs:421-433 *)
  Definition evaluate_path (links : linkset) (v : vehicle) (p : path) : res Z :=
    bind (of_option PEmptyRoute (hd_error (v_route v))) (fun curr =>
    bind (of_option PEmptyRoute (hd_error (pt_links p))) (fun new =>
      if key_eqb curr new then
        Ok (ncast usize_max (nofZ 1000 * dists_cost (pt_dists p) (v_pos v)))
      else
        bind (get_link links curr) (fun l =>
        bind (link_project_approx l new (v_pos v)) (fun pos =>
          Ok (ncast usize_max (nofZ 1000 * dists_cost (pt_dists p) pos + nofZ 5)))))).

  (** [Iterator::min_by_key]: the first of several minima *)
  Fixpoint min_by_key {X} (best : X * Z) (l : list (X * Z)) : X :=
    match l with
    | [] => fst best
    | y :: l => min_by_key (if Z.ltb (snd y) (snd best) then y else best) l
    end.

  Fixpoint keys_eqb (a b : list key) : bool :=
    match a, b with
    | [], [] => true
    | x :: a, y :: b => key_eqb x y && keys_eqb a b
    | _, _ => false
    end.

  (** vehicle.rs:406-417 *)
  Definition choose_path (links : linkset) (v : vehicle) : res (option path) :=
    match v_lane_change v with
    | Some _ => Ok None
    | None =>
        bind (mapM (fun p => bind (evaluate_path links v p) (fun c => Ok (p, c))) (pf_paths (v_pathfind v)))
          (fun l =>
             match l with
             | [] => Ok None
             | x :: l => let p := min_by_key x l in
                         Ok (if keys_eqb (pt_links p) (v_route v) then None else Some p)
             end)
    end.

  (** vehicle.rs:438-443 *)
  Fixpoint matched (a b : list key) : nat :=
    match a, b with
    | x :: a, y :: b => if key_eqb x y then S (matched a b) else O
    | _, _ => O
    end.

  (** vehicle.rs:437-449 *)
  Definition set_path (v : vehicle) (p : path) : vehicle :=
    Vehicle (v_id v) (v_half_wid v) (v_half_len v) (v_wheel_base v) (v_acc v) (v_pathfind v)
      (v_pos v) (v_vel v) (v_stop_cnt v) (pt_links p) (Nat.min (v_entered v) (matched (v_route v) (pt_links p)))
      (v_queued v) (v_flag v) (pt_exit p) (v_lane_change v)
      (v_world_pos v) (v_world_dir v) (v_rear_lats v) (v_rear_coords v).

  (** vehicle.rs:452-492 *)
  Definition update_coords (links : linkset) (v : vehicle) : res vehicle :=
    bind (of_option PEmptyRoute (hd_error (v_route v))) (fun id =>
    bind (get_link links id) (fun l =>
      let sample := sample_centre (lk_curve l) (v_pos v) in
      let '(pos, offset) :=
        match v_lane_change v with
        | Some lc => let offset := cubic_y (lch_offset lc) (v_pos v) in (lat_offset sample offset, offset)
        | None => (sm_pos sample, n0)
        end in
      let fresh := (px (v_world_dir v) =? n0) && (py (v_world_dir v) =? n0) in
      let world_pos := if fresh then vsub pos (sm_tan sample) else v_world_pos v in
      let world_dir := if fresh then sm_tan sample else v_world_dir v in
      let perp := rot90 (sm_tan sample) in
      let dir := calc_direction world_pos world_dir pos (v_wheel_base v) in
      let expand := (- dot dir perp) * v_half_len v in
      let lats := Itv (nmin (expand + offset) n0 - v_half_wid v) (nmax (expand + offset) n0 + v_half_wid v) in
      let rear_mid := long_offset sample (- v_half_len v) in
      Ok (Vehicle (v_id v) (v_half_wid v) (v_half_len v) (v_wheel_base v) (v_acc v) (v_pathfind v)
            (v_pos v) (v_vel v) (v_stop_cnt v) (v_route v) (v_entered v) (v_queued v) (v_flag v)
            (v_can_exit v) (v_lane_change v) pos dir lats
            (vadd rear_mid (vscale (i_min lats) perp), vadd rear_mid (vscale (i_max lats) perp))))).

  (** vehicle.rs:495-499 *)
  Definition activate_links (v : vehicle) (links : linkset) : res linkset :=
    foldM (fun ls id => bind (get_link ls id) (fun l => Ok (sm_set ls id (set_lk_active l true))))
          (firstn (v_entered v) (v_route v)) links.

  (** vehicle.rs:97-100 *)
  Inductive pass_result := Pass | Follow (pos vel : num).

  (** vehicle.rs:503-507 *)
  Definition is_clear (v : vehicle) (o : obstacle) : bool :=
    let offset := offset_at v (o_pos o - v_half_len v) in
    i_distance (o_lat o) offset >? v_half_wid v + LATERAL_CLEARANCE.

  (** vehicle.rs:516-530 *)
  Fixpoint pass_loop (fuel : nat) (lc : link_curve) (o : obstacle) : res obstacle :=
    match fuel with
    | O => OutOfFuel
    | S fuel =>
        let sample := sample_centre lc (o_pos o) in
        let proj p := project_local p (sm_pos sample) (rot90 (sm_tan sample)) (sm_tan sample) in
        let p0 := proj (fst (o_rear o)) in
        let p1 := proj (snd (o_rear o)) in
        let delta := nmin (py p0) (py p1) in
        let pos := o_pos o + delta in
        if delta <? lit 1 10 then Ok (Obst pos (Itv (px p0) (px p1)) (o_rear o) (o_vel o))
        else pass_loop fuel lc (Obst pos (o_lat o) (o_rear o) (o_vel o))
    end.

  (** vehicle.rs:502-546 *)
  Definition can_pass (fuel : nat) (v : vehicle) (o : obstacle) (l : link) : res pass_result :=
    if is_clear v o then Ok Pass
    else bind (pass_loop fuel (lk_curve l) o) (fun o =>
           Ok (if is_clear v o then Pass else Follow (o_pos o) (o_vel o))).
End Vehicle.
