(** * src/simulation.rs *)
From Coq Require Import List Arith ZArith NArith Bool.
From Verif Require Import Arith Base SlotMap Util Geom Light Accel Net Path Vehicle LinkOps.
Import ListNotations.

(** [for (key, value) in &mut map { .. }] with a state threaded through: visits the occupied
    slots by increasing index. *)
Fixpoint slots_mapS {V S_} (f : S_ -> key -> V -> res (S_ * V)) (i : nat) (l : list (slot V)) (s : S_)
    : res (S_ * list (slot V)) :=
  match l with
  | [] => Ok (s, [])
  | sl :: l =>
      match s_val sl with
      | None => bind (slots_mapS f (S i) l s) (fun r => Ok (fst r, sl :: snd r))
      | Some v =>
          bind (f s (Key i (s_ver sl)) v) (fun sv =>
          bind (slots_mapS f (S i) l (fst sv)) (fun r =>
            Ok (fst r, Slot (s_ver sl) (Some (snd sv)) :: snd r)))
      end
  end.
Definition sm_mapS {V S_} (f : S_ -> key -> V -> res (S_ * V)) (m : slotmap V) (s : S_)
    : res (S_ * slotmap V) :=
  bind (slots_mapS f 0 (sm_slots m) s) (fun r => Ok (fst r, SM (snd r) (sm_free m))).

Section Sim.
  Context {A : Arith}.
  Local Open Scope num_scope.

  (** simulation.rs:14,17 *)
  Definition ACCELERATION_UPDATE_SEC : num := lit 1 10.
  Definition LANE_CHANGE_UPDATE_SEC : num := lit 3 10.

  (** simulation.rs:21-43 (without the [debug] feature).  The counters [frame] and [seq] are
      unbounded here. *)
  Record sim := Sim {
    s_links : linkset;
    s_lights : slotmap light;
    s_conflicts : list cpoint;
    s_vehicles : vehset;
    s_frozen : list key;
    s_frame : nat;
    s_seq : nat;
    s_acc_update : num;
    s_lc_update : num
  }.

  (** simulation.rs:47-49 *)
  Definition sim_new : sim := Sim sm_empty sm_empty [] sm_empty [] 0 0 n0 n0.

  Definition with_links (s : sim) (x : linkset) : sim :=
    Sim x (s_lights s) (s_conflicts s) (s_vehicles s) (s_frozen s) (s_frame s) (s_seq s) (s_acc_update s) (s_lc_update s).
  Definition with_vehicles (s : sim) (x : vehset) : sim :=
    Sim (s_links s) (s_lights s) (s_conflicts s) x (s_frozen s) (s_frame s) (s_seq s) (s_acc_update s) (s_lc_update s).
  Definition with_frozen (s : sim) (x : list key) : sim :=
    Sim (s_links s) (s_lights s) (s_conflicts s) (s_vehicles s) x (s_frame s) (s_seq s) (s_acc_update s) (s_lc_update s).
  Definition with_acc_update (s : sim) (x : num) : sim :=
    Sim (s_links s) (s_lights s) (s_conflicts s) (s_vehicles s) (s_frozen s) (s_frame s) (s_seq s) x (s_lc_update s).
  Definition with_lc_update (s : sim) (x : num) : sim :=
    Sim (s_links s) (s_lights s) (s_conflicts s) (s_vehicles s) (s_frozen s) (s_frame s) (s_seq s) (s_acc_update s) x.

  (** simulation.rs:52-54; returns the new id *)
  Definition add_link (e : env) (s : sim) (c : curve) (limit : num) : res (sim * key) :=
    let id := sm_next_key (s_links s) in
    bind (link_new (e_fuel e) id c limit) (fun l =>
      Ok (with_links s (sm_insert (s_links s) l), id)).

  (** Modifies one link: [self.links[id].f()]. *)
  Definition upd_link (links : linkset) (id : key) (f : link -> res link) : res linkset :=
    bind (get_link links id) (fun l => bind (f l) (fun l => Ok (sm_set links id l))).

  (** simulation.rs:62-74 *)
  Definition add_link_group (e : env) (s : sim) (ids : list key) (lc_mask : N) : res sim :=
    bind (mapM (get_link (s_links s)) ids) (fun ls =>
    bind (group_new (e_fuel e) ls lc_mask) (fun g =>
    bind (foldM (fun links id => upd_link links id (fun l => Ok (set_group l g))) ids (s_links s)) (fun links =>
    bind (g_lane_changes g) (fun lcs =>
    bind (foldM (fun links ft => upd_link links (fst ft) (fun l => add_lane_change l (snd ft))) lcs links) (fun links =>
      Ok (with_links s links)))))).

  (** simulation.rs:77-86.  [get_disjoint_mut] yields the links iff both keys are valid and
      different. *)
  Definition add_link_convergance (e : env) (s : sim) (a b : key) : res sim :=
    if key_eqb a b then Ok s else
    match sm_get (s_links s) a, sm_get (s_links s) b with
    | Some la, Some lb =>
        bind (cpoint_new (e_fuel e) la lb) (fun o =>
          match o with
          | None => Ok s
          | Some cp =>
              bind (foldM (fun links kc => upd_link links (fst kc) (fun l => Ok (add_conflict l (snd kc))))
                          (link_conflicts cp) (s_links s)) (fun links =>
                Ok (Sim links (s_lights s) (s_conflicts s ++ [cp]) (s_vehicles s) (s_frozen s) (s_frame s)
                        (s_seq s) (s_acc_update s) (s_lc_update s)))
          end)
    | _, _ => Ok s
    end.

  (** simulation.rs:89-92 *)
  Definition add_link_connection (s : sim) (from to : key) : res sim :=
    bind (upd_link (s_links s) from (fun l => Ok (add_link_out l to))) (fun links =>
    bind (upd_link links to (fun l => Ok (add_link_in l from))) (fun links =>
      Ok (with_links s links))).

  (** simulation.rs:103-107: successors in the graph of [all_routes] *)
  Definition route_succ (links : linkset) (id : key) : res (list key) :=
    bind (get_link links id) (fun l =>
    bind (reachable_lanes l) (fun lanes =>
    bind (mapM (fun k => bind (get_link links k) (fun l => Ok (lk_out l))) lanes) (fun ess =>
      Ok (concat ess)))).

  (** simulation.rs:100-112: the pairs for one source *)
  Definition routes_from (e : env) (links : linkset) (src : link) : res (list (key * key)) :=
    bind (get_link links (lk_id src)) (fun l =>
    bind (reachable_lanes l) (fun f =>
    bind (dfs_reach (e_fuel e) (route_succ links) [lk_id src] []) (fun s =>
    bind (filterM (fun id => bind (get_link links id) (fun l =>
                     Ok (match lk_out l with [] => true | _ => false end))) (f ++ s)) (fun ds =>
      Ok (map (fun d => (lk_id src, d)) ds))))).

  (** simulation.rs:95-113, collected *)
  Definition all_routes (e : env) (s : sim) : res (list (key * key)) :=
    bind (mapM (routes_from e (s_links s))
               (filter (fun l => match lk_in l with [] => true | _ => false end) (sm_values (s_links s))))
      (fun ls => Ok (concat ls)).

  (** simulation.rs:116-118 *)
  Definition add_traffic_light (s : sim) (l : light) : sim * key :=
    (Sim (s_links s) (sm_insert (s_lights s) l) (s_conflicts s) (s_vehicles s) (s_frozen s) (s_frame s)
         (s_seq s) (s_acc_update s) (s_lc_update s),
     sm_next_key (s_lights s)).

  (** simulation.rs:121-130 *)
  Definition add_vehicle (e : env) (s : sim) (a : attrs) (id : key) : res (sim * key) :=
    let vid := sm_next_key (s_vehicles s) in
    bind (set_location e (s_links s) (vehicle_new vid a) id n0 None) (fun v =>
    bind (update_coords (s_links s) v) (fun v =>
      let vs := sm_insert (s_vehicles s) v in
      bind (upd_link (s_links s) id (insert_vehicle vs vid)) (fun links =>
        Ok (with_links (with_vehicles s vs) links, vid)))).

  (** simulation.rs:133-140 *)
  Definition sim_remove_vehicle (s : sim) (id : key) : res sim :=
    match sm_get (s_vehicles s) id with
    | None => Ok s
    | Some v =>
        let s := with_vehicles s (sm_remove (s_vehicles s) id) in
        match v_link v with
        | None => Ok s
        | Some lid => bind (upd_link (s_links s) lid (fun l => Ok (remove_vehicle (v_id v) l)))
                           (fun links => Ok (with_links s links))
        end
    end.

  (** simulation.rs:145-152.  The samples of the normal distribution are a parameter; a standard
      deviation the distribution rejects (not finite) panics before any change and is not modelled. *)
  Definition randomise_velocity_adjusts (s : sim) (sample : key -> num) : res sim :=
    bind (sm_mapS (fun u k v => Ok (u, set_velocity_adjust v (nclamp (lit 3 4) (lit 5 4) (sample k))))
                  (s_vehicles s) tt)
      (fun r => Ok (with_vehicles s (snd r))).

  (** simulation.rs:157-168 *)
  Definition set_vehicle_frozen (s : sim) (id : key) (frozen : bool) : sim :=
    match frozen, position (fun k => key_eqb k id) (s_frozen s) with
    | true, None => with_frozen s (s_frozen s ++ [id])
    | false, Some idx => with_frozen s (remove_at idx (s_frozen s))
    | _, _ => s
    end.

  (** simulation.rs:171-173 *)
  Definition get_vehicle_frozen (s : sim) (id : key) : bool :=
    existsb (fun k => key_eqb k id) (s_frozen s).

  (** simulation.rs:176-178 *)
  Definition set_vehicle_destination (e : env) (s : sim) (id dst : key) : res sim :=
    bind (get_vehicle (s_vehicles s) id) (fun v =>
    bind (set_destination e (s_links s) v dst) (fun v =>
      Ok (with_vehicles s (sm_set (s_vehicles s) id v)))).

  (** simulation.rs:231-233 *)
  Definition set_link_control (s : sim) (id : key) (c : control) : res sim :=
    bind (upd_link (s_links s) id (fun l => Ok (set_control l c))) (fun links => Ok (with_links s links)).

  (** simulation.rs:242-249 *)
  Definition update_lights (s : sim) (dt : num) : res sim :=
    bind (sm_mapS (fun links (_ : key) l =>
            bind (light_step l dt) (fun l =>
            bind (get_states l) (fun sts =>
            bind (foldM (fun links kc => upd_link links (fst kc) (fun l => Ok (set_control l (snd kc)))) sts links)
              (fun links => Ok (links, l))))) (s_lights s) (s_links s))
      (fun r => Ok (Sim (fst r) (snd r) (s_conflicts s) (s_vehicles s) (s_frozen s) (s_frame s) (s_seq s)
                        (s_acc_update s) (s_lc_update s))).

  (** simulation.rs:379-403 *)
  Definition do_lane_change (e : env) (s : sim) (id lid : key) (dist : num) : res sim :=
    bind (get_vehicle (s_vehicles s) id) (fun v =>
    bind (match v_link v with
          | Some cur => upd_link (s_links s) cur (fun l => Ok (remove_vehicle id l))
          | None => Ok (s_links s)
          end) (fun links =>
    bind (get_link links lid) (fun l =>
    bind (inverse_sample (lk_curve l) (v_world_pos v) (v_world_dir v)) (fun o =>
    bind (of_option PProjection o) (fun '(pos, offset, slope) =>
      let end_pos := pos + dist in
      let lc := LaneChg end_pos (cubic_fit pos offset slope end_pos n0 n0) in
      bind (set_location e links v lid pos (Some lc)) (fun v =>
        let vs := sm_set (s_vehicles s) id v in
        bind (upd_link links lid (insert_vehicle vs id)) (fun links =>
          Ok (with_links (with_vehicles s vs) links)))))))).

  (** simulation.rs:261-272: the choice of one vehicle; the state is the list of queued changes *)
  Definition choose_one (links : linkset) (acc : list (key * path)) (_ : key) (v : vehicle)
      : res (list (key * path) * vehicle) :=
    bind (choose_path links v) (fun o =>
      match o with
      | None => Ok (acc, v)
      | Some p =>
          bind (of_option PEmptyRoute (v_link v)) (fun cur =>
          bind (of_option PEmptyRoute (hd_error (pt_links p))) (fun new =>
            if negb (key_eqb cur new) then Ok (acc ++ [(v_id v, p)], v)
            else Ok (acc, set_path v p)))
      end).

  (** simulation.rs:275-278 *)
  Definition exec_change (e : env) (s : sim) (vp : key * path) : res sim :=
    bind (of_option PEmptyRoute (hd_error (pt_links (snd vp)))) (fun lid =>
    bind (do_lane_change e s (fst vp) lid (nofZ 30)) (fun s =>
    bind (get_vehicle (s_vehicles s) (fst vp)) (fun v =>
      Ok (with_vehicles s (sm_set (s_vehicles s) (fst vp) (set_path v (snd vp))))))).

  (** simulation.rs:252-279 *)
  Definition calculate_lane_changes (e : env) (s : sim) : res sim :=
    if s_lc_update s <? LANE_CHANGE_UPDATE_SEC then Ok s else
    let s := with_lc_update s n0 in
    bind (sm_mapS (choose_one (s_links s)) (s_vehicles s) []) (fun r =>
      foldM (exec_change e) (fst r) (with_vehicles s (snd r))).

  (** simulation.rs:303-307 *)
  Definition sim_stoplines (fuel : nat) (links : linkset) (vs : vehset) (log : list eff) : res (list eff) :=
    foldM (fun log l => apply_stoplines fuel links vs l log) (sm_values links) log.

  (** simulation.rs:310-317 *)
  Definition sim_link_accelerations (fuel : nat) (links : linkset) (vs : vehset) (cps : list cpoint)
      (log : list eff) : res (list eff) :=
    bind (foldM (fun log l => apply_accelerations fuel links vs l log) (sm_values links) log) (fun log =>
      foldM (fun log c => cp_apply fuel links vs c log) cps log).

  (** The writes to cells, applied to the state (see LinkOps.v). *)
  Definition apply_eff (lv : linkset * vehset) (e : eff) : linkset * vehset :=
    match e with
    | EAcc id x => (fst lv, sm_upd (snd lv) id (fun v => set_acc v (am_min (v_acc v) x)))
    | EFlag id f => (fst lv, sm_upd (snd lv) id (fun v => set_flag v f))
    | ELast id i => (sm_upd (fst lv) id (fun l => set_last l i), snd lv)
    end.
  Definition apply_log (lv : linkset * vehset) (log : list eff) : linkset * vehset :=
    fold_left apply_eff (rev log) lv.

  (** simulation.rs:320-329 *)
  Definition apply_frozen (vs : vehset) (frozen : list key) : vehset * list key :=
    (fold_left (fun vs id => sm_upd vs id v_emergency_stop) frozen vs,
     filter (sm_mem vs) frozen).

  (** simulation.rs:289-295 *)
  Definition activate_all (s : sim) : res (linkset * vehset) :=
    let links := sm_map (fun l => set_lk_active l false) (s_links s) in
    bind (sm_mapS (fun links (_ : key) v =>
            let v := v_reset v in
            bind (activate_links v links) (fun links => Ok (links, v))) (s_vehicles s) links)
      (fun r => Ok (fst r, snd r)).

  (** simulation.rs:282-299 *)
  Definition sim_apply_accelerations (e : env) (s : sim) : res sim :=
    if s_acc_update s <? ACCELERATION_UPDATE_SEC then Ok s else
    let s := with_acc_update s n0 in
    bind (activate_all s) (fun '(links, vs) =>
    bind (sim_stoplines (e_fuel e) links vs []) (fun log =>
    bind (sim_link_accelerations (e_fuel e) links vs (s_conflicts s) log) (fun log =>
      let '(links, vs) := apply_log (links, vs) log in
      let '(vs, frozen) := apply_frozen vs (s_frozen s) in
      Ok (with_frozen (with_vehicles (with_links s links) vs) frozen)))).

  (** simulation.rs:333-337 *)
  Definition sim_integrate (s : sim) (dt : num) : res sim :=
    bind (sm_mapS (fun seq (_ : key) v => integrate v dt seq) (s_vehicles s) (s_seq s)) (fun r =>
      Ok (Sim (s_links s) (s_lights s) (s_conflicts s) (snd r) (s_frozen s) (s_frame s) (fst r)
              (s_acc_update s) (s_lc_update s))).

  (** simulation.rs:345-359: one vehicle; the state holds the links, the vehicles that moved to
      another link and the vehicles that left *)
  Definition advance_one (e : env) (st : linkset * (list (key * key) * list key)) (id : key) (v : vehicle)
      : res ((linkset * (list (key * key) * list key)) * vehicle) :=
    let '(links, (adv, ex)) := st in
    bind (of_option PEmptyRoute (v_link v)) (fun lid =>
    bind (advance e links v) (fun bv =>
      if fst bv then
        bind (upd_link links lid (fun l => Ok (remove_vehicle id l))) (fun links =>
          match v_link (snd bv) with
          | Some lid' => Ok ((links, (adv ++ [(id, lid')], ex)), snd bv)
          | None => Ok ((links, (adv, ex ++ [id])), snd bv)
          end)
      else Ok (st, snd bv))).

  (** simulation.rs:341-368 *)
  Definition advance_vehicles (e : env) (s : sim) : res sim :=
    bind (sm_mapS (advance_one e) (s_vehicles s) (s_links s, ([], []))) (fun r =>
      let '((links, (adv, ex)), vs) := r in
      bind (foldM (fun links vl => upd_link links (snd vl) (insert_vehicle vs (fst vl))) adv links) (fun links =>
        Ok (with_links (with_vehicles s (fold_left sm_remove ex vs)) links))).

  (** simulation.rs:371-375 *)
  Definition update_vehicle_coords (s : sim) : res sim :=
    bind (sm_mapS (fun u (_ : key) v => bind (update_coords (s_links s) v) (fun v => Ok (u, v))) (s_vehicles s) tt)
      (fun r => Ok (with_vehicles s (snd r))).

  (** simulation.rs:183-198 *)
  Definition step (e : env) (s : sim) (dt : num) : res sim :=
    bind (calculate_lane_changes e s) (fun s =>
    bind (sim_apply_accelerations e s) (fun s =>
    bind (update_lights s dt) (fun s =>
    bind (sim_integrate s dt) (fun s =>
    bind (advance_vehicles e s) (fun s =>
    bind (update_vehicle_coords s) (fun s =>
      Ok (Sim (s_links s) (s_lights s) (s_conflicts s) (s_vehicles s) (s_frozen s) (S (s_frame s)) (s_seq s)
              (s_acc_update s + dt) (s_lc_update s + dt)))))))).

  (** ** The API as a labelled transition system: all [&mut self] methods of [Simulation]. *)
  Inductive op :=
  | OAddLink (c : curve) (limit : num)
  | OAddGroup (ids : list key) (mask : N)
  | OAddConvergence (a b : key)
  | OAddConnection (from to : key)
  | OAddLight (calls : list lop)   (* the calls that built the light *)
  | OAddVehicle (a : attrs) (link : key)
  | ORemoveVehicle (v : key)
  | ORandomise (sample : key -> num)
  | OSetFrozen (v : key) (frozen : bool)
  | OSetDestination (v dst : key)
  | OSetControl (l : key) (c : control)
  | OLaneChange (v l : key) (dist : num)
  | OStep (dt : num).

  (** The new state, or the panic. *)
  Definition exec (e : env) (s : sim) (o : op) : res sim :=
    match o with
    | OAddLink c limit => bind (add_link e s c limit) (fun r => Ok (fst r))
    | OAddGroup ids mask => add_link_group e s ids mask
    | OAddConvergence a b => add_link_convergance e s a b
    | OAddConnection f t => add_link_connection s f t
    | OAddLight calls => bind (lrun calls) (fun l => Ok (fst (add_traffic_light s l)))
    | OAddVehicle a l => bind (add_vehicle e s a l) (fun r => Ok (fst r))
    | ORemoveVehicle v => sim_remove_vehicle s v
    | ORandomise f => randomise_velocity_adjusts s f
    | OSetFrozen v b => Ok (set_vehicle_frozen s v b)
    | OSetDestination v d => set_vehicle_destination e s v d
    | OSetControl l c => set_link_control s l c
    | OLaneChange v l d => do_lane_change e s v l d
    | OStep dt => step e s dt
    end.

  (** A history of API calls, each of which returned normally. *)
  Fixpoint run (e : env) (s : sim) (ops : list op) : res sim :=
    match ops with
    | [] => Ok s
    | o :: ops => bind (exec e s o) (fun s => run e s ops)
    end.
End Sim.
