(** * The vehicle-processing part of src/link.rs, and src/conflict.rs *)
From Coq Require Import List Arith ZArith NArith Bool.
From Verif Require Import Arith Base SlotMap Util Geom Light Accel Net Path Vehicle.
Import ListNotations.

Section LinkOps.
  Context {A : Arith}.
  Local Open Scope num_scope.

  (** link.rs:18,21 *)
  Definition MAX_LOOKAHEAD : num := nofZ 5.
  Definition GAP_BUFFER : num := nhalf.

  (** link.rs:196-209 *)
  Fixpoint can_insert_loop (vs : vehset) (pos len : num) (ids : list key) : res bool :=
    match ids with
    | [] => Ok true
    | id :: ids =>
        bind (get_vehicle vs id) (fun other =>
          let gap := v_pos other - pos in
          let needed := nhalf * (len + v_length other) in
          if nabs gap <? needed then Ok false
          else if gap >? n0 then Ok true
          else can_insert_loop vs pos len ids)
    end.
  Definition can_insert_vehicle (l : link) (vs : vehset) (pos len : num) : res bool :=
    can_insert_loop vs pos len (lk_vehicles l).

  (** link.rs:214-219: the index at which a vehicle is inserted.  The positions of the vehicles
      are looked up lazily, up to the first one further along. *)
  Fixpoint insert_idx (vs : vehset) (pos : num) (ids : list key) : res nat :=
    match ids with
    | [] => Ok O
    | id :: ids =>
        bind (get_vehicle vs id) (fun v =>
          if v_pos v >? pos then Ok O
          else bind (insert_idx vs pos ids) (fun n => Ok (S n)))
    end.

  (** link.rs:212-221 *)
  Definition insert_vehicle (vs : vehset) (id : key) (l : link) : res link :=
    bind (get_vehicle vs id) (fun v =>
    bind (insert_idx vs (v_pos v) (lk_vehicles l)) (fun idx =>
      Ok (set_vehicles l (insert_at idx id (lk_vehicles l))))).

  (** link.rs:224-228 *)
  Definition remove_vehicle (id : key) (l : link) : link :=
    match rposition (fun k => key_eqb k id) (lk_vehicles l) with
    | Some idx => set_vehicles l (remove_at idx (lk_vehicles l))
    | None => l
    end.

  (** ** Effects on cells.
      During the acceleration phase the code holds shared references and writes only to cells:
      the acceleration and queue flag of a vehicle and [last_conflict] of a link.  None of the
      code of that phase reads the first two.  The phase is modelled by a log of the writes
      (latest first), applied afterwards in order. *)
  Inductive eff :=
  | EAcc (v : key) (x : num)       (* acc := f64::min(acc, x) *)
  | EFlag (v : key) (f : nat)      (* will_queue_or_enter := f *)
  | ELast (l : key) (i : nat).     (* last_conflict := i *)

  (** The value of a link's [last_conflict] cell after the writes in the log. *)
  Fixpoint read_last (log : list eff) (id : key) (init : nat) : nat :=
    match log with
    | [] => init
    | ELast l i :: log => if key_eqb l id then i else read_last log id init
    | _ :: log => read_last log id init
    end.

  (** link.rs:567-571; [rv_key] identifies the vehicle whose cells are written *)
  Record relveh := RV { rv_key : key; rv_veh : vehicle; rv_idx : nat; rv_pos : num }.

  (** link.rs:574-580 *)
  Definition rv_offset (r : relveh) (o : num) : relveh :=
    RV (rv_key r) (rv_veh r) (S (rv_idx r)) (rv_pos r + o).
  (** link.rs:582-588 *)
  Definition rv_front (r : relveh) : num := pos_front (rv_veh r) - rv_pos r.
  Definition rv_rear (r : relveh) : num := pos_rear (rv_veh r) - rv_pos r.
  (** link.rs:590-592 *)
  Definition rv_can_stop (r : relveh) (pos : num) : bool := can_stop (rv_veh r) (rv_pos r + pos).
  (** link.rs:606-608 *)
  Definition rv_min_reach_time (r : relveh) (pos max_vel : num) : num :=
    min_reach_time (rv_veh r) (rv_pos r + pos) max_vel.
  (** link.rs:634-636 *)
  Definition rv_route (r : relveh) (idx : nat) : option (key * route_state) :=
    get_route (rv_veh r) (rv_idx r + idx).
  (** link.rs:642-644 *)
  Definition rv_link (r : relveh) (idx : nat) : option key := option_map fst (rv_route r idx).
  (** link.rs:610-632 *)
  Definition rv_speed_limit (r : relveh) (limit pos : num) : list eff :=
    match vx_speed_limit (rv_veh r) limit (rv_pos r + pos) with
    | Some x => [EAcc (rv_key r) x]
    | None => []
    end.
  Definition rv_follow_vehicle (r : relveh) (pos vel : num) : eff :=
    EAcc (rv_key r) (vx_follow_vehicle (rv_veh r) (rv_pos r + pos) vel).
  Definition rv_stop_at_line (r : relveh) (pos : num) : eff :=
    EAcc (rv_key r) (vx_stop_at_line (rv_veh r) (rv_pos r + pos)).
  Definition rv_follow_obstacle (r : relveh) (coords : pt * pt) (vel : num) : eff :=
    EAcc (rv_key r) (vx_follow_obstacle (rv_veh r) coords vel).
  Definition rv_enter_link (r : relveh) : eff := EFlag (rv_key r) 2.
  Definition rv_queue_link (r : relveh) : eff := EFlag (rv_key r) 1.

  (** ** process_vehicles.  The callback has a state and returns whether to continue. *)
  Section Process.
    Context {S_ : Type}.
    Variable func : S_ -> relveh -> res (S_ * bool).

    (** How the loop over the vehicles of one link ends: [return] from the whole function, or
        falling through to the preceding links. *)
    Inductive scan_end := Stop | Through.

    (** link.rs:514-542 *)
    Fixpoint scan (vs : vehset) (len : num) (route : nat * key) (pos min_pos : num)
        (ids : list key) (s : S_) : res (S_ * scan_end) :=
      match ids with
      | [] => Ok (s, Through)
      | id :: ids =>
          bind (get_vehicle vs id) (fun v =>
            if pos_front v <? min_pos then Ok (s, Stop) else
            match get_route v (fst route) with
            | None => scan vs len route pos min_pos ids s
            | Some (l, st) =>
                if negb (key_eqb l (snd route)) then scan vs len route pos min_pos ids s
                else
                  let go :=
                    bind (func s (RV id v (fst route) pos)) (fun sb =>
                      if snd sb then scan vs len route pos min_pos ids (fst sb)
                      else Ok (fst sb, Stop)) in
                  match st with
                  | Entered => go
                  | _ => if pos >? len then Ok (s, Stop) else go
                  end
            end)
      end.

    (** link.rs:497-555 *)
    Fixpoint process_vehicles (fuel : nat) (links : linkset) (vs : vehset) (l : link)
        (route : nat * key) (pos : num) (skip : nat) (s : S_) : res S_ :=
      match fuel with
      | O => OutOfFuel
      | S fuel =>
          if negb (lk_active l) then Ok s else
          let min_pos := pos - MAX_LOOKAHEAD * lk_limit l in
          bind (scan vs (lk_length l) route pos min_pos (skipn skip (rev (lk_vehicles l))) s) (fun se =>
            match snd se with
            | Stop => Ok (fst se)
            | Through =>
                if min_pos >=? n0 then Ok (fst se)
                else
                  foldM (fun s id =>
                    bind (get_link links id) (fun l' =>
                      process_vehicles fuel links vs l' (S (fst route), snd route)
                        (pos + lk_length l') 0 s))
                    (lk_in l) (fst se)
            end)
      end.
  End Process.

  (** ** Stop lines and gap acceptance *)

  (** How the loop over the vehicles of a link ends: with a decision, or without. *)
  (** link.rs:367-379 *)
  Fixpoint gap_loop (vs : vehset) (pos0 : num) (time : num) (queued_at : option nat)
      (route : nat * key) (max_vel : num) (ids : list key) : res (option bool) :=
    match ids with
    | [] => Ok None
    | id :: ids =>
        bind (get_vehicle vs id) (fun v =>
          match get_route v (fst route) with
          | None => gap_loop vs pos0 time queued_at route max_vel ids
          | Some (l, st) =>
              if negb (key_eqb l (snd route)) then gap_loop vs pos0 time queued_at route max_vel ids
              else
                match st, queued_at with
                | NotEntered, Some _ => Ok (Some true)
                | QueuedAt a, Some b =>
                    if Nat.ltb b a then Ok (Some true)
                    else Ok (Some (min_reach_time v pos0 max_vel >? time))
                | _, _ => Ok (Some (min_reach_time v pos0 max_vel >? time))
                end
          end)
    end.

  (** link.rs:360-365: the vehicles on the link, last first, without those past the conflict *)
  Fixpoint skip_past (vs : vehset) (pos1 : num) (ids : list key) : res (list key) :=
    match ids with
    | [] => Ok []
    | id :: ids' =>
        bind (get_vehicle vs id) (fun v =>
          if pos_rear v >? pos1 then skip_past vs pos1 ids' else Ok ids)
    end.

  (** link.rs:348-391 *)
  Fixpoint check_gap (fuel : nat) (links : linkset) (vs : vehset) (l : link) (pos : num * num)
      (time : num) (queued_at : option nat) (route : nat * key) (max_vel : num) : res bool :=
    match fuel with
    | O => OutOfFuel
    | S fuel =>
        let max_vel := nmax max_vel (lk_limit l) in
        bind (skip_past vs (snd pos) (rev (lk_vehicles l))) (fun ids =>
        bind (gap_loop vs (fst pos) time queued_at route max_vel ids) (fun o =>
          match o with
          | Some b => Ok b
          | None =>
              if fst pos / max_vel >? time then Ok true
              else allM (fun id =>
                     bind (get_link links id) (fun l' =>
                       check_gap fuel links vs l' (fst pos + lk_length l', snd pos + lk_length l')
                         time queued_at (S (fst route), snd route) max_vel))
                     (lk_in l)
          end))
    end.

  (** link.rs:319-327 *)
  Definition conflict_queued (c : control) (priority : Z) (queued_at : nat) : option nat :=
    match c with
    | COpen => None
    | CYield _ _ p2 => match Z.compare priority p2 with
                       | Lt => None
                       | Eq => Some queued_at
                       | Gt => Some 0
                       end
    | CClosed => Some 0
    end%nat.

  (** link.rs:316-344: the loop over the conflicts in the given order of indices; returns the
      index of the first conflict without a sufficient gap *)
  Fixpoint enter_loop (fuel : nat) (links : linkset) (vs : vehset) (l : link) (r : relveh)
      (queued_at : nat) (priority : Z) (idxs : list nat) : res (option nat) :=
    match idxs with
    | [] => Ok None
    | idx :: idxs =>
        bind (of_option PIndex (nth_error (lk_conflicts l) idx)) (fun c =>
        bind (get_link links (cf_link c)) (fun l2 =>
          let q := conflict_queued (lk_control l2) priority queued_at in
          bind (check_gap fuel links vs l2 (cf_min c, cf_max c)
                  (rv_min_reach_time r (cf_own_max c) (lk_limit l) + GAP_BUFFER)
                  q (O, cf_link c) n0) (fun has_gap =>
            if has_gap then enter_loop fuel links vs l r queued_at priority idxs
            else Ok (Some idx))))
    end.

  (** link.rs:308-344 *)
  Definition can_enter (fuel : nat) (links : linkset) (vs : vehset) (l : link) (r : relveh)
      (queued_at : nat) (priority : Z) (log : list eff) : res (bool * list eff) :=
    let start := read_last log (lk_id l) (lk_last l) in
    bind (enter_loop fuel links vs l r queued_at priority (rotated_range (length (lk_conflicts l)) start))
      (fun o => match o with
                | Some idx => Ok (false, ELast (lk_id l) idx :: log)
                | None => Ok (true, log)
                end).

  (** link.rs:240-300: the callback of [apply_stoplines] on link [self] *)
  Definition stopline_cb (fuel : nat) (links : linkset) (vs : vehset) (self : link)
      (log : list eff) (r : relveh) : res (list eff * bool) :=
    match rv_route r 1 with
    | Some (_, Entered) => Ok (log, true)
    | Some (id, st) =>
        bind (get_link links id) (fun l =>
          match lk_control l with
          | COpen =>
              if negb (rv_can_stop r (nofZ (-5))) then Ok (rv_enter_link r :: log, true)
              else Ok (log, false)
          | CYield distance must_stop priority =>
              match st with
              | NotEntered =>
                  let close_enough := rv_front r >? - distance in
                  let stopped := negb must_stop || has_stopped (rv_veh r) in
                  let log := if close_enough && stopped then rv_queue_link r :: log else log in
                  Ok (rv_stop_at_line r n0 :: log, false)
              | QueuedAt frame =>
                  bind (can_enter fuel links vs l (rv_offset r (lk_length self)) frame priority log) (fun bl =>
                    if fst bl then Ok (rv_enter_link r :: snd bl, true)
                    else Ok (rv_stop_at_line r n0 :: snd bl, false))
              | Entered => Panic PUnreachable
              end
          | CClosed => Ok (rv_stop_at_line r n0 :: log, false)
          end)
    | None =>
        if v_can_exit (rv_veh r) then Ok (log, true)
        else Ok (rv_stop_at_line r n0 :: log, false)
    end.

  (** link.rs:236-305 *)
  Definition apply_stoplines (fuel : nat) (links : linkset) (vs : vehset) (l : link) (log : list eff)
      : res (list eff) :=
    process_vehicles (stopline_cb fuel links vs l) fuel links vs l (O, lk_id l) (lk_length l) 0 log.

  (** ** Car following and speed limits *)

  (** link.rs:396-403: [windows(2)] and the last vehicle *)
  Fixpoint follow_on_link (vs : vehset) (limit : num) (ids : list key) (log : list eff) : res (list eff) :=
    match ids with
    | [] => Ok log
    | id :: ids' =>
        match ids' with
        | [] => bind (get_vehicle vs id) (fun v => Ok (EAcc id (vx_current_speed_limit v limit) :: log))
        | id2 :: _ =>
            bind (get_vehicle vs id) (fun follower =>
            bind (get_vehicle vs id2) (fun leader =>
              follow_on_link vs limit ids'
                (EAcc id (vx_current_speed_limit follower limit)
                 :: EAcc id (vx_follow_vehicle follower (pos_rear leader) (v_vel leader)) :: log)))
        end
    end.

  (** link.rs:409-415: the callback for vehicles about to enter the link *)
  Definition entering_cb (vs : vehset) (self : link) (log : list eff) (r : relveh) : res (list eff * bool) :=
    let log := rv_speed_limit r (lk_limit self) n0 ++ log in
    match hd_error (lk_vehicles self) with
    | None => Ok (log, false)
    | Some id => bind (get_vehicle vs id) (fun leader =>
                   Ok (rv_follow_vehicle r (pos_rear leader) (v_vel leader) :: log, false))
    end.

  (** link.rs:450-456: the number of vehicles (from the front) that are not behind the obstacle *)
  Fixpoint count_ahead (vs : vehset) (pos : num) (ids : list key) : res (option nat) :=
    match ids with
    | [] => Ok None
    | id :: ids =>
        bind (get_vehicle vs id) (fun v =>
          if v_pos v <? pos then Ok (Some O)
          else bind (count_ahead vs pos ids) (fun o => Ok (option_map S o)))
    end.

  (** link.rs:462-468 *)
  Definition obstacle_cb (fuel : nat) (self : link) (o : obstacle) (log : list eff) (r : relveh)
      : res (list eff * bool) :=
    bind (can_pass fuel (rv_veh r) o self) (fun p =>
      match p with
      | Pass => Ok (log, true)
      | Follow pos vel => Ok (rv_follow_vehicle r (pos - o_pos o) vel :: log, false)
      end).

  (** link.rs:437-474; obstacles are produced lazily from the vehicles [ids] by the projection *)
  Fixpoint follow_obstacles (fuel : nat) (links : linkset) (vs : vehset) (self : link) (p : projection)
      (ids : list key) (skip : nat) (log : list eff) : res (list eff) :=
    match ids with
    | [] => Ok log
    | id :: ids =>
        bind (get_vehicle vs id) (fun v =>
        bind (v_project v p) (fun o =>
        bind (count_ahead vs (o_pos o) (skipn skip (rev (lk_vehicles self)))) (fun cnt =>
          let skip := match cnt with Some c => (skip + c)%nat | None => length (lk_vehicles self) end in
          bind (process_vehicles (obstacle_cb fuel self o) fuel links vs self (O, lk_id self) (o_pos o) skip log)
            (fun log => follow_obstacles fuel links vs self p ids skip log))))
    end.

  (** link.rs:394-432 *)
  Definition apply_accelerations (fuel : nat) (links : linkset) (vs : vehset) (l : link) (log : list eff)
      : res (list eff) :=
    bind (follow_on_link vs (lk_limit l) (lk_vehicles l) log) (fun log =>
    bind (process_vehicles (entering_cb vs l) fuel links vs l (O, lk_id l) n0 (length (lk_vehicles l)) log) (fun log =>
      match lk_group l with
      | None => Ok log
      | Some g =>
          bind (projections_from_link g (lk_id l)) (fun ps =>
            foldM (fun log p =>
              bind (get_link links (pj_dst p)) (fun l2 =>
                follow_obstacles fuel links vs l2 p (rev (lk_vehicles l)) 0 log)) ps log)
      end)).

  (** ** src/conflict.rs *)

  (** conflict.rs:7 *)
  Definition LINK_RADIUS : num := lit 9 5.

  (** conflict.rs:17-22 *)
  Record cpoint_link := CPL { cpl_link : key; cpl_min : num; cpl_max : num }.
  (** conflict.rs:9-15 *)
  Record cpoint := CPoint { cp_a : cpoint_link; cp_b : cpoint_link; cp_same_dir : bool }.

  (** conflict.rs:96 *)
  Definition STEP : num := lit 1 4.

  (** conflict.rs:103-116 *)
  Fixpoint cpl_loop (fuel : nat) (c1 c2 : link_curve) (own_pos : num) (other : option num)
      (mn mx : option num) : res (option num * option num) :=
    match fuel with
    | O => OutOfFuel
    | S fuel =>
        if own_pos <? lc_length c1 then
          let own_s := sample_centre c1 own_pos in
          bind (project_point_onto_curve (lc_curve c2) (sm_pos own_s) (lit 1 10) other) (fun other =>
            let hit :=
              match other with
              | None => false
              | Some p =>
                  let other_s := sample_centre c2 p in
                  let dist := distance (sm_pos own_s) (sm_pos other_s) in
                  let dist := dist - LINK_RADIUS * nabs (dot (sm_tan own_s) (sm_tan other_s)) in
                  dist <? LINK_RADIUS
              end in
            if hit then
              cpl_loop fuel c1 c2 (own_pos + STEP) other
                (match mn with Some m => Some m | None => Some (own_pos - STEP) end)
                (Some (own_pos + STEP))
            else cpl_loop fuel c1 c2 (own_pos + STEP) other mn mx)
        else Ok (mn, mx)
    end.

  (** conflict.rs:95-127 *)
  Definition cpl_new (fuel : nat) (l other : link) : res (option cpoint_link) :=
    bind (cpl_loop fuel (lk_curve l) (lk_curve other) n0 None None None) (fun mm =>
      match mm with
      | (Some mn, Some mx) => Ok (Some (CPL (lk_id l) mn mx))
      | _ => Ok None
      end).

  (** conflict.rs:42-46 *)
  Definition cpl_tangent (l : link) (c : cpoint_link) : pt :=
    let p k := sm_pos (sample_centre (lk_curve l) k) in
    normalize (vsub (p (cpl_max c)) (p (cpl_min c))).

  (** conflict.rs:38-53 *)
  Definition cpoint_new (fuel : nat) (a b : link) : res (option cpoint) :=
    bind (cpl_new fuel a b) (fun ca =>
      match ca with
      | None => Ok None
      | Some ca =>
          bind (cpl_new fuel b a) (fun cb =>
            match cb with
            | None => Ok None
            | Some cb =>
                let same := dot (cpl_tangent a ca) (cpl_tangent b cb) >? lit 1 4 in
                Ok (Some (CPoint ca cb same))
            end)
      end).

  (** conflict.rs:55-67 *)
  Definition link_conflicts (c : cpoint) : list (key * link_conflict) :=
    let f i j := (cpl_link i, LConf (cpl_link j) (cpl_max i) (cpl_min j) (cpl_max j)) in
    [f (cp_a c) (cp_b c); f (cp_b c) (cp_a c)].

  (** conflict.rs:129-148 *)
  Definition find_vehicles (fuel : nat) (links : linkset) (vs : vehset) (c : cpoint_link)
      (buf : list relveh) : res (list relveh) :=
    bind (get_link links (cpl_link c)) (fun l =>
      process_vehicles
        (fun buf r => Ok (if rv_rear r <? cpl_max c - cpl_min c then buf ++ [r] else buf, true))
        fuel links vs l (O, cpl_link c) (cpl_min c) 0 buf).

  (** conflict.rs:78: a stable sort by decreasing front position; [partial_cmp(..).unwrap()]
      panics on a NaN (there are at least two elements, so each is compared). *)
  Fixpoint insert_desc (r : relveh) (l : list relveh) : list relveh :=
    match l with
    | [] => [r]
    | x :: l' => if rv_front x <? rv_front r then r :: l else x :: insert_desc r l'
    end.
  Definition sort_desc (l : list relveh) : res (list relveh) :=
    if existsb (fun r => nnan (rv_front r)) l && Nat.leb 2 (length l) then Panic PNanCompare
    else Ok (fold_left (fun acc r => insert_desc r acc) l []).

  Definition okey_eqb (a b : option key) : bool :=
    match a, b with
    | Some a, Some b => key_eqb a b
    | None, None => true
    | _, _ => false
    end.

  (** conflict.rs:80-90 *)
  Fixpoint conflict_pairs (same_dir : bool) (l : list relveh) (log : list eff) : list eff :=
    match l with
    | leader :: ((follower :: _) as tl) =>
        let log :=
          if negb (okey_eqb (rv_link leader 0) (rv_link follower 0)) then
            if same_dir && (rv_rear leader >? n0)
            then rv_follow_obstacle follower (v_rear_coords (rv_veh leader)) (v_vel (rv_veh leader)) :: log
            else rv_stop_at_line follower n0 :: log
          else log in
        conflict_pairs same_dir tl log
    | _ => log
    end.

  (** conflict.rs:69-91 *)
  Definition cp_apply (fuel : nat) (links : linkset) (vs : vehset) (c : cpoint) (log : list eff)
      : res (list eff) :=
    bind (find_vehicles fuel links vs (cp_a c) []) (fun b1 =>
      match b1 with
      | [] => Ok log
      | _ =>
          bind (find_vehicles fuel links vs (cp_b c) b1) (fun b2 =>
            if Nat.eqb (length b2) (length b1) then Ok log
            else bind (sort_desc b2) (fun l => Ok (conflict_pairs (cp_same_dir c) l log)))
      end).
End LinkOps.
