(** * Specification: the same network at another place on the map

    Exact arithmetic.  A motion first reflects the plane in the x axis, or leaves it; then turns it by an angle with the given cosine and sine;
    then shifts it.  All changes of the plane that keep distances are of this form. *)
From Coq Require Import List Bool ZArith NArith Arith Reals.
From Verif Require Import Arith RealArith Base SlotMap Util Geom Light Accel Net Path Vehicle LinkOps Sim.
Import ListNotations.
Local Open Scope R_scope.

Record motion := Motion { mo_flip : bool; mo_cos : R; mo_sin : R; mo_x : R; mo_y : R }.
(** It keeps distances. *)
Definition rigid (m : motion) : Prop := mo_cos m * mo_cos m + mo_sin m * mo_sin m = 1.

(** A reflection exchanges left and right: offsets to the left become offsets to the right, and the reverse. *)
Definition side (m : motion) : R := if mo_flip m then -1 else 1.
Definition sided (m : motion) (x : R) : R := side m * x.
Definition sided_range (m : motion) (i : @interval RA) : @interval RA :=
  if mo_flip m then @Itv RA (sided m (i_max i)) (sided m (i_min i)) else i.
Definition sided_pair {X} (m : motion) (p : X * X) : X * X := if mo_flip m then (snd p, fst p) else p.

(** Where a direction, and where a point, goes. *)
Definition turned (m : motion) (d : @pt RA) : @pt RA :=
  @Pt RA (mo_cos m * px d - mo_sin m * sided m (py d)) (mo_sin m * px d + mo_cos m * sided m (py d)).
Definition moved (m : motion) (p : @pt RA) : @pt RA :=
  @Pt RA (px (turned m p) + mo_x m) (py (turned m p) + mo_y m).

(** The same curve there. *)
Definition moved_curve (m : motion) (c : @curve RA) : @curve RA :=
  @Curve RA (fun t => moved m (c_sample c t)) (c_bounds c) (fun t => turned m (c_dt c t)) (fun t => turned m (c_dt2 c t)).
(** The same call there: only the curves of new links say where something is. *)
Definition moved_call (m : motion) (o : @op RA) : @op RA :=
  match o with OAddLink c limit => OAddLink (moved_curve m c) limit | _ => o end.

(** The same network and the same vehicles there.  The tables of positions on neighbouring lanes and the paths of vehicles that change lanes
    contain offsets to the left. *)
Definition moved_table (m : motion) (p : @projection RA) : @projection RA :=
  Proj (pj_src p) (pj_dst p) (pj_inv p) (map (fun q => @PSample RA (ps_pos q) (sided m (ps_lat q))) (pj_samples p)).
Definition moved_group (m : motion) (g : @group RA) : @group RA := Group (g_links g) (map (moved_table m) (g_projs g)) (g_mask g).
Definition moved_cubic (m : motion) (f : @cubic RA) : @cubic RA :=
  @Cubic RA (sided m (cb_a f)) (sided m (cb_b f)) (sided m (cb_c f)) (sided m (cb_d f)) (cb_offset f).
Definition moved_change (m : motion) (c : @lane_change RA) : @lane_change RA := LaneChg (lch_end c) (moved_cubic m (lch_offset c)).
Definition moved_link (m : motion) (l : @link RA) : @link RA :=
  Link (lk_id l) (option_map (moved_group m) (lk_group l))
    (LinkCurve (lc_scale (lk_curve l)) (lc_length (lk_curve l)) (map (fun q => QBez (moved m (q0 q)) (moved m (q1 q)) (moved m (q2 q))) (lc_segments (lk_curve l))))
    (lk_in l) (lk_out l) (lk_changes l) (lk_conflicts l) (lk_last l) (lk_limit l) (lk_cost l) (lk_vehicles l) (lk_control l) (lk_active l).
Definition moved_vehicle (m : motion) (v : @vehicle RA) : @vehicle RA :=
  Vehicle (v_id v) (v_half_wid v) (v_half_len v) (v_wheel_base v) (v_acc v) (v_pathfind v) (v_pos v) (v_vel v)
    (v_stop_cnt v) (v_route v) (v_entered v) (v_queued v) (v_flag v) (v_can_exit v) (option_map (moved_change m) (v_lane_change v))
    (moved m (v_world_pos v)) (turned m (v_world_dir v)) (sided_range m (v_rear_lats v))
    (sided_pair m (moved m (fst (v_rear_coords v)), moved m (snd (v_rear_coords v)))).
Definition moved_sim (m : motion) (s : @sim RA) : @sim RA :=
  Sim (sm_map (moved_link m) (s_links s)) (s_lights s) (s_conflicts s) (sm_map (moved_vehicle m) (s_vehicles s)) (s_frozen s) (s_frame s) (s_seq s) (s_acc_update s) (s_lc_update s).

(** The outcome of a call there: the same panic, or the same state there. *)
Definition outcome {X Y} (f : X -> Y) (r : res X) : res Y :=
  match r with Ok x => Ok (f x) | Panic p => Panic p | OutOfFuel => OutOfFuel end.

(** Ties between routes of equal cost are broken the same way, and the bounds on loops are the same. *)
Definition same_choices (m : motion) (e1 e2 : @env RA) : Prop :=
  e_fuel e1 = e_fuel e2 /\ forall links src dst n, e_pick e2 (sm_map (moved_link m) links) src dst n = e_pick e1 links src dst n.
