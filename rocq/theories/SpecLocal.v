(** * Specification: parts of the network that are not connected with each other *)
From Coq Require Import List Bool ZArith NArith Arith.
From Verif Require Import Arith Base SlotMap Util Geom Light Accel Net Path Vehicle LinkOps Sim SpecSim.
Import ListNotations.

Section SpecLocal.
  Context {A : Arith}.
  (** The links that belong to the part. *)
  Variable part : key -> bool.

  (** Link [l] is joined to link [y], is a lane beside it, or crosses it. *)
  Definition touches (l : link) (y : key) : Prop :=
    In y (lk_out l) \/ In y (lk_in l) \/ In y (lk_changes l) \/ (exists g, lk_group l = Some g /\ In y (g_links g)) \/ (exists c, In c (lk_conflicts l) /\ cf_link c = y).
  (** The vehicle is on a link of the part. *)
  Definition on_part (v : vehicle) : bool := match v_link v with Some l => part l | None => false end.
  (** The traffic light controls a link of the part. *)
  Definition light_on_part (l : light) : bool := existsb (fun il => part (snd il)) (l_mlinks l).

  (** Nothing connects the part with the rest of the network: no connection, group of lanes or crossing, no traffic light that
      controls links of both, and no vehicle of the part that is sent elsewhere. *)
  Record separate (s : sim) : Prop := {
    sep_links : forall k l y, sm_get (s_links s) k = Some l -> touches l y -> part y = part k;
    sep_conflicts : forall c, In c (s_conflicts s) -> part (cpl_link (cp_a c)) = part (cpl_link (cp_b c));
    sep_lights : forall k l i j, sm_get (s_lights s) k = Some l -> In i (l_mlinks l) -> In j (l_mlinks l) -> part (snd i) = part (snd j);
    sep_trips : forall k v, sm_get (s_vehicles s) k = Some v -> on_part v = true -> v_destination v = null_key \/ part (v_destination v) = true
  }.

  (** A vehicle up to the number it drew when it joined a queue. *)
  Definition unnumbered (v : vehicle) : vehicle :=
    Vehicle (v_id v) (v_half_wid v) (v_half_len v) (v_wheel_base v) (v_acc v) (v_pathfind v) (v_pos v) (v_vel v)
      (v_stop_cnt v) (v_route v) (v_entered v) (option_map (fun _ => 0) (v_queued v)) (v_flag v) (v_can_exit v) (v_lane_change v)
      (v_world_pos v) (v_world_dir v) (v_rear_lats v) (v_rear_coords v).
  Definition vehicle_on (s : sim) (k : key) : option vehicle :=
    match sm_get (s_vehicles s) k with Some v => if on_part v then Some v else None | None => None end.

  (** The part is the same in both simulations: its links, the vehicles on it (the numbers of the waiting ones are in the same order),
      which of them are frozen, its crossings, its traffic lights, and the time since the last updates. *)
  Record same_part (s t : sim) : Prop := {
    sp_links : forall k, part k = true -> sm_get (s_links s) k = sm_get (s_links t) k;
    sp_vehicles : forall k, option_map unnumbered (vehicle_on s k) = option_map unnumbered (vehicle_on t k);
    sp_order : forall k1 k2 v1 v2 w1 w2 a1 a2 b1 b2, vehicle_on s k1 = Some v1 -> vehicle_on s k2 = Some v2 -> vehicle_on t k1 = Some w1 -> vehicle_on t k2 = Some w2 ->
      v_queued v1 = Some a1 -> v_queued v2 = Some a2 -> v_queued w1 = Some b1 -> v_queued w2 = Some b2 -> (a1 < a2 <-> b1 < b2);
    sp_frozen : forall k v, vehicle_on s k = Some v -> get_vehicle_frozen s k = get_vehicle_frozen t k;
    sp_conflicts : filter (fun c => part (cpl_link (cp_a c))) (s_conflicts s) = filter (fun c => part (cpl_link (cp_a c))) (s_conflicts t);
    sp_lights : forall k l, light_on_part l = true -> (sm_get (s_lights s) k = Some l <-> sm_get (s_lights t) k = Some l);
    sp_acc : s_acc_update s = s_acc_update t;
    sp_lc : s_lc_update s = s_lc_update t
  }.

  (** Ties between routes of equal cost in the part are broken the same way. *)
  Definition same_ties (e1 e2 : env) : Prop :=
    forall a b src dst n, (forall k, part k = true -> sm_get a k = sm_get b k) -> part src = true -> e_pick e1 a src dst n = e_pick e2 b src dst n.

  (** A call that concerns only the rest of the network. *)
  Definition elsewhere (s : sim) (o : op) : Prop :=
    match o with
    | OAddLink _ _ => part (sm_next_key (s_links s)) = false
    | OAddGroup ids _ => forall x, In x ids -> part x = false
    | OAddConvergence a b | OAddConnection a b => part a = false /\ part b = false
    | OAddLight calls => forall l, lrun calls = Ok l -> light_on_part l = false
    | OAddVehicle _ l => part l = false
    | ORemoveVehicle v | OSetFrozen v _ | OSetDestination v _ => vehicle_on s v = None
    | OSetControl l _ => part l = false
    | OLaneChange v l _ => vehicle_on s v = None /\ part l = false
    | ORandomise _ | OStep _ => False
    end.

  (** A call that concerns the part: a step, or a call about its links and vehicles. *)
  Definition concerns (s : sim) (o : op) : Prop :=
    match o with
    | OStep _ | ORandomise _ => True
    | OSetControl l _ => part l = true
    | OSetFrozen v _ | ORemoveVehicle v => vehicle_on s v <> None
    | OSetDestination v d => vehicle_on s v <> None /\ (d = null_key \/ part d = true)
    | OLaneChange v l _ => vehicle_on s v <> None /\ part l = true
    | _ => False
    end.

  (** The simulation gets the calls [ops], which concern the part, and in between any calls that do not. *)
  Inductive goes_on (e : env) : sim -> list op -> sim -> Prop :=
  | go_nil s : goes_on e s [] s
  | go_call s o s1 ops s' : concerns s o -> exec e s o = Ok s1 -> goes_on e s1 ops s' -> goes_on e s (o :: ops) s'
  | go_else s o s1 ops s' : elsewhere s o -> exec e s o = Ok s1 -> goes_on e s1 ops s' -> goes_on e s ops s'.
End SpecLocal.
