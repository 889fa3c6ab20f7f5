(** * What the simulation properties talk about

    A simulation is used through the calls [op] of Sim.v and observed through the lookups
    [sm_get (s_links s)] ([get_link]), [sm_get (s_vehicles s)] ([get_vehicle]), the iterators
    [sm_entries] and the accessors of links and vehicles. *)
From Coq Require Import List Bool ZArith NArith Arith.
From Verif Require Import Arith Base SlotMap Util Geom Light Accel Net Path Vehicle LinkOps Sim.
Import ListNotations.

Section SpecSim.
  Context {A : Arith}.

  (** The states a history of API calls, each of which returned, can lead to.  The open parts of
      the model ([env]: loop bounds and heap ties) may differ from call to call. *)
  Inductive reachable : sim -> Prop :=
  | reach_new : reachable sim_new
  | reach_call e s o s' : reachable s -> exec e s o = Ok s' -> reachable s'.

  (** A link that exists. *)
  Definition valid (links : linkset) (k : key) : Prop := sm_mem links k = true.
  (** [b] is in [links_out()] of [a]. *)
  Definition succ_of (links : linkset) (a b : key) : Prop :=
    exists l, sm_get links a = Some l /\ In b (lk_out l).
  (** [b] is in [lane_changes()] of [a]. *)
  Definition chg_of (links : linkset) (a b : key) : Prop :=
    exists l, sm_get links a = Some l /\ In b (lk_changes l).
  (** A chain of existing links along [links_out()]. *)
  Fixpoint chain (links : linkset) (r : list key) : Prop :=
    match r with
    | [] => True
    | a :: r' => valid links a /\ match r' with [] => True | b :: _ => succ_of links a b end /\ chain links r'
    end.

  (** Link [lid] lists vehicle [k] (the [vehicles] of the link). *)
  Definition lists (links : linkset) (lid k : key) : Prop :=
    exists l, sm_get links lid = Some l /\ In k (lk_vehicles l).

  (** ** Causes of panics (C19) *)

  (** The total cost of a route may exceed the range of [usize]: of a route that goes through no link
      twice only if as many links as there are, all as expensive as the most expensive one, cost
      too much. *)
  Definition costs_too_high (links : linkset) : Prop :=
    exists k l, sm_get links k = Some l /\ (lk_cost l < 0 \/ usize_max < Z.of_nat (length (sm_keys links)) * lk_cost l)%Z.
  (** There are values that cannot be compared. *)
  Definition has_nan : Prop := exists x : num, nnan x = true.

  (** There is a point beside which no place on link [b] is found. *)
  Definition not_found (links : linkset) (b : key) : Prop :=
    exists l point dir, sm_get links b = Some l /\ inverse_sample (lk_curve l) point dir = Ok None.

  (** Causes found in the network when vehicles are routed or accelerations computed. *)
  Definition net_cause (links : linkset) (p : panic) : Prop :=
    match p with
    | POverflow => costs_too_high links
    | PProjection => (* the place in the other lane is not found *)
        exists a b, chg_of links a b /\ not_found links b
    | PNanCompare => has_nan
    | PNotInGroup => (* a lane change into a link outside of the link's present group *)
        exists k l x, sm_get links k = Some l /\ In x (lk_changes l) /\
                      match lk_group l with Some g => ~ In x (g_links g) | None => True end
    | PIndex => (* a group in which a link occurs twice *)
        exists k l g, sm_get links k = Some l /\ lk_group l = Some g /\ ~ NoDup (g_links g)
    | PEmptySamples => (* a pair of links whose projection has no samples *)
        exists k l g p, sm_get links k = Some l /\ lk_group l = Some g /\ In p (g_projs g) /\ pj_samples p = []
    | _ => False
    end.

  (** Causes found in the traffic lights. *)
  Definition light_cause (s : sim) (p : panic) : Prop :=
    exists k l, sm_get (s_lights s) k = Some l /\
      match p with
      | PNoPhase => l_phases l = []
      | PShift => 64 < length (l_movements l)
      | PBadLink => exists lid, In lid (map snd (l_mlinks l)) /\ ~ valid (s_links s) lid
      | _ => False
      end.

  (** Why a call may panic. *)
  Definition cause (s : sim) (o : op) (p : panic) : Prop :=
    match o with
    | OAddLink _ _ => p = PNoSegments
    | OAddGroup ids _ =>
        match p with
        | PBadLink => exists k, In k ids /\ ~ valid (s_links s) k
        | PGroupSmall => length ids < 2
        | PShift => 16 < length ids
        | PLaneChangesFull => True
        | _ => False
        end
    | OAddConvergence _ _ => p = PNanCompare /\ has_nan
    | OAddConnection f t => p = PBadLink /\ (~ valid (s_links s) f \/ ~ valid (s_links s) t)
    | OAddLight calls => lrun calls = Panic p
    | OAddVehicle _ l => p = PBadLink /\ ~ valid (s_links s) l
    | ORemoveVehicle _ => False
    | ORandomise _ => False
    | OSetFrozen _ _ => False
    | OSetDestination v d =>
        p = PBadVehicle /\ sm_get (s_vehicles s) v = None \/
        p = PBadLink /\ ~ valid (s_links s) d \/
        p = POverflow /\ costs_too_high (s_links s)
    | OSetControl l _ => p = PBadLink /\ ~ valid (s_links s) l
    | OLaneChange v l _ =>
        p = PBadVehicle /\ sm_get (s_vehicles s) v = None \/
        p = PBadLink /\ ~ valid (s_links s) l \/
        p = PNanCompare /\ has_nan \/ p = PProjection /\ not_found (s_links s) l \/ p = POverflow /\ costs_too_high (s_links s)
    | OStep _ => net_cause (s_links s) p \/ light_cause s p
    end.
End SpecSim.

Section History.
  Context {A : Arith}.

  (** [history s ops s']: the calls [ops], each of which returned, lead from [s] to [s']. *)
  Inductive history : sim -> list op -> sim -> Prop :=
  | hist_nil s : history s [] s
  | hist_call e s o s1 ops s' : exec e s o = Ok s1 -> history s1 ops s' -> history s (o :: ops) s'.

  (** [get_vehicle(id)] and [get_link(id)]. *)
  Definition vehicle_at (s : sim) (id : key) : option vehicle := sm_get (s_vehicles s) id.
  Definition link_at (s : sim) (id : key) : option link := sm_get (s_links s) id.

  (** The first four of the six phases of a step: lane changes, accelerations, traffic lights and
      the integration of positions (simulation.rs:184-187).  The vehicles are then as they are when
      it is decided which of them go on to another link. *)
  Definition pre_advance (e : env) (s : sim) (dt : num) : res sim :=
    bind (calculate_lane_changes e s) (fun s =>
    bind (sim_apply_accelerations e s) (fun s =>
    bind (update_lights s dt) (fun s => sim_integrate s dt))).
End History.

Section Ids.
  Context {A : Arith}.
  (** The link and vehicle ids passed to a call exist. *)
  Definition ids_exist (s : sim) (o : op) : Prop :=
    match o with
    | OAddGroup ids _ => forall k, In k ids -> link_at s k <> None
    | OAddConnection f t => link_at s f <> None /\ link_at s t <> None
    | OAddVehicle _ l => link_at s l <> None
    | OSetDestination v d => vehicle_at s v <> None /\ link_at s d <> None
    | OSetControl l _ => link_at s l <> None
    | OLaneChange v l _ => vehicle_at s v <> None /\ link_at s l <> None
    | _ => True
    end.
  (** So do the links controlled by the traffic lights. *)
  Definition light_links_exist (s : sim) : Prop :=
    forall k l lid, sm_get (s_lights s) k = Some l -> In lid (map snd (l_mlinks l)) -> link_at s lid <> None.
  (** Panics that mean the simulation lost track of an object or of its own state. *)
  Definition lookup_failure (p : panic) : Prop :=
    match p with
    | PBadLink | PBadVehicle | PEmptyRoute | PUnderflow | PUnreachable | PUnchecked | PPathFull | PEmptyTable => True
    | _ => False
    end.
End Ids.

Section Schedule.
  Context {A : Arith}.
  (** The number a vehicle waits with ([get_route] reports it), if it waits. *)
  Definition waits_with (s : sim) (k : key) (q : nat) : Prop := exists v, vehicle_at s k = Some v /\ v_queued v = Some q.

  (** The time steps of the calls of [step] in a history. *)
  Definition time_steps (ops : list op) : list num := flat_map (fun o => match o with OStep dt => [dt] | _ => [] end) ops.
  (** A clock that is set to zero at the start of a step if it has reached [limit], and then adds
      the time step. *)
  Fixpoint clock (limit t : num) (dts : list num) : num :=
    match dts with
    | [] => t
    | dt :: dts => clock limit (nadd (if nltb t limit then t else n0) dt) dts
    end.
  Definition due (limit : num) (ops : list op) : bool := negb (nltb (clock limit n0 (time_steps ops)) limit).

  (** The simulation with other accelerations. *)
  Definition forget_acc (f : key -> num) (s : sim) : sim :=
    with_vehicles s (sm_map (fun v => set_acc v (am_set_acc (v_acc v) (f (v_id v)))) (s_vehicles s)).

  (** Movement [i] of the light controls the link (see C06_controls). *)
  Definition controls (l : light) (i : nat) (lid : key) : Prop := In (i, lid) (l_mlinks l).
  (** The links given to the [i]-th call of [add_movement]. *)
  Definition movement_links (ops : list lop) : list (list key) := flat_map (fun o => match o with LMovement _ _ _ ks => [ks] | _ => [] end) ops.
End Schedule.
