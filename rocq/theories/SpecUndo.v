(** * Specification: calls that are taken back *)
From Coq Require Import List Bool ZArith NArith Arith.
From Verif Require Import Arith Base SlotMap Util Geom Light Accel Net Path Vehicle LinkOps Sim SpecSim SpecLocal.
Import ListNotations.

Section SpecUndo.
  Context {A : Arith}.

  (** Calls of which the last takes back the first: a vehicle is added and removed again, a vehicle is frozen (or released) and released (or frozen)
      again, the control of a link is changed and set to what it was. *)
  Inductive taken_back (s : sim) : list op -> Prop :=
  | tb_vehicle a l id : (forall e s1 id1, add_vehicle e s a l = Ok (s1, id1) -> id1 = id) -> taken_back s [OAddVehicle a l; ORemoveVehicle id]
  | tb_frozen v b : get_vehicle_frozen s v = b -> taken_back s [OSetFrozen v (negb b); OSetFrozen v b]
  | tb_control k l c : link_at s k = Some l -> taken_back s [OSetControl k c; OSetControl k (lk_control l)].

  (** The two simulations are the same, as far as a user can see: the links and the vehicles listed on them, the vehicles (up to the numbers they draw
      when they join a queue), which vehicles are frozen, the traffic lights that control links, the number of steps. *)
  Record looks_same (s t : sim) : Prop := {
    ls_links : forall k, link_at s k = link_at t k;
    ls_vehicles : forall k, option_map unnumbered (vehicle_at s k) = option_map unnumbered (vehicle_at t k);
    ls_frozen : forall k, vehicle_at s k <> None -> get_vehicle_frozen s k = get_vehicle_frozen t k;
    ls_lights : forall k l, l_mlinks l <> [] -> (sm_get (s_lights s) k = Some l <-> sm_get (s_lights t) k = Some l);
    ls_frame : s_frame s = s_frame t
  }.

  (** A call that adds nothing. *)
  Definition adds_nothing (o : op) : Prop :=
    match o with
    | OAddLink _ _ | OAddGroup _ _ | OAddConvergence _ _ | OAddConnection _ _ | OAddLight _ | OAddVehicle _ _ => False
    | _ => True
    end.

  (** Ties between routes of equal cost are broken the same way if the links are the same. *)
  Definition ties_by_links (e1 e2 : env) : Prop :=
    forall a b src dst n, (forall k, sm_get a k = sm_get b k) -> e_pick e1 a src dst n = e_pick e2 b src dst n.
End SpecUndo.
