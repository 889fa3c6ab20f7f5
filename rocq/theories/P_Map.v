(** * C88: routes depend on the road map only *)
From Coq Require Import List Bool ZArith NArith Arith Lia.
From Verif Require Import Arith F64 Base BaseProofs SlotMap SlotMapProofs Util Geom Light Accel Net Path Vehicle LinkOps Sim SimExample SpecSim SpecMap Safe SimInv OpSafe SimProofs Evo StepEvo RoadMap P_Motion.
Import ListNotations.

Section P_Map.
  Context {A : Arith}.

  (** In two simulations with the same road map, a vehicle that knows the same of its way learns the same, or the same goes wrong, when its destination
      is set.  The traffic, the controls, the lights and the crossings may be entirely different. *)
  Theorem C88_destination e1 e2 s t k d v w : same_map (s_links s) (s_links t) -> ties_by_map e1 e2 ->
    vehicle_at s k = Some v -> vehicle_at t k = Some w -> same_way v w ->
    match exec e1 s (OSetDestination k d), exec e2 t (OSetDestination k d) with
    | Ok s', Ok t' => exists v' w', vehicle_at s' k = Some v' /\ vehicle_at t' k = Some w' /\ same_way v' w'
    | Panic p, Panic q => p = q
    | OutOfFuel, OutOfFuel => True
    | _, _ => False
    end.
  Proof.
    intros M T Gv Gw W. unfold vehicle_at in *. cbn [exec]. unfold set_vehicle_destination, get_vehicle. rewrite Gv, Gw. cbn [of_option bind]. unfold set_destination. rewrite W, (destination_same _ _ M e1 e2 (v_pathfind w) d T).
    destruct (pf_set_destination e2 (s_links t) (v_pathfind w) d) as [pf|p|]; cbn [bind]; auto. eexists _, _. cbn [with_vehicles s_vehicles]. rewrite !sm_get_set, !key_eqb_refl.
    replace (sm_mem (s_vehicles s) k) with true by (symmetry; apply sm_mem_get; eauto). replace (sm_mem (s_vehicles t) k) with true by (symmetry; apply sm_mem_get; eauto). cbn [andb]. split; [reflexivity|]. split; [reflexivity|]. reflexivity.
  Qed.

  (** Nothing but adding links, groups and connections changes the map. *)
  Theorem C88_map_stays s ops t : reachable s -> history s ops t -> List.Forall keeps_map ops -> same_map (s_links s) (s_links t).
  Proof.
    intros Re H. induction H as [s|e s o s1 ops t H1 Hh IH]; intros F; [apply same_map_refl|]. inversion F as [|? ? F1 F2]; subst. eapply same_map_trans; [exact (map_kept e s o s1 (reachable_Inv _ Re) F1 H1)|]. apply IH; [eapply reach_call; eauto|exact F2].
  Qed.

  (** So whatever happens in between, a vehicle that has not moved on and has had no destination set finds the same way. *)
  Theorem C88_traffic e s ops t k d v w : (forall a b src dst n, same_map a b -> e_pick e a src dst n = e_pick e b src dst n) -> reachable s -> history s ops t -> List.Forall keeps_map ops ->
    vehicle_at s k = Some v -> vehicle_at t k = Some w -> same_way v w ->
    forall s', exec e s (OSetDestination k d) = Ok s' ->
    exists t' v' w', exec e t (OSetDestination k d) = Ok t' /\ vehicle_at s' k = Some v' /\ vehicle_at t' k = Some w' /\ same_way v' w'.
  Proof.
    intros T Re H F Gv Gw W s' E. pose proof (C88_destination e e s t k d v w (C88_map_stays s ops t Re H F) (conj eq_refl T) Gv Gw W) as D. rewrite E in D. destruct (exec e t (OSetDestination k d)) as [t'|p|]; [|destruct D..]. destruct D as (v' & w' & D1 & D2 & D3). eauto 10.
  Qed.
End P_Map.
Print Assumptions C88_destination.
Print Assumptions C88_map_stays.
Print Assumptions C88_traffic.

(** Two ways lead from the first link to the last.  In one simulation there is only the car; in the other one of the ways is closed and has other cars on
    it, and a step has been made.  The car plans the same way. *)
Definition map_roads : list (@op F64) :=
  [ OAddLink (ex_line 0 0 40 0) (fz 15); OAddLink (ex_line 40 0 80 0) (fz 15); OAddLink (ex_line 40 0 80 0) (fz 5); OAddLink (ex_line 80 0 120 0) (fz 15);
    OAddConnection (nth_id 0) (nth_id 1); OAddConnection (nth_id 0) (nth_id 2); OAddConnection (nth_id 1) (nth_id 3); OAddConnection (nth_id 2) (nth_id 3);
    OAddVehicle ex_car (nth_id 0) ].
Definition map_traffic : list (@op F64) := [ OAddVehicle ex_car (nth_id 1); OStep (fz 1); OAddVehicle ex_car (nth_id 1); OSetControl (nth_id 1) CClosed ].
Definition no_way_yet (s : @sim F64) (k src : key) : bool :=
  match sm_get (s_vehicles s) k with
  | Some v => key_eqb (pf_src (v_pathfind v)) src && key_eqb (pf_dst (v_pathfind v)) null_key && match pf_matrix (v_pathfind v), pf_paths (v_pathfind v) with [], [] => true | _, _ => false end
  | None => false
  end.
Lemma no_way_yet_ok s k src : no_way_yet s k src = true -> exists v, sm_get (s_vehicles s) k = Some v /\ v_pathfind v = PF src null_key [] [].
Proof.
  unfold no_way_yet. destruct (sm_get (s_vehicles s) k) as [v|]; [|discriminate]. intros H. exists v. split; [reflexivity|]. destruct (v_pathfind v) as [a d m p]. cbn [pf_src pf_dst pf_matrix pf_paths] in H. apply andb_prop in H. destruct H as (H & H3). apply andb_prop in H. destruct H as (H1 & H2). apply key_eqb_eq in H1. apply key_eqb_eq in H2. destruct m; [|discriminate H3]. destruct p; [|discriminate H3]. congruence.
Qed.
Definition has_way (s : @sim F64) (k : key) : bool := match sm_get (s_vehicles s) k with Some v => match pf_paths (v_pathfind v) with [] => false | _ => true end | None => false end.
Lemma map_ok : okb (run ex_env sim_new map_roads) (fun s => no_way_yet s car1 (nth_id 0) && okb (exec ex_env s (OSetDestination car1 (nth_id 3))) (fun s' => has_way s' car1) &&
  okb (run ex_env s map_traffic) (fun t => no_way_yet t car1 (nth_id 0))) = true.
Proof. vm_compute. reflexivity. Qed.
Example C88_example : exists (s s' t : @sim F64) v w, (forall a b src dst n, same_map a b -> e_pick ex_env a src dst n = e_pick ex_env b src dst n) /\ reachable s /\ history s map_traffic t /\ List.Forall keeps_map map_traffic /\
  vehicle_at s car1 = Some v /\ vehicle_at t car1 = Some w /\ same_way v w /\ exec ex_env s (OSetDestination car1 (nth_id 3)) = Ok s' /\ has_way s' car1 = true.
Proof.
  pose proof map_ok as H. apply okb_ok in H. destruct H as (s & H0 & H). apply andb_prop in H. destruct H as (H & Ht). apply andb_prop in H. destruct H as (Hv & Hd). apply okb_ok in Hd. destruct Hd as (s' & Hd & Hw). apply okb_ok in Ht. destruct Ht as (t & Ht & Hn).
  apply no_way_yet_ok in Hv. destruct Hv as (v & Gv & Ev). apply no_way_yet_ok in Hn. destruct Hn as (w & Gw & Ew). exists s, s', t, v, w. split; [reflexivity|]. split; [exact (run_reachable _ _ _ H0)|]. split; [exact (run_history _ _ _ _ Ht)|]. split; [repeat constructor|].
  split; [exact Gv|]. split; [exact Gw|]. split; [unfold same_way; congruence|]. split; [exact Hd|exact Hw].
Qed.
