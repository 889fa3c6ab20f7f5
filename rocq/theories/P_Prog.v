(** * The simulation always goes on (C65) *)
From Coq Require Import List Bool ZArith NArith Arith Lia Reals Lra.
From Verif Require Import Arith RealArith Base BaseProofs SlotMap Util Geom Light Accel Net Path Vehicle LinkOps Sim SpecSim SlotMapProofs Safe NetInv SimInv AccSafe SimSafe StepSafe OpSafe Evo StepEvo SimProofs StepProofs NetEvo RFacts SpecRoute RouteProofs RouteEvo LightProofs P_Net P_Route EndsProofs P_Ends ProgProofs SpecProg.
Import ListNotations.
Local Open Scope R_scope.

Lemma lanes_net {A : Arith} e (s s1 : sim) : Inv s -> calculate_lane_changes e s = Ok s1 -> same_net (s_links s) (s_links s1).
Proof. intros [St0 F0 LW LI CP FR] H1. apply (safe_ok (fun _ => True) _ _ _ (calculate_lane_changes_safe (fun _ => True) e s St0 F0 (fun _ _ => Logic.I)) H1). Qed.
Lemma pre_net {A : Arith} e (s : sim) dt s4 : Inv s -> pre_advance e s dt = Ok s4 -> same_net (s_links s) (s_links s4).
Proof.
  intros [St0 F0 LW LI CP FR] H. unfold pre_advance in H. bok H s1 H1. bok H s2 H2. bok H s3 H3.
  destruct (safe_ok (fun _ => True) _ _ _ (calculate_lane_changes_safe (fun _ => True) e s St0 F0 (fun _ _ => Logic.I)) H1) as (St1 & F1 & S1 & Sh1 & A1 & A2 & A3 & A4 & A5).
  assert (Forall (fun c => valid (s_links s1) (cpl_link (cp_a c)) /\ valid (s_links s1) (cpl_link (cp_b c))) (s_conflicts s1)) as CP1.
  { rewrite A2. eapply Forall_impl; [|exact CP]. simpl. intros c (Ha & Hb). split; apply (same_net_valid _ _ _ S1); auto. }
  destruct (safe_ok (fun _ => True) _ _ _ (sim_apply_accelerations_safe (fun _ => True) e s1 St1 F1 (fun _ _ => Logic.I) CP1) H2) as (St2 & F2 & S2 & L2 & Sh2 & K2 & B1 & B2 & B3 & B4 & B5).
  assert (forall k l, sm_get (s_lights s2) k = Some l -> light_ok l) as LI2 by (rewrite B1, A1; auto).
  destruct (safe_ok (fun _ => True) _ _ _ (update_lights_safe (fun _ => True) s2 dt LI2 (fun _ _ => Logic.I)) H3) as (S3 & L3 & Sh3 & LI3 & Es3).
  unfold sim_integrate in H. bok H r Hr. injection H as <-. cbn [s_links]. eapply same_net_trans; [exact S1|]. eapply same_net_trans; [exact S2|exact S3].
Qed.

(** ** Every step ends *)
Theorem C65_step_ends :
  forall (s : @sim RA) dt pick, reachable s -> positive_roads s ->
    exists n r, r <> OutOfFuel /\ forall fuel, (n <= fuel)%nat -> step (Env fuel pick) s dt = r.
Proof.
  intros s dt pick Rc P. pose proof (reachable_Inv _ Rc) as Iv. destruct (reachable_history _ Rc) as (ops & Hist).
  assert (forall links, same_net (s_links s) links -> costs_pos links) as C.
  { intros links Sn k l G. exact (costs_ok ops s Hist RA_cast links Sn k l G). }
  assert (settles (fun n => pre_advance (Env n pick) s dt)) as S1.
  { unfold pre_advance. apply (settles_bind' (fun n => calculate_lane_changes (Env n pick) s) (fun n s1 => bind (sim_apply_accelerations (Env n pick) s1) (fun s => bind (update_lights s dt) (fun s => sim_integrate s dt)))).
    - apply settles_lane_changes. apply C. apply same_net_refl.
    - intros n s1 H1. apply (settles_bind (fun n => sim_apply_accelerations (Env n pick) s1)).
      + destruct (C50_update_ends s s1 (Env n pick) Rc P H1) as (m & r & Hr & Hm). exists m, r. split; [exact Hr|]. intros fuel L. apply Hm. exact L.
      + intros s2. apply settles_fin. apply fin_bind; [apply fin_update_lights|]. intros s3. apply fin_integrate. }
  assert (forall n, step (Env n pick) s dt = bind (pre_advance (Env n pick) s dt) (fun s4 => bind (advance_vehicles (Env n pick) s4) (fun s5 => bind (update_vehicle_coords s5) (fun s => Ok (Sim (s_links s) (s_lights s) (s_conflicts s) (s_vehicles s) (s_frozen s) (S (s_frame s)) (s_seq s) (nadd (s_acc_update s) dt) (nadd (s_lc_update s) dt)))))) as E.
  { intros n. unfold step, pre_advance. destruct (calculate_lane_changes (Env n pick) s) as [s1| |]; [|reflexivity|reflexivity]. cbn [bind]. destruct (sim_apply_accelerations (Env n pick) s1) as [s2| |]; [|reflexivity|reflexivity]. cbn [bind].
    destruct (update_lights s2 dt) as [s3| |]; [|reflexivity|reflexivity]. reflexivity. }
  assert (settles (fun n => step (Env n pick) s dt)) as S2; [|exact S2].
  apply (settles_late _ _ 0 (fun fuel _ => E fuel)). apply (settles_bind' (fun n => pre_advance (Env n pick) s dt)); [exact S1|].
  intros n s4 H4. apply (settles_bind (fun n => advance_vehicles (Env n pick) s4)); [apply settles_advance; apply C; exact (pre_net _ _ _ _ Iv H4)|].
  intros s5. apply settles_fin. apply fin_bind; [apply fin_coords|discriminate].
Qed.
Print Assumptions C65_step_ends.

(** ** Every step returns *)
Lemma no_cause (s : @sim RA) dt p : reachable s -> plain_groups s -> good_lights s -> small_costs s -> ~ cause s (@OStep RA dt) p.
Proof.
  intros Rc Gr Li Co [C|(k & l & G & C)].
  - destruct p; simpl in C; try contradiction.
    + destruct C as (k & l & g & G & Eg & N). destruct (Gr k l G) as (_ & K). apply N. apply (K g Eg).
    + destruct C as (k & l & x & G & Hin & _). destruct (Gr k l G) as (E & _). rewrite E in Hin. destruct Hin.
    + destruct C as (a & b & (l & G & Hin) & _). destruct (Gr a l G) as (E & _). rewrite E in Hin. destruct Hin.
    + destruct C as (x & N). discriminate N.
    + destruct C as (k & l & g & q & G & Eg & Hq & N). destruct (Gr k l G) as (_ & K). destruct (K g Eg) as (_ & K2). exact (K2 q Hq N).
    + destruct C as (k & l & G & [N|N]); [|pose proof (Co k l G); lia]. destruct (reachable_history _ Rc) as (ops & Hist). pose proof (costs_ok ops s Hist RA_cast _ (same_net_refl _) k l G). lia.
  - destruct (Li k l G) as (L1 & L2 & L3). destruct p; try contradiction; [|lia]. destruct C as (lid & Hin & N). apply (L3 lid Hin). unfold link_at. unfold valid, sm_mem in N. destruct (sm_get (s_links s) lid); [exfalso; apply N|]; reflexivity.
Qed.
Theorem C65_step_returns :
  forall (s : @sim RA) dt pick, reachable s -> positive_roads s -> plain_groups s -> good_lights s -> small_costs s ->
    exists n s', forall fuel, (n <= fuel)%nat -> step (Env fuel pick) s dt = Ok s'.
Proof.
  intros s dt pick Rc P Gr Li Co. destruct (C65_step_ends s dt pick Rc P) as (n & r & Hr & H). destruct r as [s'|p|]; [eauto| |contradiction].
  exfalso. apply (no_cause s dt p Rc Gr Li Co). eapply safe_panic; [apply (exec_safe (Env n pick) s (@OStep RA dt)), reachable_Inv; exact Rc|exact (H n (le_n _))].
Qed.
Print Assumptions C65_step_returns.

(** ** And so does every number of steps *)
Lemma light_step_static {A : Arith} (l : light) dt l' : light_step l dt = Ok l' -> l_phases l' = l_phases l /\ length (l_movements l') = length (l_movements l) /\ l_mlinks l' = l_mlinks l.
Proof.
  intros H. apply light_step_ok in H. destruct H as (p0 & p & _ & _ & _ & _ & E1 & E2 & E3). split; [exact E1|]. split; [|exact E2]. rewrite E3. unfold step_movements. rewrite map_length, enumerate_length, map_length, enumerate_length. reflexivity.
Qed.
Lemma step_keeps (s : @sim RA) e dt s' : reachable s -> step e s dt = Ok s' -> positive_roads s -> plain_groups s -> good_lights s -> small_costs s ->
  positive_roads s' /\ plain_groups s' /\ good_lights s' /\ small_costs s'.
Proof.
  intros Rc H P Gr Li Co. pose proof (reachable_Inv _ Rc) as Iv. pose proof (step_same_net _ _ _ _ Iv H) as Sn.
  assert (forall k l, link_at s' k = Some l -> exists l0, link_at s k = Some l0 /\ lk_static l0 = lk_static l) as K. { intros k l G. exact (same_net_get _ _ _ _ Sn G). }
  split; [|split; [|split]].
  - intros k l G. destruct (K k l G) as (l0 & G0 & E). unfold lk_static in E. injection E as F1 F2 F3 F4 F5 F6 F7 F8 F9. specialize (P k l0 G0). unfold lk_length in *. congruence.
  - intros k l G. destruct (K k l G) as (l0 & G0 & E). unfold lk_static in E. injection E as F1 F2 F3 F4 F5 F6 F7 F8 F9. specialize (Gr k l0 G0). destruct Gr as (G1 & G2). split; [congruence|]. intros g Eg. apply G2. congruence.
  - intros k l G. destruct (step_lights _ _ _ _ _ _ Iv H G) as (l0 & G0 & E). destruct (light_step_static _ _ _ E) as (E1 & E2 & E3). destruct (Li k l0 G0) as (L1 & L2 & L3). rewrite E1, E2, E3. split; [exact L1|]. split; [exact L2|].
    intros lid Hin. specialize (L3 lid Hin). unfold link_at in *. pose proof (same_net_valid _ _ lid Sn) as V. unfold valid, sm_mem in V. destruct (sm_get (s_links s) lid); [|contradiction]. destruct (sm_get (s_links s') lid); [discriminate|]. destruct V as (V & _). discriminate (V eq_refl).
  - intros k l G. destruct (K k l G) as (l0 & G0 & E). unfold lk_static in E. injection E as F1 F2 F3 F4 F5 F6 F7 F8 F9. rewrite <- F9, <- (shape_keys _ _ (sn_shape _ _ Sn)). exact (Co k l0 G0).
Qed.
Theorem C65_goes_on :
  forall (dts : list R) (s : @sim RA) pick, reachable s -> positive_roads s -> plain_groups s -> good_lights s -> small_costs s ->
    exists n s', forall fuel, (n <= fuel)%nat -> run (Env fuel pick) s (map (@OStep RA) dts) = Ok s'.
Proof.
  induction dts as [|dt dts IH]; intros s pick Rc P Gr Li Co; [exists 0%nat, s; reflexivity|].
  destruct (C65_step_returns s dt pick Rc P Gr Li Co) as (n & s1 & H). pose proof (H n (le_n _)) as H1. destruct (step_keeps s _ dt s1 Rc H1 P Gr Li Co) as (P1 & Gr1 & Li1 & Co1).
  destruct (IH s1 pick) as (m & s' & Hm); auto; [exact (reach_call (Env n pick) s (@OStep RA dt) s1 Rc H1)|].
  exists (Nat.max n m), s'. intros fuel L. cbn [map run exec]. rewrite (H fuel) by lia. cbn [bind]. apply Hm. lia.
Qed.
Print Assumptions C65_goes_on.

(** ** Sending a vehicle to an existing link returns too *)
Theorem C65_destination_returns :
  forall (s : @sim RA) k d pick, reachable s -> small_costs s -> vehicle_at s k <> None -> link_at s d <> None ->
    exists n s', forall fuel, (n <= fuel)%nat -> exec (Env fuel pick) s (OSetDestination k d) = Ok s'.
Proof.
  intros s k d pick Rc Co Gk Gd. destruct (reachable_history _ Rc) as (ops & Hist).
  assert (settles (fun n => exec (Env n pick) s (OSetDestination k d))) as S1.
  { cbn [exec]. unfold set_vehicle_destination. apply settles_bind_fin; [apply fin_get_vehicle|]. intros v _. unfold set_destination, pf_set_destination.
    apply (settles_bind (fun n => bind (bind (reroute (Env n pick) (s_links s) (PF (pf_src (v_pathfind v)) d (pf_matrix (v_pathfind v)) (pf_paths (v_pathfind v)))) (make_paths (s_links s))) (fun pf => Ok (set_can_exit (set_pathfind v pf) false)))
      (fun _ v => Ok (with_vehicles s (sm_set (s_vehicles s) k v)))); [|intros w; apply settles_ok].
    apply (settles_bind (fun n => bind (reroute (Env n pick) (s_links s) (PF (pf_src (v_pathfind v)) d (pf_matrix (v_pathfind v)) (pf_paths (v_pathfind v)))) (make_paths (s_links s)))); [|intros pf; apply settles_ok].
    apply (settles_bind (fun n => reroute (Env n pick) (s_links s) _)); [|intros pf; apply settles_fin; apply fin_make_paths].
    apply settles_reroute. intros x l G. exact (costs_ok ops s Hist RA_cast _ (same_net_refl _) x l G). }
  destruct S1 as (n & r & Hr & H). destruct r as [s'|p|]; [eauto| |contradiction].
  exfalso. assert (cause s (OSetDestination k d) p) as C by (eapply safe_panic; [apply (exec_safe (Env n pick) s (OSetDestination k d)), reachable_Inv; exact Rc|exact (H n (le_n _))]).
  destruct C as [(_ & C)|[(_ & C)|(_ & C)]].
  - apply Gk. exact C.
  - apply C. unfold valid. unfold link_at in Gd. destruct (sm_get (s_links s) d) as [l|] eqn:G; [|contradiction]. apply sm_mem_get. eauto.
  - destruct C as (x & l & G & [N|N]); [|pose proof (Co x l G); lia]. pose proof (costs_ok ops s Hist RA_cast _ (same_net_refl _) x l G). lia.
Qed.
Print Assumptions C65_destination_returns.
