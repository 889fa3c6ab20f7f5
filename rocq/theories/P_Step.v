(** * Traffic lights in a simulation, waiting numbers and the refresh schedule (C06, C22, C24) *)
From Coq Require Import List Bool ZArith NArith Arith Lia.
From Verif Require Import Arith F64 Base BaseProofs SlotMap Util Geom Light Accel Net Path Vehicle LinkOps Sim SpecLight SpecSim SlotMapProofs Safe NetInv SimInv StepSafe OpSafe Evo StepEvo SimProofs StepProofs AccFresh SimExample P_Sim.
Import ListNotations.

(** ** C06: links obey their traffic light after each step *)
Theorem C06_links_obey_light :
  forall (A : Arith) e s dt s' k l i lid, reachable s -> step e s dt = Ok s' ->
    sm_get (s_lights s') k = Some l -> controls l i lid ->
    (* no other movement controls the link *)
    (forall k2 l2 i2, sm_get (s_lights s') k2 = Some l2 -> controls l2 i2 lid -> k2 = k /\ i2 = i) ->
    exists lk, link_at s' lid = Some lk /\ lk_control lk = match signal l i with Some Green => COpen | _ => CClosed end.
Proof.
  intros A e s dt s' k l i lid R H G C U. pose proof (step_control _ _ _ _ (reachable_Inv _ R) H _ _ _ _ G C U) as K.
  unfold ctl in K. unfold link_at. destruct (sm_get (s_links s') lid) as [lk|]; [|discriminate]. exists lk. split; auto. injection K as ->. reflexivity.
Qed.
Print Assumptions C06_links_obey_light.

(** What [controls] means: the link was passed to the [i]-th call of [add_movement]. *)
Theorem C06_controls :
  forall (A : Arith) ops l i lid, lrun ops = Ok l -> length (movements_of ops) <= 256 ->
    (controls l i lid <-> exists ks, nth_error (movement_links ops) i = Some ks /\ In lid ks).
Proof. intros A ops l i lid H L. exact (lrun_mlinks _ _ H L i lid). Qed.
Print Assumptions C06_controls.

(** Each light of a simulation behaves like a light that is used on its own and stepped with the
    simulation, so that C01-C05 apply to it. *)
Theorem C06_light_history :
  forall (A : Arith) s k l, reachable s -> sm_get (s_lights s) k = Some l -> exists ops, lrun ops = Ok l.
Proof. intros A s k l R G. exact (reachable_light _ _ _ R G). Qed.
Print Assumptions C06_light_history.
Theorem C06_light_step :
  forall (A : Arith) e s dt s' k l', reachable s -> step e s dt = Ok s' -> sm_get (s_lights s') k = Some l' ->
    exists l, sm_get (s_lights s) k = Some l /\ light_step l dt = Ok l'.
Proof. intros A e s dt s' k l' R H G. exact (step_lights _ _ _ _ _ _ (reachable_Inv _ R) H G). Qed.
Print Assumptions C06_light_step.

(** The exit of the running example has one light; it is open after the step. *)
Definition only_light (s : @sim F64) : bool :=
  match sm_entries (s_lights s) with
  | [(k, l)] => match l_mlinks l with [(0%nat, lid)] => key_eqb lid exit1 && key_eqb k (nth_id 0) | _ => false end
  | _ => false
  end.
Definition exit_open (s : @sim F64) : bool :=
  match sm_get (s_links s) exit1 with Some l => match lk_control l with COpen => true | _ => false end | None => false end.
Lemma ex_light_ok : okb (run ex_env sim_new ex_setup) (fun s => okb (run ex_env s (ex_steps 1)) (fun s' => only_light s' && exit_open s')) = true.
Proof. vm_compute. reflexivity. Qed.
Example C06_example : exists s s' l, @reachable F64 s /\ step ex_env s (fz 1) = Ok s' /\ sm_get (s_lights s') (nth_id 0) = Some l /\ controls l 0 exit1 /\
  (forall k2 l2 i2, sm_get (s_lights s') k2 = Some l2 -> controls l2 i2 exit1 -> k2 = nth_id 0 /\ i2 = 0) /\
  exists lk, link_at s' exit1 = Some lk /\ lk_control lk = COpen.
Proof.
  pose proof ex_light_ok as H. apply okb_ok in H. destruct H as (s0 & H0 & H). apply okb_ok in H. destruct H as (s1 & H1 & H). apply andb_true_iff in H. destruct H as (H & Ho).
  exists s0, s1. unfold only_light in H. destruct (sm_entries (s_lights s1)) as [|[k l] [|]] eqn:E; try discriminate H.
  destruct (l_mlinks l) as [|[[|] lid] [|]] eqn:El; try discriminate H. apply andb_true_iff in H. destruct H as (E1 & E2). apply key_eqb_eq in E1, E2. subst.
  exists l. split; [eapply history_reachable; [eapply run_history; eauto|constructor]|]. split.
  { cbn [run ex_steps repeat exec] in H1. bok H1 x Hx. injection H1 as <-. exact Hx. }
  split; [apply in_entries; rewrite E; left; auto|]. split; [unfold controls; rewrite El; left; auto|]. split.
  { intros k2 l2 i2 G2 C2. apply in_entries in G2. rewrite E in G2. destruct G2 as [G2|[]]. injection G2 as <- <-. split; auto.
    unfold controls in C2. rewrite El in C2. destruct C2 as [C2|[]]. congruence. }
  unfold exit_open in Ho. unfold link_at. destruct (sm_get (s_links s1) exit1) as [lk|]; [|discriminate Ho]. exists lk. split; auto. destruct (lk_control lk); auto; discriminate Ho.
Qed.

(** ** C22: waiting numbers are first come, first served *)
(** [get_route] shows this number. *)
Theorem C22_reported :
  forall (A : Arith) v i lid q, get_route v i = Some (lid, QueuedAt q) -> v_queued v = Some q.
Proof.
  intros A v i lid q H. unfold get_route in H. destruct (nth_error (v_route v) i); [|discriminate]. simpl in H. injection H as _ H.
  destruct (Nat.ltb i (v_entered v)); [discriminate|]. destruct (Nat.eqb (v_entered v) i); [|discriminate]. destruct (v_queued v); [congruence|discriminate].
Qed.
Print Assumptions C22_reported.
(** The numbers are positive and no two waiting vehicles share one. *)
Theorem C22_numbers :
  forall (A : Arith) s, reachable s ->
    (forall k q, waits_with s k q -> 1 <= q) /\
    (forall k1 k2 q, waits_with s k1 q -> waits_with s k2 q -> k1 = k2).
Proof.
  intros A s R. split.
  - intros k q H. apply (queue_bound s k q); auto. apply reachable_Inv; auto.
  - exact (reachable_numbers _ R).
Qed.
Print Assumptions C22_numbers.
(** A number handed out later is larger, also than those of vehicles that no longer wait. *)
Theorem C22_order :
  forall (A : Arith) s ops s' k1 k2 q1 q2, reachable s -> history s ops s' ->
    waits_with s k1 q1 -> ~ waits_with s k2 q2 -> waits_with s' k2 q2 -> q1 < q2.
Proof.
  intros A s ops s' k1 k2 q1 q2 R H W1 N2 W2. pose proof (reachable_Inv _ R) as I.
  destruct (history_numbers _ _ _ H I (reachable_numbers _ R)) as (_ & B). destruct (B _ _ W2) as [W|L]; [contradiction|].
  apply (queue_bound s) in W1; auto. lia.
Qed.
Print Assumptions C22_order.
(** A waiting vehicle keeps its number until, in some step, it is let into the link it waits for
    (the number of links it has entered goes up by one). *)
Theorem C22_keep :
  forall (A : Arith) e s dt s' k v v' q, reachable s -> step e s dt = Ok s' ->
    vehicle_at s k = Some v -> vehicle_at s' k = Some v' -> v_queued v = Some q ->
    v_queued v' = Some q \/
    v_queued v' = None /\ exists s1 s4 v1 v4, calculate_lane_changes e s = Ok s1 /\ pre_advance e s dt = Ok s4 /\
      vehicle_at s1 k = Some v1 /\ vehicle_at s4 k = Some v4 /\ v_entered v4 = S (v_entered v1).
Proof. intros A e s dt s' k v v' q R. exact (step_queue e s dt s' k v v' q (reachable_Inv _ R)). Qed.
Print Assumptions C22_keep.
Theorem C22_keep_other_calls :
  forall (A : Arith) e s o s' k v', reachable s -> exec e s o = Ok s' -> (forall dt, o <> OStep dt) -> vehicle_at s' k = Some v' ->
    match vehicle_at s k with Some v => v_queued v' = v_queued v | None => v_queued v' = None end.
Proof.
  intros A e s o s' k v' R H Hs G'. assert (is_step o = false) as Es by (destruct o; auto; exfalso; eapply Hs; eauto).
  destruct (exec_vehicle _ _ _ _ _ _ (reachable_Inv _ R) H Es G') as [(v & G & Rc)|(a & l & _ & N & _ & Q)]; unfold vehicle_at.
  - rewrite G. apply Rc.
  - destruct (sm_get (s_vehicles s) k) as [v|] eqn:G; [|exact Q]. exfalso. apply N. eapply issued_mem; eauto.
Qed.
Print Assumptions C22_keep_other_calls.
Example C22_example : exists s ops s', @reachable F64 s /\ history s ops s' /\ waits_with s car1 1 /\ waits_with s' car2 2 /\ ~ waits_with s car2 2 /\ ~ waits_with s' car1 1.
Proof.
  assert (forall (s : @sim F64) k q, has_number s k q = true <-> waits_with s k q) as K.
  { intros s k q. unfold has_number, waits_with, vehicle_at. destruct (sm_get (s_vehicles s) k) as [v|].
    - destruct (v_queued v) as [n|] eqn:E; split; intros H; try discriminate.
      + apply Nat.eqb_eq in H. subst. eauto.
      + destruct H as (v0 & E0 & Q). injection E0 as <-. apply Nat.eqb_eq. congruence.
      + destruct H as (v0 & E0 & Q). congruence.
    - split; [discriminate|]. intros (v0 & E0 & _). discriminate. }
  pose proof ex_yield_ok as H. apply okb_ok in H. destruct H as (s0 & H0 & H). apply andb_true_iff in H. destruct H as (W0 & H).
  apply okb_ok in H. destruct H as (s1 & H1 & H). apply andb_true_iff in H. destruct H as (W2 & W3). apply negb_true_iff in W3.
  exists s0, ex_yield2, s1.
  assert (reachable s0) as R0 by (eapply history_reachable; [eapply run_history; eauto|constructor]).
  assert (history s0 ex_yield2 s1) as Hh by (eapply run_history; eauto).
  apply K in W2. apply andb_true_iff in W0. destruct W0 as (W1 & W0). apply K in W1. apply negb_true_iff in W0.
  split; [exact R0|]. split; [exact Hh|]. split; [exact W1|]. split; [exact W2|]. split; intros C; apply K in C; congruence.
Qed.

(** ** C24: accelerations and lane changes are refreshed on schedule *)
(** Before [lit 1 10] seconds (0.1 s, rounded to the number type) have been summed up since the last
    refresh, a step keeps all accelerations. *)
Theorem C24_accelerations_kept :
  forall (A : Arith) e ops s dt s' k v v', history sim_new ops s -> step e s dt = Ok s' -> due (lit 1 10) ops = false ->
    vehicle_at s k = Some v -> vehicle_at s' k = Some v' -> am_acc (v_acc v') = am_acc (v_acc v).
Proof.
  intros A e ops s dt s' k v v' Hh H D G G'. pose proof (history_timers _ _ Hh) as (T & _). pose proof (history_Inv _ _ _ Hh Inv_new) as I.
  exact (step_keeps_acc _ _ _ _ _ _ _ I H (due_false _ _ _ T D) G G').
Qed.
Print Assumptions C24_accelerations_kept.
(** Otherwise the step recomputes them: its result is the same whatever the old accelerations. *)
Theorem C24_accelerations_recomputed :
  forall (A : Arith) e ops s dt, history sim_new ops s -> due (lit 1 10) ops = true ->
    forall f, step e (forget_acc f s) dt = step e s dt.
Proof.
  intros A e ops s dt Hh D f. pose proof (history_timers _ _ Hh) as (T & _). apply step_fresh. exact (due_true _ _ _ T D).
Qed.
Print Assumptions C24_accelerations_recomputed.
(** Before 0.3 s have been summed up since the last lane change decisions, no vehicle changes lane. *)
Theorem C24_lane_changes_kept :
  forall (A : Arith) e ops s dt s' k v v', history sim_new ops s -> step e s dt = Ok s' -> due (lit 3 10) ops = false ->
    vehicle_at s k = Some v -> vehicle_at s' k = Some v' -> v_route v' = v_route v \/ v_route v' = tl (v_route v).
Proof.
  intros A e ops s dt s' k v v' Hh H D G G'. pose proof (history_timers _ _ Hh) as (_ & T). pose proof (history_Inv _ _ _ Hh Inv_new) as I.
  exact (step_keeps_lanes _ _ _ _ _ _ _ I H (due_false _ _ _ T D) G G').
Qed.
Print Assumptions C24_lane_changes_kept.
(** In steps of one second, everything is refreshed in every step but the first. *)
Example C24_example : @due F64 (lit 1 10) (ex_setup ++ ex_steps 1) = true /\ @due F64 (lit 1 10) ex_setup = false /\
  @due F64 (lit 3 10) ex_setup = false /\ exists s, history (@sim_new F64) ex_setup s /\ vehicle_at s car1 <> None.
Proof.
  split; [vm_compute; reflexivity|]. split; [vm_compute; reflexivity|]. split; [vm_compute; reflexivity|].
  pose proof ex_story_ok as H. apply okb_ok in H. destruct H as (s0 & H0 & H). exists s0. split; [eapply run_history; eauto|].
  rewrite !andb_true_iff in H. destruct H as (((Q1 & _) & _) & _). apply is_on_link in Q1. destruct Q1 as (v & -> & _). discriminate.
Qed.
