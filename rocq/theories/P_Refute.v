(** * Things one might expect of the simulation and that do not hold: counterexamples in binary64 *)
From Coq Require Import List Bool ZArith NArith Arith.
From Verif Require Import Arith Base BaseProofs SlotMap Util Geom Light Accel Net Path Vehicle LinkOps Sim SpecSim SlotMapProofs StepEvo F64 SimExample P_Motion P_Lane P_Route P_Cheap.
Import ListNotations.
Definition panics {X} (p : panic -> bool) (r : res X) : bool := match r with Panic q => p q | _ => false end.
Lemma panics_ok {X} p (r : res X) : panics p r = true -> exists q, r = Panic q /\ p q = true.
Proof. destruct r; cbn; intros; try discriminate. eauto. Qed.

(** ** C23: a vehicle that cannot stop in time drives onto a closed link *)
Definition ex_two : list (@op F64) :=
  [ OAddLink (ex_line 0 0 20 0) (fz 15); OAddLink (ex_line 20 0 40 0) (fz 15); OAddConnection (nth_id 0) (nth_id 1); OAddVehicle ex_car (nth_id 0); OSetDestination car1 (nth_id 1) ].
Definition closed_b (s : @sim F64) (x : key) : bool := match sm_get (s_links s) x with Some l => match lk_control l with CClosed => true | _ => false end | None => false end.
Lemma ex_overrun_ok : okb (run ex_env sim_new (ex_two ++ ex_steps 4 ++ [OSetControl (nth_id 1) CClosed])) (fun s => closed_b s (nth_id 1) && is_on s car1 (nth_id 0) &&
  okb (step ex_env s (fz 1)) (fun s' => is_on s' car1 (nth_id 1) && closed_b s' (nth_id 1))) = true.
Proof. vm_compute. reflexivity. Qed.
Lemma closed_b_ok s x : closed_b s x = true -> exists l, link_at s x = Some l /\ lk_control l = CClosed.
Proof. unfold closed_b, link_at. destruct (sm_get (s_links s) x) as [l|]; [|discriminate]. destruct (lk_control l) eqn:E; try discriminate. eauto. Qed.
Theorem C23_overrun_refuted : exists (s s' : @sim F64) l v v', reachable s /\ step ex_env s (fz 1) = Ok s' /\
  link_at s (nth_id 1) = Some l /\ lk_control l = CClosed /\ vehicle_at s car1 = Some v /\ v_link v = Some (nth_id 0) /\ vehicle_at s' car1 = Some v' /\ v_link v' = Some (nth_id 1).
Proof.
  destruct (okb_ok _ _ ex_overrun_ok) as (s & H0 & H). bsplit H. destruct (okb_ok _ _ B) as (s' & H1 & Hb). bsplit Hb.
  apply closed_b_ok in H. destruct H as (l & G & C). apply is_on_ok in B0, Hb. destruct B0 as (v & Gv & L). destruct Hb as (v' & Gv' & L').
  exists s, s', l, v, v'. split; [eapply history_reachable; [eapply run_history; exact H0|constructor]|]. auto 10.
Qed.
Print Assumptions C23_overrun_refuted.

(** ** C15: a vehicle that was removed is still reported frozen; a frozen vehicle is moved by a lane change *)
Lemma ex_ghost_ok : okb (run ex_env sim_new (ex_two ++ [OSetFrozen car1 true; ORemoveVehicle car1])) (fun s => is_gone s car1 && get_vehicle_frozen s car1) = true.
Proof. vm_compute. reflexivity. Qed.
Theorem C15_removed_refuted : exists s : @sim F64, reachable s /\ vehicle_at s car1 = None /\ get_vehicle_frozen s car1 = true.
Proof.
  destruct (okb_ok _ _ ex_ghost_ok) as (s & H0 & H). bsplit H. exists s. split; [eapply history_reachable; [eapply run_history; exact H0|constructor]|]. split; [|exact B].
  unfold is_gone, sm_mem in H. unfold vehicle_at. destruct (sm_get (s_vehicles s) car1); [discriminate H|reflexivity].
Qed.
Print Assumptions C15_removed_refuted.
Lemma ex_slide_ok : okb (run ex_env sim_new (ex_before ++ [OSetDestination car1 exit1; OSetFrozen car1 true] ++ ex_steps 1)) (fun s => is_on s car1 lane2 && get_vehicle_frozen s car1 &&
  okb (step ex_env s (fz 1)) (fun s' => is_on s' car1 lane1 && get_vehicle_frozen s' car1)) = true.
Proof. vm_compute. reflexivity. Qed.
Theorem C15_lane_change_refuted : exists (s s' : @sim F64) v v', reachable s /\ step ex_env s (fz 1) = Ok s' /\ get_vehicle_frozen s car1 = true /\ get_vehicle_frozen s' car1 = true /\
  vehicle_at s car1 = Some v /\ v_link v = Some lane2 /\ vehicle_at s' car1 = Some v' /\ v_link v' = Some lane1.
Proof.
  destruct (okb_ok _ _ ex_slide_ok) as (s & H0 & H). bsplit H. destruct (okb_ok _ _ B) as (s' & H1 & Hb). bsplit Hb.
  apply is_on_ok in H, Hb. destruct H as (v & Gv & L). destruct Hb as (v' & Gv' & L').
  exists s, s', v, v'. split; [eapply history_reachable; [eapply run_history; exact H0|constructor]|]. auto 10.
Qed.
Print Assumptions C15_lane_change_refuted.

(** ** C63: vehicles can be added where there is one *)
Definition both_b (s : @sim F64) : bool := match sm_get (s_vehicles s) car1, sm_get (s_vehicles s) car2 with
  Some v, Some w => neqb (v_pos v) (v_pos w) && match v_link v, v_link w with Some a, Some b => key_eqb a b | _, _ => false end | _, _ => false end.
Lemma ex_both_ok : okb (run ex_env sim_new [OAddLink (ex_line 0 0 20 0) (fz 15); OAddVehicle ex_car (nth_id 0); OAddVehicle ex_car (nth_id 0)]) both_b = true.
Proof. vm_compute. reflexivity. Qed.
Theorem C63_added_inside_refuted : exists (s : @sim F64) v w a, reachable s /\ car1 <> car2 /\ vehicle_at s car1 = Some v /\ vehicle_at s car2 = Some w /\ v_link v = Some a /\ v_link w = Some a /\ neqb (v_pos v) (v_pos w) = true.
Proof.
  destruct (okb_ok _ _ ex_both_ok) as (s & H0 & H). unfold both_b in H. unfold vehicle_at. destruct (sm_get (s_vehicles s) car1) as [v|] eqn:G; [|discriminate H]. destruct (sm_get (s_vehicles s) car2) as [w|] eqn:G2; [|discriminate H].
  bsplit H. destruct (v_link v) as [a|] eqn:La; [|discriminate B]. destruct (v_link w) as [b|] eqn:Lb; [|discriminate B]. destruct (key_eqb_spec a b) as [->|]; [|discriminate B].
  exists s, v, w, b. split; [eapply history_reachable; [eapply run_history; exact H0|constructor]|]. split; [discriminate|]. auto 10.
Qed.
Print Assumptions C63_added_inside_refuted.

(** ** C19: a link in two groups *)
Lemma ex_groups_ok : okb (run ex_env sim_new ([OAddLink (ex_line 0 0 20 0) (fz 15); OAddLink (ex_line 0 3 20 3) (fz 15); OAddLink (ex_line 0 6 20 6) (fz 15); OAddGroup [nth_id 0; nth_id 1] 15; OAddGroup [nth_id 1; nth_id 2] 15; OAddVehicle ex_car (nth_id 1); OSetDestination car1 (nth_id 0)] ++ ex_steps 1))
  (fun s => panics (fun p => match p with PNotInGroup => true | _ => false end) (step ex_env s (fz 1))) = true.
Proof. vm_compute. reflexivity. Qed.
Theorem C19_two_groups_refuted : exists s : @sim F64, reachable s /\ step ex_env s (fz 1) = Panic PNotInGroup.
Proof.
  destruct (okb_ok _ _ ex_groups_ok) as (s & H0 & H). apply panics_ok in H. destruct H as (q & E & Hq). exists s. split; [eapply history_reachable; [eapply run_history; exact H0|constructor]|]. rewrite E. destruct q; try discriminate Hq. reflexivity.
Qed.
Print Assumptions C19_two_groups_refuted.

(** ** C53: links with a speed limit of 0 cost as much as can be, and two of them overflow the cost of a route *)
Lemma ex_zero_ok : okb (run ex_env sim_new [OAddLink (ex_line 0 0 20 0) (fz 0); OAddLink (ex_line 20 0 40 0) (fz 0); OAddLink (ex_line 40 0 60 0) (fz 15); OAddConnection (nth_id 0) (nth_id 1); OAddConnection (nth_id 1) (nth_id 2); OAddVehicle ex_car (nth_id 0)])
  (fun s => panics (fun p => match p with POverflow => true | _ => false end) (exec ex_env s (OSetDestination car1 (nth_id 2)))) = true.
Proof. vm_compute. reflexivity. Qed.
Theorem C53_no_limit_refuted : exists s : @sim F64, reachable s /\ exec ex_env s (OSetDestination car1 (nth_id 2)) = Panic POverflow.
Proof.
  destruct (okb_ok _ _ ex_zero_ok) as (s & H0 & H). apply panics_ok in H. destruct H as (q & E & Hq). exists s. split; [eapply history_reachable; [eapply run_history; exact H0|constructor]|]. rewrite E. destruct q; try discriminate Hq. reflexivity.
Qed.
Print Assumptions C53_no_limit_refuted.

(** ** C63: a lane change is not checked for room *)
Definition far_env : @env F64 := Env 250 (fun _ _ _ _ => 0).
(** Two lanes of 60 m beside each other; a car stands just after the end of the second one.  Another car drives on the first one
    towards the link that follows it. *)
Definition ex_beside : list (@op F64) :=
  [ OAddLink (ex_line 0 0 60 0) (fz 15); OAddLink (ex_line 0 3 60 3) (fz 15); OAddLink (ex_line 60 3 70 3) (fz 15); OAddLink (ex_line 60 0 100 0) (fz 15); OAddGroup [nth_id 0; nth_id 1] 15;
    OAddConnection (nth_id 1) (nth_id 2); OAddConnection (nth_id 0) (nth_id 3); OAddVehicle ex_car (nth_id 2); OSetFrozen car1 true; OAddVehicle ex_car (nth_id 0); OSetDestination car2 (nth_id 3) ] ++ ex_steps 7.
(** The distance between the middles of two vehicles is less than 2 m, and they are at least 2 m wide and long. *)
Definition overlap_b (v w : @vehicle F64) : bool :=
  let p := vsub (v_world_pos v) (v_world_pos w) in
  nltb (nadd (nmul (px p) (px p)) (nmul (py p) (py p))) (fz 4) && nleb (fz 1) (v_half_wid v) && nleb (fz 1) (v_half_wid w) && nleb (fz 1) (v_half_len v) && nleb (fz 1) (v_half_len w).
Definition overlaps_b (s : @sim F64) : bool := match sm_get (s_vehicles s) car1, sm_get (s_vehicles s) car2 with Some v, Some w => overlap_b v w | _, _ => false end.
Lemma ex_push_ok : okb (run far_env sim_new ex_beside) (fun s => is_on s car1 (nth_id 2) && is_on s car2 (nth_id 0) && negb (overlaps_b s) &&
  okb (run far_env s (OSetDestination car2 (nth_id 2) :: ex_steps 3)) overlaps_b) = true.
Proof. vm_compute. reflexivity. Qed.
(** The driver is sent to the other lane instead; three steps of one second later the cars overlap. *)
Theorem C63_lane_change_refuted : exists (s s' : @sim F64) v w, reachable s /\ history s (OSetDestination car2 (nth_id 2) :: ex_steps 3) s' /\
  overlaps_b s = false /\ vehicle_at s' car1 = Some v /\ vehicle_at s' car2 = Some w /\ overlap_b v w = true.
Proof.
  destruct (okb_ok _ _ ex_push_ok) as (s & H0 & H). bsplit H. destruct (okb_ok _ _ B) as (s' & H1 & H2). unfold overlaps_b in H2. unfold vehicle_at.
  destruct (sm_get (s_vehicles s') car1) as [v|] eqn:G1; [|discriminate H2]. destruct (sm_get (s_vehicles s') car2) as [w|] eqn:G2; [|discriminate H2].
  exists s, s', v, w. split; [eapply history_reachable; [eapply run_history; exact H0|constructor]|]. split; [eapply run_history; exact H1|].
  split; [match goal with Q : negb (overlaps_b s) = true |- _ => apply negb_true_iff in Q; exact Q end|]. auto.
Qed.
Print Assumptions C63_lane_change_refuted.

(** ** C15: a vehicle that is frozen before the first step starts nevertheless: accelerations are not updated in the first step *)
Definition rest_b (s : @sim F64) : bool := match sm_get (s_vehicles s) car1 with Some v => neqb (v_vel v) (fz 0) && neqb (v_pos v) (fz 0) | None => false end.
Definition off_b (s : @sim F64) : bool := match sm_get (s_vehicles s) car1 with Some v => nltb (fz 0) (v_vel v) && nltb (fz 0) (v_pos v) | None => false end.
Lemma ex_start_ok : okb (run ex_env sim_new (ex_two ++ [OSetFrozen car1 true])) (fun s => get_vehicle_frozen s car1 && rest_b s && okb (step ex_env s (fz 1)) (fun s' => get_vehicle_frozen s' car1 && off_b s')) = true.
Proof. vm_compute. reflexivity. Qed.
Theorem C15_first_step_refuted : exists (s s' : @sim F64) v v', reachable s /\ step ex_env s (fz 1) = Ok s' /\ get_vehicle_frozen s car1 = true /\ get_vehicle_frozen s' car1 = true /\
  vehicle_at s car1 = Some v /\ neqb (v_vel v) (fz 0) = true /\ neqb (v_pos v) (fz 0) = true /\ vehicle_at s' car1 = Some v' /\ nltb (fz 0) (v_pos v') = true.
Proof.
  destruct (okb_ok _ _ ex_start_ok) as (s & H0 & H). bsplit H. destruct (okb_ok _ _ B) as (s' & H1 & Hb). bsplit Hb. unfold rest_b, off_b, vehicle_at in *.
  destruct (sm_get (s_vehicles s) car1) as [v|] eqn:G; [|discriminate B0]. destruct (sm_get (s_vehicles s') car1) as [v'|] eqn:G'; [|discriminate B1]. bsplit B0. bsplit B1.
  exists s, s', v, v'. split; [eapply history_reachable; [eapply run_history; exact H0|constructor]|]. auto 12.
Qed.
Print Assumptions C15_first_step_refuted.

(** ** C73: where a road divides, drivers do not see a vehicle on the branch they do not take *)
(** A road of 40 m that leads to two links; a car stands at the beginning of the first of them, and another comes along the road
    towards the second. *)
Definition ex_fork : list (@op F64) :=
  [ OAddLink (ex_line 0 0 40 0) (fz 15); OAddLink (ex_line 40 0 80 0) (fz 15); OAddLink (ex_line 40 0 80 20) (fz 15); OAddConnection (nth_id 0) (nth_id 1); OAddConnection (nth_id 0) (nth_id 2);
    OAddVehicle ex_car (nth_id 1); OAddVehicle ex_car (nth_id 0); OSetDestination car2 (nth_id 2); OStep (lit 1 10); OSetFrozen car1 true ] ++ ex_steps 4.
Definition tenths (n : nat) : list (@op F64) := repeat (OStep (lit 1 10)) n.
(** The second car is on the road, slower than 9 m/s and 19 m or more before the first. *)
Definition coming_b (s : @sim F64) : bool := match sm_get (s_vehicles s) car1, sm_get (s_vehicles s) car2 with
  Some v, Some w => nltb (v_vel w) (fz 9) && nleb (nadd (pos_front w) (fz 19)) (nadd (fz 40) (pos_rear v)) | _, _ => false end.
Lemma ex_fork_ok : okb (run ex_env sim_new ex_fork) (fun s => is_on s car1 (nth_id 1) && is_on s car2 (nth_id 0) && get_vehicle_frozen s car1 && coming_b s &&
  okb (run ex_env s (tenths 22)) overlaps_b) = true.
Proof. vm_compute. reflexivity. Qed.
(** After 22 steps of a tenth of a second the cars overlap. *)
Theorem C73_fork_refuted : exists (s s' : @sim F64) v w v' w', reachable s /\ history s (tenths 22) s' /\
  vehicle_at s car1 = Some v /\ v_link v = Some (nth_id 1) /\ get_vehicle_frozen s car1 = true /\ vehicle_at s car2 = Some w /\ v_link w = Some (nth_id 0) /\
  nltb (v_vel w) (fz 9) = true /\ nleb (nadd (pos_front w) (fz 19)) (nadd (fz 40) (pos_rear v)) = true /\
  vehicle_at s' car1 = Some v' /\ vehicle_at s' car2 = Some w' /\ overlap_b v' w' = true.
Proof.
  destruct (okb_ok _ _ ex_fork_ok) as (s & H0 & H). bsplit H. destruct (okb_ok _ _ B) as (s' & H1 & H2). unfold overlaps_b in H2. unfold coming_b in B0. apply is_on_ok in H, B2. unfold vehicle_at in *.
  destruct H as (v & Gv & Lv). destruct B2 as (w & Gw & Lw). unfold vehicle_at in *. rewrite Gv, Gw in B0. apply andb_true_iff in B0. destruct B0 as (X1 & X2).
  destruct (sm_get (s_vehicles s') car1) as [v'|] eqn:G1; [|discriminate H2]. destruct (sm_get (s_vehicles s') car2) as [w'|] eqn:G2; [|discriminate H2].
  exists s, s', v, w, v', w'. split; [eapply history_reachable; [eapply run_history; exact H0|constructor]|]. split; [eapply run_history; exact H1|]. auto 12.
Qed.
Print Assumptions C73_fork_refuted.
