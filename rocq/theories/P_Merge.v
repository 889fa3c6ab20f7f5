(** * C73: where links come together without being registered as converging, vehicles drive into each other *)
From Coq Require Import List Bool ZArith NArith Arith Lia.
From Verif Require Import Arith F64 Base BaseProofs SlotMap SlotMapProofs Util Geom Light Accel Net Path Vehicle LinkOps Sim SimExample SpecSim StepEvo P_Motion P_Lane P_Route P_Cheap P_Refute.
Import ListNotations.

(** Two roads of 10 m lead to a third, with a car at the beginning of each.  The connections are added, the convergence is not. *)
Definition merge_roads : list (@op F64) :=
  [ OAddLink (ex_line 0 6 8 0) (fz 15); OAddLink (ex_line 0 (-6) 8 0) (fz 15); OAddLink (ex_line 8 0 48 0) (fz 15);
    OAddConnection (nth_id 0) (nth_id 2); OAddConnection (nth_id 1) (nth_id 2);
    OAddVehicle ex_car (nth_id 0); OAddVehicle ex_car (nth_id 1); OSetDestination car1 (nth_id 2); OSetDestination car2 (nth_id 2) ].
Definition quarters (n : nat) : list (@op F64) := repeat (OStep (lit 1 4)) n.
Definition at_start_b (s : @sim F64) : bool := match sm_get (s_vehicles s) car1, sm_get (s_vehicles s) car2 with
  Some v, Some w => neqb (v_vel v) (fz 0) && neqb (v_vel w) (fz 0) && neqb (v_pos v) (fz 0) && neqb (v_pos w) (fz 0) | _, _ => false end.
Lemma merge_roads_ok : okb (run ex_env sim_new merge_roads) (fun s => is_on s car1 (nth_id 0) && is_on s car2 (nth_id 1) && at_start_b s &&
  okb (run ex_env s (quarters 13)) (fun s' => is_on s' car1 (nth_id 2) && is_on s' car2 (nth_id 2) && overlaps_b s')) = true.
Proof. vm_compute. reflexivity. Qed.
(** The same with the convergence. *)
Lemma merge_registered_ok : okb (run ex_env sim_new (merge_roads ++ [OAddConvergence (nth_id 0) (nth_id 1)])) (fun s =>
  okb (run ex_env s (quarters 13)) (fun s' => negb (is_on s' car1 (nth_id 2) && is_on s' car2 (nth_id 2)) && negb (overlaps_b s'))) = true.
Proof. vm_compute. reflexivity. Qed.

(** After 13 steps of a quarter of a second the two cars, which stood at the beginnings of the two roads, are in the same place on the third. *)
Theorem C73_merge_refuted : exists (s s' : @sim F64) v w v' w', reachable s /\ history s (quarters 13) s' /\
  vehicle_at s car1 = Some v /\ v_link v = Some (nth_id 0) /\ vehicle_at s car2 = Some w /\ v_link w = Some (nth_id 1) /\ at_start_b s = true /\
  vehicle_at s' car1 = Some v' /\ v_link v' = Some (nth_id 2) /\ vehicle_at s' car2 = Some w' /\ v_link w' = Some (nth_id 2) /\ overlap_b v' w' = true.
Proof.
  destruct (okb_ok _ _ merge_roads_ok) as (s & H0 & H). bsplit H. destruct (okb_ok _ _ B) as (s' & H1 & Hb). bsplit Hb. apply is_on_ok in H, B1, Hb, B3.
  destruct H as (v & Gv & Lv). destruct B1 as (w & Gw & Lw). destruct Hb as (v' & Gv' & Lv'). destruct B3 as (w' & Gw' & Lw'). unfold overlaps_b in B2. unfold vehicle_at in *. rewrite Gv', Gw' in B2.
  exists s, s', v, w, v', w'. split; [eapply history_reachable; [eapply run_history; exact H0|constructor]|]. split; [eapply run_history; exact H1|]. auto 15.
Qed.
Print Assumptions C73_merge_refuted.
(** If the convergence is registered, one of them waits. *)
Example C73_merge_registered : exists (s s' : @sim F64), reachable s /\ history s (quarters 13) s' /\ is_on s' car1 (nth_id 2) && is_on s' car2 (nth_id 2) = false /\ overlaps_b s' = false.
Proof.
  destruct (okb_ok _ _ merge_registered_ok) as (s & H0 & H). destruct (okb_ok _ _ H) as (s' & H1 & Hb). apply andb_prop in Hb. destruct Hb as (B1' & B2'). apply negb_true_iff in B1', B2'.
  exists s, s'. split; [eapply history_reachable; [eapply run_history; exact H0|constructor]|]. split; [eapply run_history; exact H1|]. auto.
Qed.
