(** * A concrete simulation in exact arithmetic, used to show that theorems about it are not vacuous *)
From Coq Require Import List Bool ZArith NArith Arith Lia Reals Lra.
From Verif Require Import Arith RealArith Base SlotMap Util Geom Light Accel Net Path Vehicle LinkOps Sim SpecSim RFacts LineProofs.
Import ListNotations.
Local Open Scope R_scope.

Definition ra_env : @env RA := Env 200 (fun _ _ _ _ => 0%nat).
Definition ring_id : key := Key 1 1.
(** A road of 10 m that leads back to its own start, with a car. *)
Definition ra_car : @attrs RA := @Attrs RA 2 4 3 2 2 2.
Definition ring_line : @curve RA := @ls_curve RA (@LineSeg RA (@Pt RA 0 0) (@Pt RA 1 0) 10).
Definition ring_ops : list (@op RA) := [OAddLink ring_line 10; OAddConnection ring_id ring_id; OAddVehicle ra_car ring_id].
Lemma ring_ok : exists s l v, run ra_env (@sim_new RA) ring_ops = Ok s /\ sm_get (s_links s) ring_id = Some l /\ sm_values (s_links s) = [l] /\ 9 < lk_length l <= 10 /\ lk_limit l = 10 /\ lk_in l = [ring_id] /\ lk_out l = [ring_id] /\
  lk_vehicles l = [ring_id] /\ sm_get (s_vehicles s) ring_id = Some v /\ v_route v = [ring_id] /\ v_pos v = 0 /\ s_lc_update s = 0 /\ s_acc_update s = 0.
Proof.
  destruct (line_curve (@Pt RA 0 0) (@Pt RA 1 0) 10) with (fuel := 200%nat) as (lc & Hlc & H1 & H2 & H3).
  { unfold unit. cbn. lra. } { lra. } { rewrite INR_IZR_INZ. cbn -[IZR]. apply Rlt_trans with 21; [lra|]. apply IZR_lt. reflexivity. }
  cbn [run ring_ops exec]. unfold add_link. cbn [e_fuel ra_env]. unfold link_new at 1. unfold ring_line. rewrite Hlc. cbn [bind fst].
  unfold add_link_connection, upd_link, get_link. cbn -[link_cost sample_centre add_vehicle].
  unfold add_vehicle, set_location, set_origin. cbn -[link_cost sample_centre update_coords insert_vehicle].
  unfold update_coords. cbn -[link_cost sample_centre vsub rot90 calc_direction vadd long_offset nmin nmax dot insert_vehicle].
  unfold insert_vehicle. cbn -[link_cost sample_centre vsub rot90 calc_direction vadd long_offset nmin nmax dot].
  eexists _, _, _. split; [reflexivity|]. cbn -[link_cost sample_centre vsub rot90 calc_direction vadd long_offset nmin nmax dot].
  split; [reflexivity|]. split; [reflexivity|]. split; [unfold lk_length; cbn [lk_curve set_vehicles add_link_in add_link_out]; lra|]. repeat split.
Qed.

