(** * The mirror image of a network behaves as the mirror image (C85) *)
From Coq Require Import List Bool ZArith NArith Arith Lia Reals Lra FunctionalExtensionality.
From Verif Require Import Arith RealArith Base BaseProofs SlotMap Util Geom Light Accel Net Path Vehicle LinkOps Sim SpecSim SlotMapProofs Safe NetInv SimInv OpSafe Evo StepEvo RFacts LineProofs RaExample P_Coord P_Lanes SpecPlace PlaceGeom PlaceNet PlaceSim P_Place SpecMirror.
Import ListNotations.
Local Open Scope R_scope.

Definition mirror : motion := Motion true 1 0 0 0.
Lemma mirror_rigid : rigid mirror.
Proof. unfold rigid, mirror. cbn [mo_cos mo_sin]. lra. Qed.
Lemma mirror_turned p : turned mirror p = mirrored p.
Proof. unfold turned, sided, side, mirror, mirrored. cbn [mo_flip mo_cos mo_sin]. f_equal; match goal with |- ?x = ?y => change (@eq R x y) end; ring. Qed.
Lemma mirror_moved p : moved mirror p = mirrored p.
Proof. unfold moved. rewrite mirror_turned. unfold mirrored, mirror. cbn [px py mo_x mo_y]. f_equal; match goal with |- ?x = ?y => change (@eq R x y) end; ring. Qed.
Lemma mirror_call o : moved_call mirror o = mirrored_call o.
Proof.
  destruct o; try reflexivity. unfold moved_call, mirrored_call, moved_curve, mirrored_curve. f_equal. f_equal; apply functional_extensionality; intros t; solve [apply mirror_moved|apply mirror_turned].
Qed.

Theorem C85_mirror :
  forall (ops : list (@op RA)) (s : @sim RA), history (@sim_new RA) ops s ->
    exists s' : @sim RA, history (@sim_new RA) (map mirrored_call ops) s' /\
      sm_keys (s_vehicles s') = sm_keys (s_vehicles s) /\ sm_keys (s_links s') = sm_keys (s_links s) /\
      (forall k (v : @vehicle RA), vehicle_at s k = Some v -> exists v' : @vehicle RA, vehicle_at s' k = Some v' /\
        v_link v' = v_link v /\ v_route v' = v_route v /\ v_pos v' = v_pos v /\ v_vel v' = v_vel v /\ v_acc v' = v_acc v /\ (v_lane_change v' = None <-> v_lane_change v = None) /\
        v_world_pos v' = mirrored (v_world_pos v) /\ v_world_dir v' = mirrored (v_world_dir v) /\
        v_rear_coords v' = (mirrored (snd (v_rear_coords v)), mirrored (fst (v_rear_coords v))) /\
        i_min (v_rear_lats v') = (- i_max (v_rear_lats v))%R /\ i_max (v_rear_lats v') = (- i_min (v_rear_lats v))%R) /\
      (forall k (l : @link RA), link_at s k = Some l -> exists l' : @link RA, link_at s' k = Some l' /\
        lk_length l' = lk_length l /\ lk_vehicles l' = lk_vehicles l /\ lk_control l' = lk_control l /\
        forall x, sm_pos (sample_centre (lk_curve l') x) = mirrored (sm_pos (sample_centre (lk_curve l) x)) /\ sm_tan (sample_centre (lk_curve l') x) = mirrored (sm_tan (sample_centre (lk_curve l) x))).
Proof.
  intros ops s Hh. exists (moved_sim mirror s). assert (@reachable RA (@sim_new RA)) as R0 by constructor. split; [|split; [|split; [|split]]].
  - change (@sim_new RA) with (moved_sim mirror (@sim_new RA)). revert R0. induction Hh as [t|e t o t1 ops t2 E Hh IH]; intros Rc; [constructor|]. cbn [map]. destruct (choices_exist mirror e mirror_rigid) as (e2 & Se). apply (hist_call e2 _ _ (moved_sim mirror t1)).
    + rewrite <- mirror_call, (exec_moved mirror mirror_rigid e e2 t o Se (reachable_wf t Rc)), E. reflexivity.
    + apply IH. exact (reach_call _ _ _ _ Rc E).
  - cbn [moved_sim s_vehicles]. apply map_keys.
  - cbn [moved_sim s_links]. apply map_keys.
  - intros k v G. exists (moved_vehicle mirror v). unfold vehicle_at in *. cbn [moved_sim s_vehicles]. rewrite sm_get_map, G. split; [reflexivity|]. do 5 (split; [reflexivity|]).
    split; [unfold moved_vehicle; cbn [v_lane_change]; destruct (v_lane_change v); split; intros X; first [reflexivity|discriminate X]|].
    cbn [moved_vehicle v_world_pos v_world_dir v_rear_coords v_rear_lats]. rewrite mirror_moved, mirror_turned. split; [reflexivity|]. split; [reflexivity|]. split.
    + unfold sided_pair. cbn [mirror mo_flip fst snd]. fold mirror. rewrite !mirror_moved. reflexivity.
    + unfold sided_range, sided, side. cbn [mirror mo_flip i_min i_max]. split; match goal with |- ?x = ?y => change (@eq R x y) end; ring.
  - intros k l G. exists (moved_link mirror l). unfold link_at in *. cbn [moved_sim s_links]. rewrite sm_get_map, G. do 4 (split; [reflexivity|]). intros x.
    pose proof (reachable_wf s (history_reachable _ _ _ Hh R0) k l G) as W. change (lk_curve (moved_link mirror l)) with (mc mirror (lk_curve l)). rewrite (centre_moved mirror mirror_rigid _ _ W), <- mirror_moved, <- mirror_turned. split; reflexivity.
Qed.

(** Panics too: a series of calls that fails also fails when mirrored, in the same way. *)
Theorem C85_panics :
  forall (e : @env RA) (ops : list (@op RA)) (p : panic), run e (@sim_new RA) ops = Panic p ->
    exists e' : @env RA, e_fuel e' = e_fuel e /\ run e' (@sim_new RA) (map mirrored_call ops) = Panic p.
Proof.
  intros e ops p E. destruct (choices_exist mirror e mirror_rigid) as (e2 & Se). exists e2. split; [symmetry; exact (proj1 Se)|].
  rewrite <- (map_ext _ _ mirror_call), (C83_place mirror e e2 ops mirror_rigid Se), E. reflexivity.
Qed.

(** The two lanes of C65: one along the x axis and one to its left, and a vehicle on the first.  In the mirror image the second lane is to the right of the first. *)
Example C85_example :
  exists (s s' : @sim RA) (l2 l2' : @link RA) (v v' : @vehicle RA), run ra_env (@sim_new RA) lanes_ops = Ok s /\ history (@sim_new RA) (map mirrored_call lanes_ops) s' /\
    vehicle_at s only_one = Some v /\ vehicle_at s' only_one = Some v' /\ v_link v' = Some lane_a /\ v_pos v' = v_pos v /\
    link_at s lane_b = Some l2 /\ link_at s' lane_b = Some l2' /\
    (forall x, sm_pos (sample_centre (lk_curve l2) x) = @Pt RA x 3) /\ (forall x, sm_pos (sample_centre (lk_curve l2') x) = @Pt RA x (-3)).
Proof.
  destruct lanes_ok as (s & l1 & l2 & l3 & v & Hs & Ks & G1 & G2 & G3 & C1 & C2 & O1 & O2 & T1 & T2 & Ng & Ro & Kl & Gv & Lv).
  destruct (C85_mirror lanes_ops s (run_history _ _ _ _ Hs)) as (s' & Hh & _ & _ & V & L).
  destruct (V _ _ Gv) as (v' & Gv' & Lv' & _ & Pv' & _). destruct (L _ _ G2) as (l2' & G2' & _ & _ & _ & Q).
  assert (forall x, sm_pos (sample_centre (lk_curve l2) x) = @Pt RA x 3) as A.
  { intros x. destruct (T2 x) as (E & _). unfold sample_centre. destruct (lc_seg (lk_curve l2) x) as (q, t). cbn [fst snd] in E. cbn [sm_pos]. rewrite E. unfold on_line. cbn [px py]. f_equal; cbn; lra. }
  exists s, s', l2, l2', v, v'. do 4 (split; [assumption|]). split; [congruence|]. split; [assumption|]. do 2 (split; [assumption|]). split; [exact A|].
  intros x. rewrite (proj1 (Q x)), A. reflexivity.
Qed.

Print Assumptions C85_mirror.
Print Assumptions C85_panics.
Print Assumptions C85_example.
