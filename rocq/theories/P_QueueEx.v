(** * A concrete case of C63, C64, C65 and C66: two cars on a road that ends *)
From Coq Require Import List Bool ZArith NArith Arith Lia Reals Lra.
From Verif Require Import Arith RealArith Base BaseProofs SlotMap Util Geom Light Accel Net Path Vehicle LinkOps Sim SpecSim SpecMotion SlotMapProofs Safe NetInv SimInv AccSafe SimSafe StepSafe OpSafe Evo StepEvo SimProofs StepProofs Ord LogProofs Motion RFacts NetEvo LineProofs RaExample P_Motion P_Limit SpecEnter P_Enter P_Exit P_Coord SpecGap GapKin GapProofs StopProofs P_Gap SpecProg P_Prog SpecQueue QueueProofs P_Queue.
Import ListNotations.
Local Open Scope R_scope.

(** A side lane that begins 30 m after the start of a road of 60 m, 3 m beside it.  The first car is moved from the side lane to the
    road, where it is then 30 m in front of the second car. *)
Definition side_id : key := Key 1 1.
Definition road_id : key := Key 2 1.
Definition first_car : key := Key 1 1.
Definition second_car : key := Key 2 1.
Definition side_line : @curve RA := @ls_curve RA (@LineSeg RA (@Pt RA 30 3) (@Pt RA 1 0) 30).
Definition road_line : @curve RA := @ls_curve RA (@LineSeg RA (@Pt RA 0 0) (@Pt RA 1 0) 60).
Definition road_ops : list (@op RA) := [OAddLink side_line 10; OAddLink road_line 10; OAddVehicle ra_car side_id; @OLaneChange RA first_car road_id 5; OAddVehicle ra_car road_id].
Lemma road_ok : exists s l l2 v v2, run ra_env (@sim_new RA) road_ops = Ok s /\ sm_keys (s_links s) = [side_id; road_id] /\ link_at s side_id = Some l2 /\ link_at s road_id = Some l /\
  lk_vehicles l = [second_car; first_car] /\ lk_out l = [] /\ lk_out l2 = [] /\ lk_changes l = [] /\ lk_changes l2 = [] /\ lk_group l = None /\ lk_group l2 = None /\ sm_keys (s_lights s) = [] /\
  vehicle_at s second_car = Some v /\ vehicle_at s first_car = Some v2 /\ v_pos v = 0 /\ v_pos v2 = 30 /\ v_vel v = 0 /\ v_vel v2 = 0 /\ v_entered v = 1%nat /\ v_entered v2 = 1%nat /\ v_destination v = null_key /\ v_destination v2 = null_key /\
  spec_of v = attr_spec ra_car /\ spec_of v2 = attr_spec ra_car /\ lk_limit l = 10 /\ lk_limit l2 = 10 /\ 59 < lk_length l <= 60 /\ 29 < lk_length l2 <= 30 /\ lk_cost l = link_cost (lk_length l) 10 /\ lk_cost l2 = link_cost (lk_length l2) 10 /\
  s_lc_update s = 0.
Proof.
  assert (unit (@Pt RA 1 0)) as U by (unfold unit; cbn; lra).
  assert (121 < INR 200) as F by (rewrite INR_IZR_INZ; cbn -[IZR]; apply IZR_lt; reflexivity).
  destruct (line_curve (@Pt RA 30 3) (@Pt RA 1 0) 30 U 200) as (lc & Hlc & H1 & H2 & H3 & H4); [lra|lra|].
  destruct (line_curve (@Pt RA 0 0) (@Pt RA 1 0) 60 U 200) as (ld & Hld & J1 & J2 & J3 & J4); [lra|lra|].
  assert (forall point dir, exists slope, inverse_sample ld point dir = Ok (Some (@dot RA (vsub point (@Pt RA 0 0)) (@Pt RA 1 0), @dot RA (vsub point (@Pt RA 0 0)) (rot90 (@Pt RA 1 0)), slope))) as Hi.
  { intros point dir. destruct (C36_straight ld (@Pt RA 0 0) (@Pt RA 1 0) point dir U J4) as (slope & Hi & _). eauto. }
  cbn [run road_ops exec]. unfold add_link. cbn [e_fuel ra_env]. unfold link_new at 1 2. unfold side_line, road_line. rewrite Hlc, Hld. cbn [bind fst].
  unfold add_vehicle at 1, set_location, set_origin, upd_link, get_link. cbn -[link_cost sample_centre update_coords insert_vehicle do_lane_change add_vehicle].
  unfold update_coords. cbn -[link_cost sample_centre vsub rot90 calc_direction vadd long_offset nmin nmax dot insert_vehicle do_lane_change add_vehicle].
  unfold insert_vehicle. cbn -[link_cost sample_centre vsub rot90 calc_direction vadd long_offset nmin nmax dot do_lane_change add_vehicle].
  rewrite H3. cbn [sm_pos sm_tan].
  unfold do_lane_change, get_vehicle, upd_link, get_link, set_location, set_origin. cbn -[link_cost inverse_sample vsub rot90 calc_direction vadd long_offset nmin nmax dot insert_vehicle cubic_fit add_vehicle].
  match goal with |- context [inverse_sample ld ?p ?d] => destruct (Hi p d) as (slope & ->) end.
  cbn -[link_cost inverse_sample vsub rot90 calc_direction vadd long_offset nmin nmax dot insert_vehicle cubic_fit add_vehicle]. unfold insert_vehicle. cbn -[link_cost inverse_sample vsub rot90 calc_direction vadd long_offset nmin nmax dot cubic_fit add_vehicle].
  assert (@dot RA (vsub (on_line (@Pt RA 30 3) (@Pt RA 1 0) 0) (@Pt RA 0 0)) (@Pt RA 1 0) = 30) as E30 by (unfold dot, on_line; cbn [vsub px py]; unR; lra).
  rewrite E30.
  unfold add_vehicle, set_location, set_origin, upd_link, get_link. cbn -[link_cost sample_centre update_coords insert_vehicle vsub rot90 calc_direction vadd long_offset nmin nmax dot cubic_fit].
  unfold update_coords. cbn -[link_cost sample_centre vsub rot90 calc_direction vadd long_offset nmin nmax dot insert_vehicle cubic_fit].
  unfold insert_vehicle. cbn -[link_cost sample_centre vsub rot90 calc_direction vadd long_offset nmin nmax dot cubic_fit].
  replace (Raux.Rlt_bool 0 30) with true by (symmetry; apply Raux.Rlt_bool_true; lra). cbn -[link_cost sample_centre vsub rot90 calc_direction vadd long_offset nmin nmax dot cubic_fit].
  eexists _, _, _, _, _. split; [reflexivity|]. cbn -[link_cost sample_centre vsub rot90 calc_direction vadd long_offset nmin nmax dot cubic_fit].
  repeat (split; [first [reflexivity|unfold lk_length; cbn [lk_curve set_vehicles]; lra]|]). reflexivity.
Qed.


Lemma car_parts (v : @vehicle RA) : spec_of v = attr_spec ra_car -> v_half_len v = 2 /\ headway v = 2 /\ max_acc v = 2 /\ comf_dec v = 2.
Proof.
  unfold spec_of, attr_spec, headway, max_acc, comf_dec. intros H. injection H as _ E1 _ E2 E3 E4. rewrite E1, E2, E3, E4. split; [|auto]. clear. unfold nhalf. cbn. lra.
Qed.
Lemma car_careful (v : @vehicle RA) : spec_of v = attr_spec ra_car -> careful 10 (1 / 10) v.
Proof.
  intros Sp. destruct (car_parts _ Sp) as (_ & E1 & E2 & E3). unfold careful, refresh_time. rewrite E1, E2, E3.
  assert (sqrt (2 / (2 + 6)) = 1 / 2) as ->. { replace (2 / (2 + 6)) with (1 / 2 * (1 / 2)) by lra. apply sqrt_square. lra. }
  assert (sqrt ((2 + 6) * 2) = 4) as ->. { replace ((2 + 6) * 2) with (4 * 4) by lra. apply sqrt_square. lra. }
  lra.
Qed.
Lemma road_cost (x : R) : 29 < x <= 60 -> (2 * @link_cost RA x 10%R <= usize_max)%Z.
Proof.
  intros B. unfold link_cost. unR. assert (Raux.Ztrunc (10 * x / 10) <= 60)%Z.
  { rewrite Raux.Ztrunc_floor by lra. apply Z.lt_succ_r. apply lt_IZR. eapply Rle_lt_trans; [apply Raux.Zfloor_lb|]. cbn. lra. }
  change (@ncast RA usize_max (10 * x / 10)) with (Z.max 0 (Z.min usize_max (Raux.Ztrunc (10 * x / 10)))). unfold usize_max. lia.
Qed.

(** The hypotheses of C65 and C66 hold: these two cars drive up to the end of the road and stop there, whatever
    the lengths of the time steps, up to 0.1 s. *)
Lemma road_facts : exists s l v v2, history (@sim_new RA) road_ops s /\ List.Forall (one_limit 10 (1 / 10)) road_ops /\ positive_roads s /\ plain_groups s /\ good_lights s /\ small_costs s /\
  no_way_in s road_id /\ link_at s road_id = Some l /\ lk_out l = [] /\ lk_vehicles l = [second_car; first_car] /\ vehicle_at s second_car = Some v /\ vehicle_at s first_car = Some v2 /\
  waits_well 10 (1 / 10) road_id v /\ waits_well 10 (1 / 10) road_id v2 /\ room_to_react (max_acc v) (1 / 10) (v_vel v) (v_vel v2) (gap v v2) /\ room_to_react (max_acc v2) (1 / 10) (v_vel v2) 0 (room_left l v2) /\ s_lc_update s = 0 /\
  gap v v2 = 26 /\ 27 < room_left l v2 /\ lk_limit l = 10.
Proof.
  destruct road_ok as (s & l & l2 & v & v2 & H & Ks & Gl2 & Gl & Ev & O1 & O2 & C1 & C2 & G1 & G2 & Kl & Gv & Gv2 & P1 & P2 & V1 & V2 & E1 & E2 & D1 & D2 & S1 & S2 & L1 & L2 & Le1 & Le2 & Co1 & Co2 & Tl).
  assert (forall k x, link_at s k = Some x -> k = side_id /\ x = l2 \/ k = road_id /\ x = l) as Two.
  { intros k x G. assert (In k (sm_keys (s_links s))) as Hk by (apply in_keys; unfold link_at in G; unfold valid; apply sm_mem_get; eauto). rewrite Ks in Hk. destruct Hk as [<-|[<-|[]]]; [left|right]; split; congruence. }
  destruct (car_parts _ S1) as (X1 & X2 & X3 & X4). destruct (car_parts _ S2) as (Y1 & Y2 & Y3 & Y4).
  exists s, l, v, v2. split; [eapply run_history; exact H|]. split.
  { repeat constructor; cbn; lra. }
  split. { intros k x G. destruct (Two k x G) as [(_ & ->)|(_ & ->)]; lra. }
  split. { intros k x G. destruct (Two k x G) as [(_ & ->)|(_ & ->)]; (split; [assumption|]); intros g Eg; congruence. }
  split. { intros k x G. assert (In k (sm_keys (s_lights s))) as Hk by (apply in_keys; unfold valid; apply sm_mem_get; eauto). rewrite Kl in Hk. destruct Hk. }
  split. { intros k x G. rewrite Ks. cbn [length]. destruct (Two k x G) as [(_ & ->)|(_ & ->)]; [rewrite Co2|rewrite Co1]; apply road_cost; lra. }
  split. { intros x. split; [|split]; intros (lx & Gx & Hin); destruct (Two _ _ Gx) as [(_ & ->)|(_ & ->)]; rewrite ?O1, ?O2, ?C1, ?C2 in Hin; destruct Hin. }
  do 5 (split; [assumption|]).
  assert (room_to_react 2 (1 / 10) 10 0 (5 * 10)) as Far by (unfold room_to_react, refresh_time; lra).
  split. { split; [apply car_careful; exact S1|]. rewrite X1, X3. split; [lra|]. split; [exact E1|]. split; [rewrite D1; discriminate|exact Far]. }
  split. { split; [apply car_careful; exact S2|]. rewrite Y1, Y3. split; [lra|]. split; [exact E2|]. split; [rewrite D2; discriminate|exact Far]. }
  assert (gap v v2 = 26) as Eg by (unfold gap, pos_rear, pos_front; rewrite P1, P2, X1, Y1; unR; lra).
  assert (27 < room_left l v2) as Er by (unfold room_left, pos_front; rewrite P2, Y1; unR; lra).
  rewrite X3, Y3, V1, V2, Eg. split; [unfold room_to_react, refresh_time; lra|]. split; [unfold room_to_react, refresh_time; lra|]. auto.
Qed.
Example C66_example :
  exists s l v v2, history (@sim_new RA) road_ops s /\ link_at s road_id = Some l /\ lk_vehicles l = [second_car; first_car] /\ vehicle_at s second_car = Some v /\ vehicle_at s first_car = Some v2 /\ gap v v2 = 26 /\ 27 < room_left l v2 /\
    forall dts pick, List.Forall (fun dt => 0 <= dt <= 1 / 10) dts -> exists n s', (forall fuel, (n <= fuel)%nat -> run (Env fuel pick) s (map (@OStep RA) dts) = Ok s') /\ still_queued road_id l s'.
Proof.
  destruct road_facts as (s & l & v & v2 & Hh & Fo & Pr & Gr & Li & Co & Nw & Gl & Out & El & Gv & Gv2 & W1 & W2 & R1 & R2 & _ & Eg & Er & _). exists s, l, v, v2. do 7 (split; [assumption|]). intros dts pick Fd.
  unfold vehicle_at in *. refine (C66_dead_end 10 (1 / 10) road_ops s dts pick road_id l _ _ Hh Fo Fd Pr Gr Li Co Nw Gl Out _ _ _); try lra.
  - intros k w Hk G. unfold vehicle_at in *. rewrite El in Hk. destruct Hk as [<-|[<-|[]]]; [assert (w = v) by congruence|assert (w = v2) by congruence]; subst w; assumption.
  - intros k k2 w w2 (pre & post & E) G G2. unfold vehicle_at in *. rewrite El in E. destruct pre as [|a [|b [|c pre]]]; try discriminate E. injection E as <- <- _. assert (w = v) by congruence. assert (w2 = v2) by congruence. subst. exact R1.
  - intros k w (bh & E) G. unfold vehicle_at in *. rewrite El in E. destruct bh as [|a [|b [|c bh]]]; try discriminate E. injection E as _ <-. assert (w = v2) by congruence. subst. exact R2.
Qed.
(** For any number of steps, the two cars meet the hypotheses of C63 and the first one those of C64. *)
Lemma road_queue L d lid ks (s : @sim RA) l k : 0 < L -> 0 <= d -> queue L d lid ks s -> link_at s lid = Some l -> lk_out l = [] -> first_on l k -> @nltb RA (s_lc_update s) LANE_CHANGE_UPDATE_SEC = true -> settled (held L lid k) s.
Proof.
  intros HL Hd ((ops & Hh & Fo) & Pos & Nw & l0 & Gl0 & El & Wv & _) Gl Out Hf Tl. unfold link_at in Gl. assert (l0 = l) by congruence. subst l0.
  assert (held L lid k s) as Hd'.
  { assert (@reachable RA s) as Rc by exact (history_reachable _ _ _ Hh (@reach_new RA)). pose proof (reachable_Inv _ Rc) as I.
    split; [split; [apply Nw|intros x; split; apply (Nw x)]|]. destruct (Wv k) as (v & G & W); [rewrite <- El; apply first_on_in; exact Hf|]. destruct Hf as (bh & E). exists l, v, bh. split; [exact Gl|]. split; [exact E|]. split; [exact G|].
    destruct W as (_ & _ & W1 & W2 & _). split; [exact W1|]. split; [apply (C10_speed_limit L d ops s k v); auto|]. right.
    destruct (st_occ _ _ _ (i_st _ I) _ _ Gl) as (_ & Oc). assert (at_of (s_vehicles s) k = Some lid) as Lv. { apply Oc. rewrite E. apply in_or_app. right. left. reflexivity. }
    unfold at_of in Lv. rewrite G in Lv. pose proof (vb_chain _ _ _ _ (st_veh _ _ _ (i_st _ I) _ _ G)) as Ch.
    assert (v_route v = [lid]) as Er.
    { unfold v_link in Lv. destruct (v_route v) as [|a [|b r]]; try discriminate Lv; cbn in Lv; injection Lv as ->; [reflexivity|]. cbn [chain] in Ch. destruct Ch as (_ & (lx & Gx & Hin) & _). assert (lx = l) by congruence. subst lx. rewrite Out in Hin. destruct Hin. }
    split; [unfold next_link; rewrite W1, Er; reflexivity|]. destruct (v_can_exit v) eqn:Cx; [exfalso|reflexivity]. pose proof (C34_only_at_destination RA s k v Rc G Cx) as X. rewrite Er in X. apply W2. symmetry. exact X. }
  split; [exact Hd'|]. intros e s1 H. unfold calculate_lane_changes in H. rewrite Tl in H. injection H as <-. exact Hd'.
Qed.
Lemma road_follows L d lid ks (s : @sim RA) l k k2 : 0 < L -> 0 <= d -> queue L d lid ks s -> link_at s lid = Some l -> right_behind l k k2 -> follows L lid k k2 s.
Proof.
  intros HL Hd ((ops & Hh & Fo) & Pos & Nw & l0 & Gl0 & El & Wv & _) Gl Hb. unfold link_at in Gl. assert (l0 = l) by congruence. subst l0.
  destruct (right_behind_in _ _ _ Hb) as (Hk & Hk2). rewrite El in Hk, Hk2. destruct (Wv _ Hk) as (v & G & _). destruct (Wv _ Hk2) as (v2 & G2 & _).
  split; [split; [apply Nw|intros x; split; apply (Nw x)]|]. exists l, v, v2. do 4 (split; [assumption|]). apply (C10_speed_limit L d ops s k v); auto.
Qed.
Example C63_C64_example :
  exists s s' l v v2, history (@sim_new RA) road_ops s /\ List.Forall forward road_ops /\ throughout (follows 10 road_id second_car first_car) (keep_lanes (1 / 10) [second_car; first_car]) s [@OStep RA (1 / 10); @OStep RA (1 / 20)] s' /\
    throughout (settled (held 10 road_id first_car)) (keep_lanes (1 / 10) [first_car]) s [@OStep RA (1 / 10); @OStep RA (1 / 20)] s' /\
    link_at s road_id = Some l /\ vehicle_at s second_car = Some v /\ vehicle_at s first_car = Some v2 /\ careful 10 (1 / 10) v /\ careful 10 (1 / 10) v2 /\ room_to_react (max_acc v) (1 / 10) (v_vel v) (v_vel v2) (gap v v2) /\
    room_to_react (max_acc v2) (1 / 10) (v_vel v2) 0 (room_left l v2) /\ room_to_react (max_acc v2) (1 / 10) 10 0 (5 * lk_limit l).
Proof.
  destruct road_facts as (s & l & v & v2 & Hh & Fo & Pr & Gr & Li & Co & Nw & Gl & Out & El & Gv & Gv2 & W1 & W2 & R1 & R2 & Tl & Eg & Er & Lm).
  assert (@reachable RA s) as Rc by exact (history_reachable _ _ _ Hh (@reach_new RA)).
  assert (queue 10 (1 / 10) road_id [second_car; first_car] s) as Q.
  { rewrite <- El. unfold vehicle_at in *. refine (queue_start 10 (1 / 10) road_id road_ops s l _ _ Hh Fo _ Nw Gl _ _ _); try lra.
    - intros k x G. apply (Pr k x G).
    - intros k w Hk G. unfold vehicle_at in *. rewrite El in Hk. destruct Hk as [<-|[<-|[]]]; [assert (w = v) by congruence|assert (w = v2) by congruence]; subst w; assumption.
    - intros k k2 w w2 (pre & post & E) G G2. unfold vehicle_at in *. rewrite El in E. destruct pre as [|a [|b [|c pre]]]; try discriminate E. injection E as <- <- _. assert (w = v) by congruence. assert (w2 = v2) by congruence. subst. exact R1.
    - intros k w (bh & E) G. unfold vehicle_at in *. rewrite El in E. destruct bh as [|a [|b [|c bh]]]; try discriminate E. injection E as _ <-. assert (w = v2) by congruence. subst. exact R2. }
  assert (forall (t t' : @sim RA) e (dt : R), reachable t -> step e t dt = Ok t' -> 0 <= dt <= 1 / 10 -> queue 10 (1 / 10) road_id [second_car; first_car] t -> (exists l, link_at t road_id = Some l /\ lk_out l = []) ->
    queue 10 (1 / 10) road_id [second_car; first_car] t' /\ exists l, link_at t' road_id = Some l /\ lk_out l = []) as Go.
  { intros t t' e dt Rt Ht Hdt Qt (lt & Gt & Ot). split.
    - refine (queue_step 10 (1 / 10) road_id _ _ _ e t (@OStep RA dt) t' Qt _ Hdt Ht); try lra. left. intros x (lx & Gx & Hin). unfold link_at in Gt. assert (lx = lt) by congruence. subst lx. rewrite Ot in Hin. destruct Hin.
    - pose proof (step_same_net _ _ _ _ (reachable_Inv _ Rt) Ht) as Sn. assert (valid (s_links t') road_id) as V by (apply (same_net_valid _ _ _ Sn); apply sm_mem_get; eauto). apply sm_mem_get in V. destruct V as (l1 & G1). exists l1. split; [exact G1|].
      destruct (same_net_get _ _ _ _ Sn G1) as (l0 & G0 & Es). unfold link_at in Gt. assert (l0 = lt) by congruence. subst l0. unfold lk_static in Es. inversion Es. congruence. }
  destruct (C65_goes_on [1 / 10; 1 / 20] s (fun _ _ _ _ => 0%nat) Rc Pr Gr Li Co) as (n & s' & H). specialize (H n (le_n _)). cbn [map run] in H. bok H s1 H1. bok H s2 H2. injection H as <-.
  pose proof (reach_call _ _ _ _ Rc H1) as Rc1. cbn [exec] in H1, H2.
  destruct (Go s s1 _ _ Rc H1 ltac:(lra) Q ltac:(eauto)) as (Q1 & l1 & Gl1 & O1). destruct (Go s1 s2 _ _ Rc1 H2 ltac:(lra) Q1 ltac:(eauto)) as (Q2 & l2 & Gl2 & O2).
  assert (forall (t : @sim RA) lt, queue 10 (1 / 10) road_id [second_car; first_car] t -> link_at t road_id = Some lt -> lk_vehicles lt = [second_car; first_car]) as Lv. { intros t lt (_ & _ & _ & l0 & G0 & E0 & _) Gt. unfold link_at in Gt. congruence. }
  assert (forall (t : @sim RA) lt, queue 10 (1 / 10) road_id [second_car; first_car] t -> link_at t road_id = Some lt -> follows 10 road_id second_car first_car t) as Ff.
  { intros t lt Qt Gt. refine (road_follows 10 (1 / 10) road_id _ t lt _ _ _ _ Qt Gt _); try lra. exists [], []. exact (Lv _ _ Qt Gt). }
  assert (forall (t : @sim RA) lt, queue 10 (1 / 10) road_id [second_car; first_car] t -> link_at t road_id = Some lt -> lk_out lt = [] -> s_lc_update t < 1 / 4 -> settled (held 10 road_id first_car) t) as Hh'.
  { intros t lt Qt Gt Ot Tt. refine (road_queue 10 (1 / 10) road_id _ t lt _ _ _ Qt Gt Ot _ _); try lra; [exists [second_car]; exact (Lv _ _ Qt Gt)|]. apply ltb_R. unfold LANE_CHANGE_UPDATE_SEC, lit. unR. lra. }
  assert (s_lc_update s1 < 1 / 4 /\ s_lc_update s2 < 1 / 4) as (T1 & T2).
  { destruct (step_timers _ _ _ _ (reachable_Inv _ Rc) H1) as (_ & E1). destruct (step_timers _ _ _ _ (reachable_Inv _ Rc1) H2) as (_ & E2).
    assert (forall x : R, x < 1 / 4 -> @nltb RA x LANE_CHANGE_UPDATE_SEC = true) as Lt by (intros x Hx; apply ltb_R; unfold LANE_CHANGE_UPDATE_SEC, lit; unR; lra).
    rewrite (Lt (s_lc_update s)) in E1 by lra. rewrite Tl in E1. revert E1. unR. intros E1. rewrite (Lt (s_lc_update s1)) in E2 by lra. revert E2. unR. intros E2. lra. }
  exists s, s2, l, v, v2. split; [exact Hh|]. split; [repeat constructor; cbn; lra|]. split; [|split].
  - econstructor; [eapply Ff; eauto|cbn; lra|exact H1|]. econstructor; [eapply Ff; eauto|cbn; lra|exact H2|]. constructor. eapply Ff; eauto.
  - econstructor; [eapply Hh'; eauto; lra|cbn; lra|exact H1|]. econstructor; [eapply Hh'; eauto|cbn; lra|exact H2|]. constructor. eapply Hh'; eauto.
  - do 3 (split; [assumption|]). split; [apply W1|]. split; [apply W2|]. split; [exact R1|]. split; [exact R2|].
    rewrite Lm. apply W2.
Qed.
Example C65_example : exists s : @sim RA, history (@sim_new RA) road_ops s /\ reachable s /\ positive_roads s /\ plain_groups s /\ good_lights s /\ small_costs s.
Proof.
  destruct road_facts as (s & l & v & v2 & Hh & Fo & Pr & Gr & Li & Co & _). exists s. split; [exact Hh|]. split; [exact (history_reachable _ _ _ Hh (@reach_new RA))|]. auto.
Qed.
