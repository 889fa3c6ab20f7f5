(** * A concrete case of C73: two cars on a road of three links of 30 m each *)
From Coq Require Import List Bool ZArith NArith Arith Lia Reals Lra Sorting.Sorted Relations.
From Verif Require Import Arith RealArith Base BaseProofs SlotMap Util Geom Light Accel Net Path Vehicle LinkOps Sim SpecSim SpecMotion SlotMapProofs Safe NetInv SimInv AccSafe SimSafe StepSafe OpSafe Evo StepEvo SimProofs StepProofs Ord LogProofs Motion RFacts NetEvo LineProofs RaExample P_Motion P_Limit SpecNet SpecEnter SpecRoute P_Order P_Exit SpecGap GapProofs P_Gap SpecProg P_Prog SpecCheap P_QueueEx SpecRoad SpecArrive SpecClear RoadLists P_Road.
Import ListNotations.
Local Open Scope R_scope.

Definition part1 : key := Key 1 1.
Definition part2 : key := Key 2 1.
Definition part3 : key := Key 3 1.
Definition ahead_car : key := Key 1 1.
Definition behind_car : key := Key 2 1.
Definition line30 (x : R) : @curve RA := @ls_curve RA (@LineSeg RA (@Pt RA x 0) (@Pt RA 1 0) 30).
Definition lay_ops : list (@op RA) := [OAddLink (line30 0) 10; OAddLink (line30 30) 10; OAddLink (line30 60) 10; OAddConnection part1 part2; OAddConnection part2 part3; OAddVehicle ra_car part2; OAddVehicle ra_car part1].
Definition go_ops : list (@op RA) := lay_ops ++ [OSetDestination ahead_car part3; OSetDestination behind_car part3].
Lemma lay_ok : exists (s : @sim RA) (l1 l2 l3 : @link RA) (v w : @vehicle RA), run ra_env (@sim_new RA) lay_ops = Ok s /\ sm_keys (s_links s) = [part1; part2; part3] /\ link_at s part1 = Some l1 /\ link_at s part2 = Some l2 /\ link_at s part3 = Some l3 /\
  lk_out l1 = [part2] /\ lk_out l2 = [part3] /\ lk_out l3 = [] /\ lk_vehicles l1 = [behind_car] /\ lk_vehicles l2 = [ahead_car] /\ lk_vehicles l3 = [] /\
  List.Forall (fun (l : @link RA) => lk_group l = None /\ lk_changes l = [] /\ (lk_limit l : R) = 10 /\ 29 < lk_length l <= 30 /\ lk_cost l = link_cost (lk_length l) 10 /\ lk_control l = COpen /\ lk_conflicts l = []) [l1; l2; l3] /\ s_frozen s = [] /\
  sm_keys (s_lights s) = [] /\ sm_keys (s_vehicles s) = [ahead_car; behind_car] /\ vehicle_at s ahead_car = Some v /\ v_route v = [part2] /\ v_lane_change v = None /\ (v_pos v : R) = 0 /\ (v_vel v : R) = 0 /\ spec_of v = attr_spec ra_car /\
  vehicle_at s behind_car = Some w /\ v_route w = [part1] /\ v_lane_change w = None /\ (v_pos w : R) = 0 /\ (v_vel w : R) = 0 /\ spec_of w = attr_spec ra_car.
Proof.
  assert (unit (@Pt RA 1 0)) as U by (unfold unit; cbn; lra).
  assert (121 < INR 200) as F by (rewrite INR_IZR_INZ; cbn -[IZR]; apply IZR_lt; reflexivity).
  destruct (line_curve (@Pt RA 0 0) (@Pt RA 1 0) 30 U 200) as (lc & Hlc & H1 & H2 & H3 & H4); [lra|lra|].
  destruct (line_curve (@Pt RA 30 0) (@Pt RA 1 0) 30 U 200) as (ld & Hld & J1 & J2 & J3 & J4); [lra|lra|].
  destruct (line_curve (@Pt RA 60 0) (@Pt RA 1 0) 30 U 200) as (le & Hle & K1 & K2 & K3 & K4); [lra|lra|].
  cbn [run lay_ops exec]. unfold add_link. cbn [e_fuel ra_env]. unfold link_new at 1 2 3. unfold line30. rewrite Hlc, Hld, Hle. cbn [bind fst].
  unfold add_link_connection, upd_link, get_link. cbn -[link_cost sample_centre add_vehicle].
  unfold add_vehicle at 1, set_location, set_origin, upd_link, get_link. cbn -[link_cost sample_centre update_coords insert_vehicle add_vehicle].
  unfold update_coords. cbn -[link_cost sample_centre vsub rot90 calc_direction vadd long_offset nmin nmax dot insert_vehicle add_vehicle].
  unfold insert_vehicle. cbn -[link_cost sample_centre vsub rot90 calc_direction vadd long_offset nmin nmax dot add_vehicle].
  unfold add_vehicle, set_location, set_origin, upd_link, get_link. cbn -[link_cost sample_centre update_coords insert_vehicle vsub rot90 calc_direction vadd long_offset nmin nmax dot].
  unfold update_coords. cbn -[link_cost sample_centre vsub rot90 calc_direction vadd long_offset nmin nmax dot insert_vehicle].
  unfold insert_vehicle. cbn -[link_cost sample_centre vsub rot90 calc_direction vadd long_offset nmin nmax dot].
  eexists _, _, _, _, _, _. split; [reflexivity|]. cbn -[link_cost sample_centre vsub rot90 calc_direction vadd long_offset nmin nmax dot].
  do 10 (split; [reflexivity|]). split; [|repeat split].
  repeat (apply List.Forall_cons; [repeat (split; [first [reflexivity|unfold lk_length; cbn [lk_curve set_vehicles add_link_in add_link_out]; lra]|]); reflexivity|]). apply List.Forall_nil.
Qed.

Lemma lay_cost (x : R) : 29 < x <= 30 -> (3 * @link_cost RA x 10%R <= usize_max)%Z.
Proof.
  intros B. unfold link_cost. unR. assert (Raux.Ztrunc (10 * x / 10) <= 30)%Z.
  { rewrite Raux.Ztrunc_floor by lra. apply Z.lt_succ_r. apply lt_IZR. eapply Rle_lt_trans; [apply Raux.Zfloor_lb|]. cbn. lra. }
  change (@ncast RA usize_max (10 * x / 10)) with (Z.max 0 (Z.min usize_max (Raux.Ztrunc (10 * x / 10)))). unfold usize_max. lia.
Qed.
Lemma sent_both ops (s : @sim RA) road k : sent_ahead ops s road k -> sent_along ops s road k.
Proof. intros (ops1 & e & s0 & s1 & ops2 & v0 & a & E & H1 & H & H2 & G0 & R0 & Ha & _ & Ho). exists ops1, e, s0, s1, ops2, v0, a. auto 10. Qed.
(** Setting a destination changes only the plans of one vehicle. *)
Lemma set_same {A : Arith} e (s : sim) k d s' : exec e s (OSetDestination k d) = Ok s' ->
  s_links s' = s_links s /\ s_lights s' = s_lights s /\ s_frozen s' = s_frozen s /\ (forall y v, vehicle_at s y = Some v -> exists w, vehicle_at s' y = Some w) /\
  forall y w, vehicle_at s' y = Some w -> exists v, vehicle_at s y = Some v /\ v_route w = v_route v /\ v_lane_change w = v_lane_change v /\ v_pos w = v_pos v /\ v_vel w = v_vel v /\ spec_of w = spec_of v.
Proof.
  intros H. unfold vehicle_at in *. cbn [exec] in H. unfold set_vehicle_destination in H. bok H v0 Hv0. bok H v1 Hv1. injection H as <-.
  unfold get_vehicle in Hv0. destruct (sm_get (s_vehicles s) k) as [v|] eqn:G; [|discriminate Hv0]. injection Hv0 as ->. unfold set_destination in Hv1. bok Hv1 pfb Hpb. injection Hv1 as <-.
  assert (sm_mem (s_vehicles s) k = true) as M by (apply sm_mem_get; eauto).
  do 3 (split; [reflexivity|]). cbn [s_vehicles with_vehicles]. split.
  - intros y v Gv. rewrite sm_get_set. destruct (key_eqb_spec k y) as [<-|]; [rewrite M; eexists; reflexivity|eauto].
  - intros y w Gw. rewrite sm_get_set in Gw. destruct (key_eqb_spec k y) as [<-|]; [rewrite M in Gw; cbn [andb] in Gw; injection Gw as <-; exists v0; split; [exact G|repeat (split; [reflexivity|]); reflexivity]|].
    cbn [andb] in Gw. exists w. auto 10.
Qed.

(** The hypotheses of C73 and C74 hold. *)
Lemma go_facts : forall (pick : @linkset RA -> key -> key -> nat -> nat), exists s : @sim RA, history (@sim_new RA) go_ops s /\ List.Forall (one_limit 10 (1 / 10)) go_ops /\ groups_apart go_ops /\ no_lanes s /\ single_road (s_links s) [part1; part2; part3] /\
  good_traffic 10 (1 / 10) 20 2 [part1; part2; part3] [ahead_car; behind_car] go_ops s /\ positive_roads s /\ plain_groups s /\ good_lights s /\ small_costs s /\
  (exists v, on_road s [part1; part2; part3] behind_car v) /\ (exists v, on_road s [part1; part2; part3] ahead_car v) /\
  all_go [part1; part2; part3] go_ops s /\ open_roads s /\ no_lights s /\ no_way_back (s_links s) /\ (forall x l, link_at s x = Some l -> 2 + 3 <= lk_length l).
Proof.
  intros pick. destruct lay_ok as (s & l1 & l2 & l3 & v & w & H & Ks & G1 & G2 & G3 & O1 & O2 & O3 & V1 & V2 & V3 & F & Fz & Kl & Kv & Gv & Rv & Lv & Pv & Xv & Sv & Gw & Rw & Lw & Pw & Xw & Sw).
  inversion F as [|? ? (A3 & A4 & A5 & A6 & A7 & A8 & A9) F1]; subst. inversion F1 as [|? ? (B3 & B4 & B5 & B6 & B7 & B8 & B9) F2]; subst. inversion F2 as [|? ? (C3 & C4 & C5 & C6 & C7 & C8 & C9) _]; subst. clear F F1 F2.
  assert (history (@sim_new RA) lay_ops s) as Hh by (eapply run_history; exact H). set (road := [part1; part2; part3]).
  assert (forall k x, link_at s k = Some x -> k = part1 /\ x = l1 \/ k = part2 /\ x = l2 \/ k = part3 /\ x = l3) as Three.
  { intros k x G. assert (In k (sm_keys (s_links s))) as Hk by (apply in_keys; unfold link_at in G; unfold valid; apply sm_mem_get; eauto). rewrite Ks in Hk.
    destruct Hk as [<-|[<-|[<-|[]]]]; [left|right; left|right; right]; split; congruence. }
  assert (forall k x, vehicle_at s k = Some x -> k = ahead_car /\ x = v \/ k = behind_car /\ x = w) as Two.
  { intros k x G. assert (In k (sm_keys (s_vehicles s))) as Hk by (apply in_keys; unfold vehicle_at in G; unfold valid; apply sm_mem_get; eauto). rewrite Kv in Hk.
    destruct Hk as [<-|[<-|[]]]; [left|right]; split; congruence. }
  assert (reachable s) as Rc by (eapply history_reachable; [exact Hh|constructor]).
  assert (positive_roads s) as Pr. { intros x l G. destruct (Three x l G) as [(_ & ->)|[(_ & ->)|(_ & ->)]]; lra. }
  assert (plain_groups s) as Pg. { intros x l G. destruct (Three x l G) as [(_ & ->)|[(_ & ->)|(_ & ->)]]; (split; [assumption|]); intros g Eg; congruence. }
  assert (good_lights s) as Gl. { intros k x G. assert (In k (sm_keys (s_lights s))) as Hk by (apply in_keys; unfold valid; apply sm_mem_get; eauto). rewrite Kl in Hk. destruct Hk. }
  assert (small_costs s) as Co. { intros x l G. rewrite Ks. change (Z.of_nat (length [part1; part2; part3])) with 3%Z. destruct (Three x l G) as [(_ & ->)|[(_ & ->)|(_ & ->)]]; rewrite ?A7, ?B7, ?C7; apply lay_cost; assumption. }
  destruct (C65_destination_returns s ahead_car part3 pick Rc Co) as (n1 & s1 & H1); [congruence|congruence|]. specialize (H1 n1 (le_n _)).
  destruct (set_same _ _ _ _ _ H1) as (El1 & Eg1 & Ez1 & Up1 & Dn1). pose proof (reach_call _ _ _ _ Rc H1) as Rc1.
  destruct (C65_destination_returns s1 behind_car part3 pick Rc1) as (n2 & s2 & H2); [unfold small_costs, link_at in *; rewrite El1; exact Co|destruct (Up1 _ _ Gw) as (w' & ->); discriminate|unfold link_at in *; rewrite El1; congruence|]. specialize (H2 n2 (le_n _)).
  destruct (set_same _ _ _ _ _ H2) as (El2 & Eg2 & Ez2 & Up2 & Dn2).
  assert (s_links s2 = s_links s) as El by congruence. assert (s_lights s2 = s_lights s) as Eg by congruence.
  assert (forall y x, vehicle_at s2 y = Some x -> exists x0, vehicle_at s y = Some x0 /\ v_route x = v_route x0 /\ v_lane_change x = v_lane_change x0 /\ v_pos x = v_pos x0 /\ v_vel x = v_vel x0 /\ spec_of x = spec_of x0) as Dn.
  { intros y x Gx. destruct (Dn2 y x Gx) as (x1 & Gx1 & Q1 & Q2 & Q3 & Q4 & Q5). destruct (Dn1 y x1 Gx1) as (x0 & Gx0 & R1 & R2 & R3 & R4 & R5). exists x0. split; [exact Gx0|]. repeat (split; [congruence|]). congruence. }
  assert (forall x y, next_on road x y -> x = part1 /\ y = part2 \/ x = part2 /\ y = part3) as Nx.
  { intros x y (pre & post & E). unfold road in E. destruct pre as [|a [|b [|c [|g pre]]]]; try discriminate E; injection E; intros; subst; auto. }
  assert (history (@sim_new RA) (lay_ops ++ [OSetDestination ahead_car part3]) s1) as Hh1 by (eapply history_app; [exact Hh|econstructor; [exact H1|constructor]]).
  exists s2. split. { unfold go_ops. eapply history_app; [exact Hh|]. econstructor; [exact H1|]. econstructor; [exact H2|constructor]. }
  split. { repeat constructor; cbn; lra. }
  split; [constructor|].
  split. { unfold no_lanes, link_at in *. rewrite El. intros x l G. destruct (Three x l G) as [(_ & ->)|[(_ & ->)|(_ & ->)]]; auto. }
  split.
  { rewrite El. split; [repeat constructor; cbn; intuition discriminate|]. split.
    - intros x [<-|[<-|[<-|[]]]]; apply sm_mem_get; eauto.
    - intros x y _. split.
      + intros (l & G & Hb). destruct (Three x l G) as [(-> & ->)|[(-> & ->)|(-> & ->)]]; [rewrite O1 in Hb|rewrite O2 in Hb|rewrite O3 in Hb; destruct Hb]; (destruct Hb as [<-|[]]); [exists [], [part3]|exists [part1], []]; reflexivity.
      + intros N. destruct (Nx x y N) as [(-> & ->)|(-> & ->)]; [exists l1; split; [exact G1|rewrite O1]|exists l2; split; [exact G2|rewrite O2]]; left; reflexivity. }
  assert (forall k x, on_road s2 road k x -> v_lane_change x = None /\ (v_pos x : R) = 0 /\ (v_vel x : R) = 0 /\ spec_of x = attr_spec ra_car /\ (k = ahead_car /\ v_link x = Some part2 \/ k = behind_car /\ v_link x = Some part1)) as On.
  { intros k x (G & _). destruct (Dn k x G) as (x0 & G0 & Q1 & Q2 & Q3 & Q4 & Q5). destruct (Two k x0 G0) as [(-> & ->)|(-> & ->)].
    - split; [congruence|]. split; [rewrite Q3; exact Pv|]. split; [rewrite Q4; exact Xv|]. split; [congruence|]. left. split; [reflexivity|]. unfold v_link. rewrite Q1, Rv. reflexivity.
    - split; [congruence|]. split; [rewrite Q3; exact Pw|]. split; [rewrite Q4; exact Xw|]. split; [congruence|]. right. split; [reflexivity|]. unfold v_link. rewrite Q1, Rw. reflexivity. }
  assert (length_of s2 part1 = lk_length l1 /\ length_of s2 part2 = lk_length l2) as (Le1 & Le2) by (unfold length_of, link_at in *; rewrite El, G1, G2; auto).
  assert (all_go road go_ops s2) as Ag.
  { intros k x O. destruct (On k x O) as (_ & _ & _ & _ & Q5). split; [unfold get_vehicle_frozen; rewrite Ez2, Ez1, Fz; reflexivity|]. destruct Q5 as [(-> & _)|(-> & _)].
    - exists lay_ops, (Env n1 pick), s, s1, [OSetDestination behind_car part3], v, part2. split; [reflexivity|]. split; [exact Hh|]. split; [exact H1|]. split; [econstructor; [exact H2|constructor]|]. split; [exact Gv|]. split; [exact Rv|]. split; [right; left; reflexivity|]. split; [discriminate|].
      intros o [<-|[]]. repeat split.
    - destruct (Up1 _ _ Gw) as (w1 & Gw1). destruct (Dn1 _ _ Gw1) as (w0 & Gw0 & R1 & _). assert (w0 = w) by congruence. subst w0.
      exists (lay_ops ++ [OSetDestination ahead_car part3]), (Env n2 pick), s1, s2, [], w1, part1. split; [reflexivity|]. split; [exact Hh1|]. split; [exact H2|]. split; [constructor|]. split; [exact Gw1|]. split; [congruence|]. split; [left; reflexivity|]. split; [discriminate|]. intros o []. }
  split.
  { split; [|split].
    - intros x l Hx G. unfold link_at in *. rewrite El in G. assert (forall (ks : list key), (length ks <= 1)%nat -> ordered s2 ks) as Or. { intros [|a [|b ks]] Hl; [constructor|repeat constructor|cbn in Hl; lia]. }
      destruct (Three x l G) as [(_ & ->)|[(_ & ->)|(_ & ->)]]; (split; [lra|apply Or; rewrite ?V1, ?V2, ?V3; cbn; lia]).
    - intros k x O. destruct (On k x O) as (Q1 & Q2 & Q3 & Q4 & Q5). destruct (car_parts _ Q4) as (X1 & X2 & X3 & X4). pose proof O as (Gx & _).
      split; [destruct Q5 as [(-> & _)|(-> & _)]; [left|right; left]; reflexivity|]. split; [|split].
      + exact (sent_both _ _ _ _ (proj2 (Ag k x O))).
      + split; [apply car_careful; exact Q4|]. rewrite X1, X3. split; [lra|]. unfold room_to_react, refresh_time. split; lra.
      + split; [exact Q1|]. destruct Q5 as [(_ & Lx)|(_ & Lx)]; [exists part2|exists part1]; (split; [exact Lx|]; rewrite ?Le1, ?Le2; split; [lra|]; right; right; exact Q2).
    - intros k k2 x x2 Ox Ox2 Nk Le. destruct (On k x Ox) as (Q1 & Q2 & Q3 & Q4 & Q5). destruct (On k2 x2 Ox2) as (T1 & T2 & T3 & T4 & T5). destruct (car_parts _ Q4) as (X1 & X2 & X3 & X4). destruct (car_parts _ T4) as (Y1 & _).
      assert (start_of (length_of s2) road part1 = 0 /\ start_of (length_of s2) road part2 = lk_length l1) as (St1 & St2). { unfold road. cbn [start_of key_eqb part1 part2]. change (start_of (length_of s2) [part1; part2; part3] part1 = 0 /\ start_of (length_of s2) [part1; part2; part3] part2 = lk_length l1). cbn. rewrite Le1. lra. }
      destruct Q5 as [(-> & Lx)|(-> & Lx)], T5 as [(-> & Lx2)|(-> & Lx2)]; try congruence.
      + exfalso. unfold road_pos in Le. rewrite Lx, Lx2, St1, St2, Q2, T2 in Le. lra.
      + unfold road_gap, road_pos. rewrite Lx, Lx2, St1, St2, Q2, T2, Q3, T3, X1, Y1, X3. unfold room_to_react, refresh_time. lra. }
  split; [unfold positive_roads, link_at in *; rewrite El; exact Pr|]. split; [unfold plain_groups, link_at in *; rewrite El; exact Pg|]. split; [unfold good_lights, link_at in *; rewrite El, Eg; exact Gl|]. split; [unfold small_costs, link_at in *; rewrite El; exact Co|].
  assert (forall k x0, vehicle_at s k = Some x0 -> exists x, vehicle_at s2 k = Some x /\ v_route x = v_route x0) as Up. { intros k x0 G0. destruct (Up1 _ _ G0) as (x1 & Gx1). destruct (Up2 _ _ Gx1) as (x2 & Gx2). exists x2. split; [exact Gx2|]. destruct (Dn _ _ Gx2) as (y & Gy & E & _). congruence. }
  destruct (Up _ _ Gv) as (v' & Gv' & Rv'). destruct (Up _ _ Gw) as (w' & Gw' & Rw').
  split; [exists w'; split; [exact Gw'|]; exists part1; unfold v_link; rewrite Rw', Rw; split; [reflexivity|left; reflexivity]|].
  split; [exists v'; split; [exact Gv'|]; exists part2; unfold v_link; rewrite Rv', Rv; split; [reflexivity|right; left; reflexivity]|].
  split; [exact Ag|]. assert (forall a b, succ_of (s_links s2) a b -> (k_idx a < k_idx b)%nat) as Up3.
  { rewrite El. intros a b (l & G & Hb). destruct (Three a l G) as [(-> & ->)|[(-> & ->)|(-> & ->)]]; [rewrite O1 in Hb|rewrite O2 in Hb|rewrite O3 in Hb]; [destruct Hb as [<-|[]]|destruct Hb as [<-|[]]|destruct Hb]; cbn; lia. }
  split. { unfold open_roads, link_at in *. rewrite El. intros x l G. destruct (Three x l G) as [(_ & ->)|[(_ & ->)|(_ & ->)]]; auto. }
  split. { unfold no_lights. rewrite Eg. intros k. destruct (sm_get (s_lights s) k) as [l|] eqn:G; [|reflexivity]. assert (In k (sm_keys (s_lights s))) as Hk by (apply in_keys; unfold valid; apply sm_mem_get; eauto). rewrite Kl in Hk. destruct Hk. }
  split. { intros a Q. assert (forall x y, clos_trans key (succ_of (s_links s2)) x y -> (k_idx x < k_idx y)%nat) as Up4. { intros x y T. induction T as [x y T|x y z _ IH1 _ IH2]; [exact (Up3 _ _ T)|lia]. } specialize (Up4 _ _ Q). lia. }
  unfold link_at in *. rewrite El. intros x l G. destruct (Three x l G) as [(_ & ->)|[(_ & ->)|(_ & ->)]]; lra.
Qed.

(** Sent to the end of the road, the two cars do not collide, whatever the lengths of the time steps, up to 0.1 s. *)
Example C73_example : forall pick, exists s : @sim RA, history (@sim_new RA) go_ops s /\ (exists v, on_road s [part1; part2; part3] behind_car v) /\ (exists v, on_road s [part1; part2; part3] ahead_car v) /\
  forall dts, List.Forall (fun dt => 0 <= dt <= 1 / 10) dts -> exists n s', (forall fuel, (n <= fuel)%nat -> run (Env fuel pick) s (map (@OStep RA) dts) = Ok s') /\
    forall k k2 v v2, on_road s' [part1; part2; part3] k v -> on_road s' [part1; part2; part3] k2 v2 -> k <> k2 ->
      v_half_len v + v_half_len v2 <= Rabs (road_pos s' [part1; part2; part3] v2 - road_pos s' [part1; part2; part3] v).
Proof.
  intros pick. destruct (go_facts pick) as (s & Hh & Fo & Ap & Nl & Sr & Gt & Pr & Pg & Gl & Co & On1 & On2 & _). exists s. split; [exact Hh|]. split; [exact On1|]. split; [exact On2|]. intros dts Fd.
  destruct (C65_goes_on dts s pick (history_reachable _ _ _ Hh (@reach_new RA)) Pr Pg Gl Co) as (n & s' & H). exists n, s'. split; [exact H|]. intros k k2 v v2 O1 O2 Nk.
  refine (C73_no_collisions 10 (1 / 10) 20 2 [part1; part2; part3] [ahead_car; behind_car] go_ops s (map (@OStep RA) dts) s' k k2 v v2 _ _ Hh Fo Ap Nl Sr Gt _ _ O1 O2 Nk); try lra.
  - eapply run_history. exact (H n (le_n _)).
  - clear -Fd. induction Fd as [|x dts Hx _ IH]; [constructor|]. constructor; [exact Hx|exact IH].
Qed.
