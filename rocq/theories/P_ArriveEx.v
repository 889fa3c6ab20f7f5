(** * A concrete case of C69: a car on the first of three roads one after the other *)
From Coq Require Import List Bool ZArith NArith Arith Lia Reals Lra Relation_Operators Operators_Properties.
From Verif Require Import Arith RealArith Base BaseProofs SlotMap Util Geom Light Accel Net Path Vehicle LinkOps Sim SpecSim SpecMotion SlotMapProofs Safe NetInv SimInv AccSafe SimSafe StepSafe OpSafe Evo StepEvo SimProofs StepProofs Ord LogProofs Motion RFacts NetEvo LineProofs RaExample P_Motion P_Limit SpecRoute SpecReason SpecProg P_Prog P_QueueEx SpecArrive P_Arrive.
Import ListNotations.
Local Open Scope R_scope.

Definition road1 : key := Key 1 1.
Definition road2 : key := Key 2 1.
Definition road3 : key := Key 3 1.
Definition the_car : key := Key 1 1.
Definition line10 (x : R) : @curve RA := @ls_curve RA (@LineSeg RA (@Pt RA x 0) (@Pt RA 1 0) 10).
Definition trip_ops : list (@op RA) := [OAddLink (line10 0) 10; OAddLink (line10 10) 10; OAddLink (line10 20) 10; OAddConnection road1 road2; OAddConnection road2 road3; OAddVehicle ra_car road1].
Lemma trip_ok : exists (s : @sim RA) (l1 l2 l3 : @link RA) (v : @vehicle RA), run ra_env (@sim_new RA) trip_ops = Ok s /\ sm_keys (s_links s) = [road1; road2; road3] /\ link_at s road1 = Some l1 /\ link_at s road2 = Some l2 /\ link_at s road3 = Some l3 /\
  lk_out l1 = [road2] /\ lk_out l2 = [road3] /\ lk_out l3 = [] /\
  List.Forall (fun (l : @link RA) => lk_control l = COpen /\ lk_conflicts l = [] /\ lk_group l = None /\ lk_changes l = [] /\ (lk_limit l : R) = 10 /\ 9 < lk_length l <= 10 /\ lk_cost l = link_cost (lk_length l) 10) [l1; l2; l3] /\
  sm_keys (s_lights s) = [] /\ sm_keys (s_vehicles s) = [the_car] /\ vehicle_at s the_car = Some v /\ v_route v = [road1] /\ v_lane_change v = None /\ (v_pos v : R) = 0 /\ spec_of v = attr_spec ra_car /\ s_frozen s = [].
Proof.
  assert (unit (@Pt RA 1 0)) as U by (unfold unit; cbn; lra).
  assert (121 < INR 200) as F by (rewrite INR_IZR_INZ; cbn -[IZR]; apply IZR_lt; reflexivity).
  destruct (line_curve (@Pt RA 0 0) (@Pt RA 1 0) 10 U 200) as (lc & Hlc & H1 & H2 & H3 & H4); [lra|lra|].
  destruct (line_curve (@Pt RA 10 0) (@Pt RA 1 0) 10 U 200) as (ld & Hld & J1 & J2 & J3 & J4); [lra|lra|].
  destruct (line_curve (@Pt RA 20 0) (@Pt RA 1 0) 10 U 200) as (le & Hle & K1 & K2 & K3 & K4); [lra|lra|].
  cbn [run trip_ops exec]. unfold add_link. cbn [e_fuel ra_env]. unfold link_new at 1 2 3. unfold line10. rewrite Hlc, Hld, Hle. cbn [bind fst].
  unfold add_link_connection, upd_link, get_link. cbn -[link_cost sample_centre add_vehicle].
  unfold add_vehicle, set_location, set_origin, upd_link, get_link. cbn -[link_cost sample_centre update_coords insert_vehicle].
  unfold update_coords. cbn -[link_cost sample_centre vsub rot90 calc_direction vadd long_offset nmin nmax dot insert_vehicle].
  unfold insert_vehicle. cbn -[link_cost sample_centre vsub rot90 calc_direction vadd long_offset nmin nmax dot].
  eexists _, _, _, _, _. split; [reflexivity|]. cbn -[link_cost sample_centre vsub rot90 calc_direction vadd long_offset nmin nmax dot].
  do 7 (split; [reflexivity|]). split; [|repeat split].
  repeat (apply List.Forall_cons; [repeat (split; [first [reflexivity|unfold lk_length; cbn [lk_curve set_vehicles add_link_in add_link_out]; lra]|]); reflexivity|]). apply List.Forall_nil.
Qed.

Lemma trip_cost (x : R) : 9 < x <= 10 -> (3 * @link_cost RA x 10%R <= usize_max)%Z.
Proof.
  intros B. unfold link_cost. unR. assert (Raux.Ztrunc (10 * x / 10) <= 10)%Z.
  { rewrite Raux.Ztrunc_floor by lra. apply Z.lt_succ_r. apply lt_IZR. eapply Rle_lt_trans; [apply Raux.Zfloor_lb|]. cbn. lra. }
  change (@ncast RA usize_max (10 * x / 10)) with (Z.max 0 (Z.min usize_max (Raux.Ztrunc (10 * x / 10)))). unfold usize_max. lia.
Qed.

(** The hypotheses of [C69_arrives] and [C69_where] hold. *)
Lemma trip_facts : exists (s0 : @sim RA) v la, history (@sim_new RA) trip_ops s0 /\ groups_apart trip_ops /\ vehicle_at s0 the_car = Some v /\ v_route v = [road1] /\ road1 <> road3 /\ v_lane_change v = None /\
  leads (s_links s0) road1 road3 /\ alone s0 the_car /\ get_vehicle_frozen s0 the_car = false /\ open_roads s0 /\ no_lights s0 /\ no_way_back (s_links s0) /\
  at_least s0 (v_half_len v + 3) 10 /\ v_half_len v = 2 /\ max_acc v = 2 /\ comf_dec v = 2 /\ speed_factor v = 1 /\
  List.Forall (one_limit 10 (1 / 10)) trip_ops /\ at_least s0 (5 / 4 * 10 * (3 / 10 + 1 / 10)) 10 /\ link_at s0 road1 = Some la /\ v_pos v + 5 / 4 * 10 * (3 / 10 + 1 / 10) <= lk_length la /\
  positive_roads s0 /\ plain_groups s0 /\ good_lights s0 /\ small_costs s0 /\ link_at s0 road3 <> None.
Proof.
  destruct trip_ok as (s & l1 & l2 & l3 & v & H & Ks & G1 & G2 & G3 & O1 & O2 & O3 & F & Kl & Kv & Gv & Rv & Lv & Pv & Sv & Fz).
  inversion F as [|? ? (A1 & A2 & A3 & A4 & A5 & A6 & A7) F1]; subst. inversion F1 as [|? ? (B1 & B2 & B3 & B4 & B5 & B6 & B7) F2]; subst. inversion F2 as [|? ? (C1 & C2 & C3 & C4 & C5 & C6 & C7) _]; subst. clear F1 F2.
  assert (history (@sim_new RA) trip_ops s) as Hh by (eapply run_history; exact H).
  assert (forall k x, link_at s k = Some x -> k = road1 /\ x = l1 \/ k = road2 /\ x = l2 \/ k = road3 /\ x = l3) as Three.
  { intros k x G. assert (In k (sm_keys (s_links s))) as Hk by (apply in_keys; unfold link_at in G; unfold valid; apply sm_mem_get; eauto). rewrite Ks in Hk.
    destruct Hk as [<-|[<-|[<-|[]]]]; [left|right; left|right; right]; split; congruence. }
  assert (List.Forall (one_limit 10 (1 / 10)) trip_ops) as Ol by (repeat constructor; cbn; lra).
  assert (forall a b, succ_of (s_links s) a b -> (k_idx a < k_idx b)%nat) as Up.
  { intros a b (l & G & Hb). destruct (Three a l G) as [(-> & ->)|[(-> & ->)|(-> & ->)]]; [rewrite O1 in Hb|rewrite O2 in Hb|rewrite O3 in Hb]; [destruct Hb as [<-|[]]|destruct Hb as [<-|[]]|destruct Hb]; cbn; lia. }
  destruct (car_parts _ Sv) as (X1 & X2 & X3 & X4).
  exists s, v, l1. split; [exact Hh|]. split; [constructor|]. split; [exact Gv|]. split; [exact Rv|]. split; [discriminate|]. split; [exact Lv|].
  split. { apply rt_trans with road2; apply rt_step; left; [exists l1; split; [exact G1|rewrite O1]|exists l2; split; [exact G2|rewrite O2]]; left; reflexivity. }
  split. { intros k2 v2 Q. assert (In k2 (sm_keys (s_vehicles s))) as Hk by (apply in_keys; unfold vehicle_at in Q; unfold valid; apply sm_mem_get; eauto). rewrite Kv in Hk. destruct Hk as [<-|[]]. reflexivity. }
  split. { unfold get_vehicle_frozen. rewrite Fz. reflexivity. }
  split. { intros x l G. destruct (Three x l G) as [(_ & ->)|[(_ & ->)|(_ & ->)]]; auto. }
  assert (no_lights s) as Nl. { intros k. destruct (sm_get (s_lights s) k) as [l|] eqn:G; [|reflexivity]. assert (In k (sm_keys (s_lights s))) as Hk by (apply in_keys; unfold valid; apply sm_mem_get; eauto). rewrite Kl in Hk. destruct Hk. }
  split; [exact Nl|].
  split. { intros a Q. assert (forall x y, clos_trans key (succ_of (s_links s)) x y -> (k_idx x < k_idx y)%nat) as Up2. { intros x y T. induction T as [x y T|x y z _ IH1 _ IH2]; [exact (Up _ _ T)|lia]. } specialize (Up2 _ _ Q). lia. }
  split. { intros x l G. destruct (Three x l G) as [(_ & ->)|[(_ & ->)|(_ & ->)]]; rewrite X1; lra. }
  split; [exact X1|]. split; [exact X3|]. split; [exact X4|]. split; [exact (factor_one 10 (1 / 10) trip_ops s the_car v Hh Ol Gv)|]. split; [exact Ol|].
  split. { intros x l G. destruct (Three x l G) as [(_ & ->)|[(_ & ->)|(_ & ->)]]; lra. }
  split; [exact G1|]. split; [rewrite Pv; lra|].
  split. { intros x l G. destruct (Three x l G) as [(_ & ->)|[(_ & ->)|(_ & ->)]]; lra. }
  split. { intros x l G. destruct (Three x l G) as [(_ & ->)|[(_ & ->)|(_ & ->)]]; (split; [assumption|]); intros g Eg; congruence. }
  split. { intros k l G. rewrite Nl in G. discriminate G. }
  split; [|congruence]. intros x l G. rewrite Ks. change (Z.of_nat (length [road1; road2; road3])) with 3%Z. destruct (Three x l G) as [(_ & ->)|[(_ & ->)|(_ & ->)]]; rewrite ?A7, ?B7, ?C7; apply trip_cost; assumption.
Qed.

(** Sent to the third road, the car gets there and leaves, whatever the lengths of the time steps up to 0.1 s: after
    enough time it is gone. *)
Theorem C69_case : forall pick, exists (s0 s1 : @sim RA) e T, history (@sim_new RA) trip_ops s0 /\ vehicle_at s0 the_car <> None /\ exec e s0 (OSetDestination the_car road3) = Ok s1 /\
  forall dts, List.Forall (fun dt => 0 <= dt <= 1 / 10) dts -> T <= total dts ->
    exists n s, (forall fuel, (n <= fuel)%nat -> run (Env fuel pick) s1 (map (@OStep RA) dts) = Ok s) /\ vehicle_at s the_car = None.
Proof.
  intros pick.
  destruct trip_facts as (s0 & v & la & Hh & Ap & Gv & Rv & Nd & Lv & Ld & Al & Fz & Op & Nl & Ac & Le & X1 & X2 & X3 & X4 & Ol & Le2 & Gla & Pa & P & Gr & Li & Co & G3).
  assert (reachable s0) as Rc by (eapply history_reachable; [exact Hh|constructor]).
  destruct (C65_destination_returns s0 the_car road3 pick Rc Co) as (n & s1 & H); [congruence|exact G3|]. specialize (H n (le_n _)).
  destruct (C69_arrives trip_ops s0 the_car v road1 road3 (Env n pick) s1 (1 / 10) 10) as (T & HT); auto; try lra.
  exists s0, s1, (Env n pick), T. split; [exact Hh|]. split; [congruence|]. split; [exact H|]. intros dts F Tt.
  assert (s_links s1 = s_links s0 /\ s_lights s1 = s_lights s0) as (El & Eg). { cbn [exec] in H. unfold set_vehicle_destination in H. bok H v0 Hv0. bok H v1 Hv1. injection H as <-. split; reflexivity. }
  destruct (C65_goes_on dts s1 pick) as (n2 & s & Hs).
  - exact (reach_call _ _ _ _ Rc H).
  - unfold positive_roads, link_at in *. rewrite El. exact P.
  - unfold plain_groups, link_at in *. rewrite El. exact Gr.
  - unfold good_lights, link_at in *. rewrite El, Eg. exact Li.
  - unfold small_costs, link_at in *. rewrite El. exact Co.
  - exists n2, s. split; [exact Hs|]. apply (HT dts s F Tt). eapply run_history. exact (Hs n2 (le_n _)).
Qed.
Print Assumptions C69_case.
