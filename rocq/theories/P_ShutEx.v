(** * A concrete case of C82: a car, and a stop sign at the line *)
From Coq Require Import List Bool ZArith NArith Arith Lia Reals Lra.
From Verif Require Import Arith RealArith Base BaseProofs SlotMap Util Geom Light Accel Net Path Vehicle LinkOps Sim SpecSim SpecMotion SlotMapProofs Safe NetInv SimInv AccSafe SimSafe StepSafe OpSafe Evo StepEvo SimProofs StepProofs Ord LogProofs Motion RFacts NetEvo LineProofs RaExample P_Motion P_Limit SpecNet SpecLamp LocCall SpecEnter P_Enter SpecRoute P_Exit SpecGap GapProofs P_Gap SpecProg P_Prog SpecQueue P_QueueEx P_RoadEx P_Shut.
Import ListNotations.
Local Open Scope R_scope.

(** Two links of 30 m, one after the other, and a stop sign before the second one, at which one has to wait zero metres before the line. *)
Definition only_car : key := Key 1 1.
Definition shut_ops : list (@op RA) := [OAddLink (line30 0) 10; OAddLink (line30 30) 10; OAddConnection part1 part2; OSetControl part2 (@CYield RA 0 true 1); OAddVehicle ra_car part1].
Lemma shut_ok : exists (s : @sim RA) (l1 l2 : @link RA) (v : @vehicle RA), run ra_env (@sim_new RA) shut_ops = Ok s /\ sm_keys (s_links s) = [part1; part2] /\ link_at s part1 = Some l1 /\ link_at s part2 = Some l2 /\
  lk_vehicles l1 = [only_car] /\ lk_out l1 = [part2] /\ lk_out l2 = [] /\ lk_control l2 = @CYield RA 0 true 1 /\
  List.Forall (fun (l : @link RA) => lk_group l = None /\ lk_changes l = [] /\ (lk_limit l : R) = 10 /\ 29 < lk_length l <= 30 /\ lk_cost l = link_cost (lk_length l) 10) [l1; l2] /\
  sm_keys (s_lights s) = [] /\ sm_keys (s_vehicles s) = [only_car] /\ vehicle_at s only_car = Some v /\ (v_pos v : R) = 0 /\ (v_vel v : R) = 0 /\ v_entered v = 1%nat /\ v_queued v = None /\ spec_of v = attr_spec ra_car.
Proof.
  assert (unit (@Pt RA 1 0)) as U by (unfold unit; cbn; lra).
  assert (121 < INR 200) as F by (rewrite INR_IZR_INZ; cbn -[IZR]; apply IZR_lt; reflexivity).
  destruct (line_curve (@Pt RA 0 0) (@Pt RA 1 0) 30 U 200) as (lc & Hlc & H1 & H2 & H3 & H4); [lra|lra|].
  destruct (line_curve (@Pt RA 30 0) (@Pt RA 1 0) 30 U 200) as (ld & Hld & J1 & J2 & J3 & J4); [lra|lra|].
  cbn [run shut_ops exec]. unfold add_link. cbn [e_fuel ra_env]. unfold link_new at 1 2. unfold line30. rewrite Hlc, Hld. cbn [bind fst].
  unfold add_link_connection, upd_link, get_link. cbn -[link_cost sample_centre add_vehicle set_link_control].
  unfold set_link_control, upd_link, get_link. cbn -[link_cost sample_centre add_vehicle].
  unfold add_vehicle, set_location, set_origin, upd_link, get_link. cbn -[link_cost sample_centre update_coords insert_vehicle].
  unfold update_coords. cbn -[link_cost sample_centre vsub rot90 calc_direction vadd long_offset nmin nmax dot insert_vehicle].
  unfold insert_vehicle. cbn -[link_cost sample_centre vsub rot90 calc_direction vadd long_offset nmin nmax dot].
  eexists _, _, _, _. split; [reflexivity|]. cbn -[link_cost sample_centre vsub rot90 calc_direction vadd long_offset nmin nmax dot].
  do 7 (split; [reflexivity|]). split; [|repeat split].
  repeat (apply List.Forall_cons; [repeat (split; [first [reflexivity|unfold lk_length; cbn [lk_curve set_vehicles set_control add_link_in add_link_out]; lra]|]); reflexivity|]). apply List.Forall_nil.
Qed.
Lemma set_more {A : Arith} e (s : sim) k d s' w : exec e s (OSetDestination k d) = Ok s' -> vehicle_at s' k = Some w -> exists v, vehicle_at s k = Some v /\ v_entered w = v_entered v /\ v_queued w = v_queued v /\ v_destination w = d.
Proof.
  intros H. unfold vehicle_at in *. cbn [exec] in H. unfold set_vehicle_destination in H. bok H v0 Hv0. bok H v1 Hv1. injection H as <-.
  unfold get_vehicle in Hv0. destruct (sm_get (s_vehicles s) k) as [v|] eqn:G; [|discriminate Hv0]. injection Hv0 as ->. unfold set_destination in Hv1. bok Hv1 pf Hpf. injection Hv1 as <-.
  cbn [s_vehicles with_vehicles]. assert (sm_mem (s_vehicles s) k = true) as M by (apply sm_mem_get; eauto). rewrite sm_get_set, key_eqb_refl, M. cbn [andb]. intros Gw. injection Gw as <-. exists v0. do 3 (split; [reflexivity|]). exact (proj1 (dest_kept _ _ _ _ Hpf)).
Qed.

(** Sent to the second link, the car never gets there, however long one waits and whatever the lengths of the time steps up to 0.1 s. *)
Theorem C82_case : forall pick, exists (s0 s1 : @sim RA) e l1, history (@sim_new RA) shut_ops s0 /\ exec e s0 (OSetDestination only_car part2) = Ok s1 /\
  link_at s1 part1 = Some l1 /\ lk_vehicles l1 = [only_car] /\ lk_out l1 = [part2] /\ link_at s1 part2 <> None /\
  forall dts, List.Forall (fun dt => 0 <= dt <= 1 / 10) dts ->
    exists n s v, (forall fuel, (n <= fuel)%nat -> run (Env fuel pick) s1 (map (@OStep RA) dts) = Ok s) /\ vehicle_at s only_car = Some v /\ v_link v = Some part1.
Proof.
  intros pick. destruct shut_ok as (s0 & l1 & l2 & v & H & Ks & G1 & G2 & Ev & O1 & O2 & N2 & F & Kl & Kv & Gv & Pv & Vv & En & Qu & Sv).
  inversion F as [|? ? (A3 & A4 & A5 & A6 & A7) F1]; subst. inversion F1 as [|? ? (B3 & B4 & B5 & B6 & B7) _]; subst. clear F F1.
  assert (history (@sim_new RA) shut_ops s0) as Hh by (eapply run_history; exact H). assert (reachable s0) as Rc by (eapply history_reachable; [exact Hh|constructor]).
  assert (forall k x, link_at s0 k = Some x -> k = part1 /\ x = l1 \/ k = part2 /\ x = l2) as Two.
  { intros k x G. assert (In k (sm_keys (s_links s0))) as Hk by (apply in_keys; unfold link_at in G; unfold valid; apply sm_mem_get; eauto). rewrite Ks in Hk. destruct Hk as [<-|[<-|[]]]; [left|right]; split; congruence. }
  assert (small_costs s0) as Co. { intros x l G. rewrite Ks. cbn [length]. destruct (Two x l G) as [(_ & ->)|(_ & ->)]; [rewrite A7|rewrite B7]; apply road_cost; lra. }
  destruct (C65_destination_returns s0 only_car part2 pick Rc Co) as (n & s1 & H1); [congruence|congruence|]. specialize (H1 n (le_n _)).
  destruct (set_same _ _ _ _ _ H1) as (El & Eg & _ & Up & Dn). destruct (Up _ _ Gv) as (w & Gw). destruct (Dn _ _ Gw) as (v0 & Gv0 & Er & _ & Ep & Ee & Es). destruct (set_more _ _ _ _ _ _ H1 Gw) as (v1 & Gv1 & E1 & E2 & E3).
  assert (v0 = v) by congruence. assert (v1 = v) by congruence. subst v0 v1.
  assert (forall k x, link_at s1 k = Some x -> k = part1 /\ x = l1 \/ k = part2 /\ x = l2) as Two' by (unfold link_at in *; rewrite El; exact Two).
  assert (link_at s1 part1 = Some l1) as Gl by (unfold link_at in *; rewrite El; exact G1).
  assert (forall k, sm_get (s_lights s1) k = None) as Nl.
  { intros k. rewrite Eg. destruct (sm_get (s_lights s0) k) as [l|] eqn:G; [|reflexivity]. assert (In k (sm_keys (s_lights s0))) as Hk by (apply in_keys; unfold valid; apply sm_mem_get; eauto). rewrite Kl in Hk. destruct Hk. }
  assert (spec_of w = attr_spec ra_car) as Sw by congruence. destruct (car_parts _ Sw) as (X1 & X2 & X3 & X4).
  exists s0, s1, (Env n pick), l1. split; [exact Hh|]. split; [exact H1|]. split; [exact Gl|]. split; [exact Ev|]. split; [exact O1|]. split; [unfold link_at in *; rewrite El; congruence|]. intros dts Fd.
  destruct (C82_for_ever 10 (1 / 10) (shut_ops ++ [@OSetDestination RA only_car part2]) s1 dts pick part1 l1) as (n2 & s & Hs & l' & Gl' & El' & Q & _); try lra; try assumption.
  - eapply history_app; [exact Hh|]. econstructor; [exact H1|constructor].
  - repeat constructor; cbn; lra.
  - intros k x G. destruct (Two' k x G) as [(_ & ->)|(_ & ->)]; lra.
  - intros k x G. destruct (Two' k x G) as [(_ & ->)|(_ & ->)]; (split; [assumption|]); intros g E; congruence.
  - intros k l G. rewrite Nl in G. discriminate G.
  - unfold small_costs, link_at in *. rewrite El. exact Co.
  - intros x. split; [|split]; intros (lx & Gx & Hin); destruct (Two' _ _ Gx) as [(_ & ->)|(_ & ->)]; rewrite ?O1, ?O2, ?A4, ?B4 in Hin; first [destruct Hin as [Hin|[]]; discriminate Hin|destruct Hin].
  - intros x (lx & Gx & Hin). unfold link_at in *. assert (lx = l1) by congruence. subst lx. rewrite O1 in Hin. destruct Hin as [<-|[]]. exists l2. split; [rewrite El; exact G2|]. right. exists 0, true, 1%Z. split; [exact N2|lra].
  - intros x _ (kl & l & i & G & _). rewrite Nl in G. discriminate G.
  - intros k u Gu Lu. pose proof (reachable_Inv _ (reach_call _ _ _ _ Rc H1)) as I1. unfold link_at, vehicle_at in *. destruct (st_occ _ _ _ (i_st _ I1) _ _ Gl) as (_ & Oc).
    assert (In k (lk_vehicles l1)) as Hk by (apply Oc; unfold at_of; rewrite Gu; exact Lu). rewrite Ev in Hk. destruct Hk as [<-|[]]. assert (u = w) by congruence. subst u. congruence.
  - intros k u Hk Gu. rewrite Ev in Hk. destruct Hk as [<-|[]]. assert (u = w) by congruence. subst u. split; [apply car_careful; exact Sw|]. rewrite X1, X3. split; [lra|]. split; [congruence|]. split; [rewrite E3; discriminate|]. unfold room_to_react, refresh_time. lra.
  - intros k k2 u u2 (pre & post & E) _ _. rewrite Ev in E. destruct pre as [|a [|b pre]]; discriminate E.
  - intros k u (bh & E) Gu. rewrite Ev in E. destruct bh as [|a [|b bh]]; try discriminate E. injection E as <-. assert (u = w) by congruence. subst u. rewrite X3, Ee, Vv.
    assert (27 <= room_left l1 w + 2) as Rl by (unfold room_left, pos_front; rewrite Ep, Pv, X1; unR; lra). unfold room_to_react, refresh_time. lra.
  - destruct (Q only_car) as (u & Gu & Lu & _); [rewrite Ev; left; reflexivity|]. exists n2, s, u. auto.
Qed.
Print Assumptions C82_case.
