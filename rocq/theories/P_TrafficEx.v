(** * A concrete case of C76: cars are let onto a road of three links of 30 m each, which is empty at first *)
From Coq Require Import List Bool ZArith NArith Arith Lia Reals Lra Sorting.Sorted Relations.
From Verif Require Import Arith RealArith Base BaseProofs SlotMap Util Geom Light Accel Net Path Vehicle LinkOps Sim SpecSim SpecMotion SlotMapProofs Safe NetInv SimInv AccSafe SimSafe StepSafe OpSafe Evo StepEvo SimProofs StepProofs Ord LogProofs Motion RFacts NetEvo LineProofs RaExample P_Motion P_Limit SpecNet SpecEnter SpecRoute P_Net P_Order P_Exit SpecGap GapProofs P_Gap EndsProofs ProgProofs SpecProg P_Prog SpecCheap P_QueueEx SpecRoad SpecArrive SpecClear RouteEvo RoadLists P_Road P_RoadEx SpecTraffic RoadEnter P_Traffic.
Import ListNotations.

(** ** C65: adding a vehicle to a link there is *)
Theorem C65_add_returns : forall (A : Arith) e (s : sim) a x, reachable s -> link_at s x <> None -> exists s' k, add_vehicle e s a x = Ok (s', k).
Proof.
  intros A e s a x Rc Gx. assert (fin (add_vehicle e s a x)) as Fn.
  { unfold add_vehicle. apply fin_bind.
    - unfold set_location, set_origin. cbn [v_pathfind vehicle_new pf_default pf_matrix mx_get pf_src pf_dst]. apply fin_bind; [|intros pf; apply fin_ok]. apply fin_bind; [|intros pf; apply fin_make_paths].
      unfold reroute. cbn [pf_src pf_dst pf_paths]. rewrite key_eqb_refl, orb_true_r. apply fin_ok.
    - intros v0. apply fin_bind; [|intros v1; apply fin_bind; [|intros links; apply fin_ok]].
      + unfold update_coords. apply fin_bind; [apply fin_option|]. intros id. apply fin_bind; [apply fin_get_link|]. intros l. destruct (v_lane_change v0); apply fin_ok.
      + apply fin_upd_link. intros l. apply fin_insert. }
  pose proof (exec_safe e s (OAddVehicle a x) (reachable_Inv _ Rc)) as Sf. cbn [exec] in Sf. destruct (add_vehicle e s a x) as [[s' k]|p|]; [eauto| |exfalso; apply Fn; reflexivity].
  exfalso. cbn [bind] in Sf. destruct Sf as (_ & C). apply C. unfold valid. unfold link_at in Gx. destruct (sm_get (s_links s) x) as [l|] eqn:G; [|contradiction]. apply sm_mem_get. eauto.
Qed.
Print Assumptions C65_add_returns.

Local Open Scope R_scope.
Definition bare_ops : list (@op RA) := [OAddLink (line30 0) 10; OAddLink (line30 30) 10; OAddLink (line30 60) 10; OAddConnection part1 part2; OAddConnection part2 part3].
Lemma bare_ok : exists (s : @sim RA) (l1 l2 l3 : @link RA), run ra_env (@sim_new RA) bare_ops = Ok s /\ sm_keys (s_links s) = [part1; part2; part3] /\ link_at s part1 = Some l1 /\ link_at s part2 = Some l2 /\ link_at s part3 = Some l3 /\
  lk_out l1 = [part2] /\ lk_out l2 = [part3] /\ lk_out l3 = [] /\
  List.Forall (fun (l : @link RA) => lk_group l = None /\ lk_changes l = [] /\ (lk_limit l : R) = 10 /\ 29 < lk_length l <= 30 /\ lk_cost l = link_cost (lk_length l) 10 /\ lk_control l = COpen /\ lk_conflicts l = []) [l1; l2; l3] /\ s_frozen s = [] /\
  sm_keys (s_lights s) = [] /\ sm_keys (s_vehicles s) = [] /\ s_vehicles s = s_vehicles (@sim_new RA).
Proof.
  assert (unit (@Pt RA 1 0)) as U by (unfold unit; cbn; lra).
  assert (121 < INR 200) as F by (rewrite INR_IZR_INZ; cbn -[IZR]; apply IZR_lt; reflexivity).
  destruct (line_curve (@Pt RA 0 0) (@Pt RA 1 0) 30 U 200) as (lc & Hlc & H1 & H2 & H3 & H4); [lra|lra|].
  destruct (line_curve (@Pt RA 30 0) (@Pt RA 1 0) 30 U 200) as (ld & Hld & J1 & J2 & J3 & J4); [lra|lra|].
  destruct (line_curve (@Pt RA 60 0) (@Pt RA 1 0) 30 U 200) as (le & Hle & K1 & K2 & K3 & K4); [lra|lra|].
  cbn [run bare_ops exec]. unfold add_link. cbn [e_fuel ra_env]. unfold link_new at 1 2 3. unfold line30. rewrite Hlc, Hld, Hle. cbn [bind fst].
  unfold add_link_connection, upd_link, get_link. cbn -[link_cost sample_centre].
  eexists _, _, _, _. split; [reflexivity|]. cbn -[link_cost sample_centre].
  do 7 (split; [reflexivity|]). split; [|repeat split].
  repeat (apply List.Forall_cons; [repeat (split; [first [reflexivity|unfold lk_length; cbn [lk_curve set_vehicles add_link_in add_link_out]; lra]|]); reflexivity|]). apply List.Forall_nil.
Qed.

Lemma net_keeps (s s' : @sim RA) : same_net (s_links s) (s_links s') -> s_lights s' = s_lights s -> positive_roads s -> plain_groups s -> good_lights s -> small_costs s ->
  positive_roads s' /\ plain_groups s' /\ good_lights s' /\ small_costs s'.
Proof.
  intros Sn El P Gr Li Co.
  assert (forall k l, link_at s' k = Some l -> exists l0, link_at s k = Some l0 /\ lk_static l0 = lk_static l) as K. { intros k l G. exact (same_net_get _ _ _ _ Sn G). }
  split; [|split; [|split]].
  - intros k l G. destruct (K k l G) as (l0 & G0 & E). unfold lk_static in E. injection E as F1 F2 F3 F4 F5 F6 F7 F8 F9. specialize (P k l0 G0). unfold lk_length in *. congruence.
  - intros k l G. destruct (K k l G) as (l0 & G0 & E). unfold lk_static in E. injection E as F1 F2 F3 F4 F5 F6 F7 F8 F9. specialize (Gr k l0 G0). destruct Gr as (G1 & G2). split; [congruence|]. intros g Eg. apply G2. congruence.
  - intros k l G. rewrite El in G. destruct (Li k l G) as (L1 & L2 & L3). split; [exact L1|]. split; [exact L2|].
    intros lid Hin. specialize (L3 lid Hin). unfold link_at in *. pose proof (same_net_valid _ _ lid Sn) as V. unfold valid, sm_mem in V. destruct (sm_get (s_links s) lid); [|contradiction]. destruct (sm_get (s_links s') lid); [discriminate|]. destruct V as (V & _). discriminate (V eq_refl).
  - intros k l G. destruct (K k l G) as (l0 & G0 & E). unfold lk_static in E. injection E as F1 F2 F3 F4 F5 F6 F7 F8 F9. rewrite <- F9, <- (shape_keys _ _ (sn_shape _ _ Sn)). exact (Co k l0 G0).
Qed.
Lemma add_lights {A : Arith} e (s : sim) a x s1 k : add_vehicle e s a x = Ok (s1, k) -> s_lights s1 = s_lights s.
Proof. intros H. unfold add_vehicle in H. bok H v0 Hv0. bok H v1 Hv1. bok H links Hl. injection H as <- _. reflexivity. Qed.
Lemma new_car e (s : @sim RA) x s1 k v : reachable s -> add_vehicle e s ra_car x = Ok (s1, k) -> vehicle_at s1 k = Some v ->
  v_link v = Some x /\ (v_pos v : R) = 0 /\ (v_vel v : R) = 0 /\ spec_of v = attr_spec ra_car.
Proof.
  intros Rc H G. pose proof (reachable_Inv _ Rc) as I. destruct (added e s ra_car x s1 k I H) as (He & Gk & _ & _ & _ & w & Gw & Rw & Pw & Vw & _). assert (w = v) by congruence. subst w.
  split; [unfold v_link; rewrite Rw; reflexivity|]. split; [exact Pw|]. split; [exact Vw|].
  destruct (exec_body _ _ _ _ _ _ I He eq_refl G) as [(u & Gu & _)|(a & l & E & _ & Sp & _)]; [unfold vehicle_at in Gk; congruence|]. injection E as <- <-. exact Sp.
Qed.

Example C76_example : forall (pick : @linkset RA -> key -> key -> nat -> nat), exists (s s4 : @sim RA) ops k k2, let road := [part1; part2; part3] in
  history (@sim_new RA) bare_ops s /\ List.Forall (one_limit 10 (1 / 10)) bare_ops /\ groups_apart bare_ops /\ no_lanes s /\ single_road (s_links s) road /\ (forall x, In x road -> 20 <= length_of s x) /\ (forall j w, ~ on_road s road j w) /\
  traffic 10 (1 / 10) 20 2 road s ops s4 /\ k <> k2 /\ (exists v, on_road s4 road k v) /\ (exists v, on_road s4 road k2 v) /\
  forall dts, List.Forall (fun dt => 0 <= dt <= 1 / 10) dts -> exists n s', (forall fuel, (n <= fuel)%nat -> run (Env fuel pick) s4 (map (@OStep RA) dts) = Ok s') /\
    traffic 10 (1 / 10) 20 2 road s (ops ++ map (@OStep RA) dts) s'.
Proof.
  intros pick. destruct bare_ok as (s & l1 & l2 & l3 & H & Ks & G1 & G2 & G3 & O1 & O2 & O3 & F & Fz & Kl & Kv & Ev).
  inversion F as [|? ? (A3 & A4 & A5 & A6 & A7 & A8 & A9) F1]; subst. inversion F1 as [|? ? (B3 & B4 & B5 & B6 & B7 & B8 & B9) F2]; subst. inversion F2 as [|? ? (C3 & C4 & C5 & C6 & C7 & C8 & C9) _]; subst. clear F F1 F2.
  assert (history (@sim_new RA) bare_ops s) as Hh by (eapply run_history; exact H). set (road := [part1; part2; part3]).
  assert (forall k x, link_at s k = Some x -> k = part1 /\ x = l1 \/ k = part2 /\ x = l2 \/ k = part3 /\ x = l3) as Three.
  { intros k x G. assert (In k (sm_keys (s_links s))) as Hk by (apply in_keys; unfold link_at in G; unfold valid; apply sm_mem_get; eauto). rewrite Ks in Hk.
    destruct Hk as [<-|[<-|[<-|[]]]]; [left|right; left|right; right]; split; congruence. }
  assert (forall k v, vehicle_at s k = Some v -> False) as None'.
  { intros k v G. assert (In k (sm_keys (s_vehicles s))) as Hk by (apply in_keys; unfold vehicle_at in G; unfold valid; apply sm_mem_get; eauto). rewrite Kv in Hk. destruct Hk. }
  assert (reachable s) as Rc by (eapply history_reachable; [exact Hh|constructor]). pose proof (reachable_Inv _ Rc) as I.
  assert (positive_roads s) as Pr. { intros x l G. destruct (Three x l G) as [(_ & ->)|[(_ & ->)|(_ & ->)]]; lra. }
  assert (plain_groups s) as Pg. { intros x l G. destruct (Three x l G) as [(_ & ->)|[(_ & ->)|(_ & ->)]]; (split; [assumption|]); intros g Eg; congruence. }
  assert (good_lights s) as Gl. { intros k x G. assert (In k (sm_keys (s_lights s))) as Hk by (apply in_keys; unfold valid; apply sm_mem_get; eauto). rewrite Kl in Hk. destruct Hk. }
  assert (small_costs s) as Co. { intros x l G. rewrite Ks. change (Z.of_nat (length [part1; part2; part3])) with 3%Z. destruct (Three x l G) as [(_ & ->)|[(_ & ->)|(_ & ->)]]; rewrite ?A7, ?B7, ?C7; apply lay_cost; assumption. }
  assert (forall (t t' : @sim RA), same_net (s_links t) (s_links t') -> forall y, link_at t y <> None -> link_at t' y <> None) as There.
  { intros t t' Sn y Q. unfold link_at in *. destruct (sm_get (s_links t) y) as [l|] eqn:G; [|contradiction]. destruct (same_net_get' _ _ _ _ Sn G) as (l' & -> & _). discriminate. }
  destruct (C65_add_returns RA (Env 0 pick) s ra_car part2 Rc) as (s1 & k & H1); [congruence|].
  destruct (added _ _ _ _ _ _ I H1) as (E1 & Gk & Vs1 & _ & _ & v & Gv & _). pose proof (reach_call _ _ _ _ Rc E1) as Rc1. pose proof (exec_static _ _ _ _ I E1 eq_refl) as Sn1. pose proof (reachable_Inv _ Rc1) as I1.
  destruct (new_car _ _ _ _ _ _ Rc H1 Gv) as (Lv & Pv & Vv & Sv).
  destruct (net_keeps s s1 Sn1 (add_lights _ _ _ _ _ _ H1) Pr Pg Gl Co) as (Pr1 & Pg1 & Gl1 & Co1).
  destruct (C65_destination_returns s1 k part3 pick Rc1 Co1) as (n2 & s2 & H2); [congruence|apply (There s s1 Sn1); congruence|]. specialize (H2 n2 (le_n _)).
  destruct (set_same _ _ _ _ _ H2) as (El2 & Eg2 & _ & Up2 & Dn2). pose proof (reach_call _ _ _ _ Rc1 H2) as Rc2. pose proof (reachable_Inv _ Rc2) as I2.
  assert (same_net (s_links s) (s_links s2)) as Sn2 by (rewrite El2; exact Sn1).
  destruct (net_keeps s s2 Sn2 ltac:(rewrite Eg2; exact (add_lights _ _ _ _ _ _ H1)) Pr Pg Gl Co) as (Pr2 & Pg2 & Gl2 & Co2).
  destruct (C65_add_returns RA (Env 0 pick) s2 ra_car part1 Rc2) as (s3 & k2 & H3); [apply (There s s2 Sn2); congruence|].
  destruct (added _ _ _ _ _ _ I2 H3) as (E3 & Gk2 & Vs3 & _ & _ & w & Gw & _). pose proof (reach_call _ _ _ _ Rc2 E3) as Rc3. pose proof (exec_static _ _ _ _ I2 E3 eq_refl) as Sn23.
  assert (same_net (s_links s) (s_links s3)) as Sn3 by (eapply same_net_trans; eauto).
  destruct (new_car _ _ _ _ _ _ Rc2 H3 Gw) as (Lw & Pw & Vw & Sw).
  assert (s_lights s3 = s_lights s) as Eg3. { rewrite (add_lights _ _ _ _ _ _ H3), Eg2. exact (add_lights _ _ _ _ _ _ H1). }
  destruct (net_keeps s s3 Sn3 Eg3 Pr Pg Gl Co) as (Pr3 & Pg3 & Gl3 & Co3).
  destruct (C65_destination_returns s3 k2 part3 pick Rc3 Co3) as (n4 & s4 & H4); [congruence|apply (There s s3 Sn3); congruence|]. specialize (H4 n4 (le_n _)).
  destruct (set_same _ _ _ _ _ H4) as (El4 & Eg4 & _ & Up4 & Dn4). pose proof (reach_call _ _ _ _ Rc3 H4) as Rc4.
  assert (same_net (s_links s) (s_links s4)) as Sn4 by (rewrite El4; exact Sn3).
  destruct (net_keeps s s4 Sn4 ltac:(rewrite Eg4; exact Eg3) Pr Pg Gl Co) as (Pr4 & Pg4 & Gl4 & Co4).
  assert (forall v : @vehicle RA, spec_of v = attr_spec ra_car -> drives_well 10 (1 / 10) 20 2 v) as Dw.
  { intros u Su. destruct (car_parts _ Su) as (X1 & X2 & X3 & X4). split; [apply car_careful; exact Su|]. rewrite X1, X3. split; [lra|]. unfold room_to_react, refresh_time. split; lra. }
  assert (k <> k2) as Nk. { intros <-. destruct (Up2 _ _ Gv) as (u & Gu). congruence. }
  assert (forall j u, vehicle_at s1 j = Some u -> j = k) as One. { intros j u Gj. destruct (key_eqb_spec j k) as [|N]; [assumption|]. exfalso. rewrite (Vs1 j N) in Gj. exact (None' j u Gj). }
  assert (length_of s part1 = lk_length l1) as Le1 by (unfold length_of; rewrite G1; reflexivity).
  assert (fits 10 (1 / 10) 20 2 s1 road k) as Ft1.
  { intros u Gu. assert (u = v) by congruence. subst u. split; [exact (Dw v Sv)|]. intros j u (Gj & _) N. exfalso. exact (N (One j u Gj)). }
  assert (fits 10 (1 / 10) 20 2 s3 road k2) as Ft3.
  { intros u Gu. assert (u = w) by congruence. subst u. split; [exact (Dw w Sw)|]. intros j u (Gj & _) N. rewrite (Vs3 j N) in Gj. destruct (Dn2 j u Gj) as (v' & Gv' & Q1 & Q2 & Q3 & Q4 & Q5). pose proof (One j v' Gv'). subst j. assert (v' = v) by congruence. subst v'.
    destruct (car_parts _ Sw) as (X1 & X2 & X3 & X4). destruct (car_parts u ltac:(congruence)) as (Y1 & Y2 & Y3 & Y4).
    assert (v_link u = Some part2) as Lu by (unfold v_link in *; congruence).
    assert (start_of (length_of s3) road part1 = 0 /\ start_of (length_of s3) road part2 = lk_length l1) as (St1 & St2). { split; [reflexivity|]. change (length_of s3 part1 + 0 = lk_length l1). rewrite (RoadProofs.same_len s s3 part1 Sn3), Le1. lra. }
    unfold road_gap, road_pos. rewrite Lw, Lu, St1, St2, Pw, X1, X3, Y1, Y3, Q3, Q4, Pv, Vv, Vw. split; [intros _; unfold room_to_react, refresh_time; lra|intros Le; lra]. }
  assert (traffic 10 (1 / 10) 20 2 road s ([OAddVehicle ra_car part2; OSetDestination k part3; OAddVehicle ra_car part1; OSetDestination k2 part3] ++ []) s4) as Tr.
  { eapply (tr_enter 10 (1 / 10) 20 2 road); [right; left; reflexivity|discriminate|cbn; lra|exact H1|exact Ft1|exact H2|]. eapply (tr_enter 10 (1 / 10) 20 2 road); [left; reflexivity|discriminate|cbn; lra|exact H3|exact Ft3|exact H4|]. constructor. }
  exists s, s4, [OAddVehicle ra_car part2; OSetDestination k part3; OAddVehicle ra_car part1; OSetDestination k2 part3], k, k2. cbv zeta. fold road.
  split; [exact Hh|]. split; [repeat constructor; cbn; lra|]. split; [constructor|].
  split. { intros x l G. destruct (Three x l G) as [(_ & ->)|[(_ & ->)|(_ & ->)]]; auto. }
  assert (forall x y, next_on road x y -> x = part1 /\ y = part2 \/ x = part2 /\ y = part3) as Nx.
  { intros x y (pre & post & E). unfold road in E. destruct pre as [|a [|b [|c [|g pre]]]]; try discriminate E; injection E; intros; subst; auto. }
  split.
  { split; [repeat constructor; cbn; intuition discriminate|]. split.
    - intros x [<-|[<-|[<-|[]]]]; apply sm_mem_get; eauto.
    - intros x y _. split.
      + intros (l & G & Hb). destruct (Three x l G) as [(-> & ->)|[(-> & ->)|(-> & ->)]]; [rewrite O1 in Hb|rewrite O2 in Hb|rewrite O3 in Hb; destruct Hb]; (destruct Hb as [<-|[]]); [exists [], [part3]|exists [part1], []]; reflexivity.
      + intros N. destruct (Nx x y N) as [(-> & ->)|(-> & ->)]; [exists l1; split; [exact G1|rewrite O1]|exists l2; split; [exact G2|rewrite O2]]; left; reflexivity. }
  split. { intros x [<-|[<-|[<-|[]]]]; unfold length_of; rewrite ?G1, ?G2, ?G3; lra. }
  split. { intros j u (G & _). exact (None' j u G). }
  split; [exact Tr|]. split; [exact Nk|].
  assert (forall j x, In x road -> (exists u, vehicle_at s3 j = Some u /\ v_link u = Some x) -> exists u, on_road s4 road j u) as Up.
  { intros j x Hx (u & Gu & Lu). destruct (Up4 _ _ Gu) as (u4 & G4). destruct (Dn4 _ _ G4) as (u' & Gu' & Q & _). assert (u' = u) by congruence. subst u'. exists u4. split; [exact G4|]. exists x. unfold v_link in *. split; [congruence|exact Hx]. }
  split. { apply (Up k part2); [right; left; reflexivity|]. rewrite (Vs3 k Nk). destruct (Up2 _ _ Gv) as (u & Gu). destruct (Dn2 _ _ Gu) as (v' & Gv' & Q & _). assert (v' = v) by congruence. subst v'. exists u. unfold v_link in *. split; [exact Gu|congruence]. }
  split. { apply (Up k2 part1); [left; reflexivity|]. eauto. }
  intros dts Fd. destruct (C65_goes_on dts s4 pick Rc4 Pr4 Pg4 Gl4 Co4) as (n & s' & Hr). exists n, s'. split; [exact Hr|].
  assert (traffic 10 (1 / 10) 20 2 road s4 (map (@OStep RA) dts) s') as Ts.
  { pose proof (Hr n (le_n _)) as Hn. clear - Fd Hn. revert s4 Hn. induction Fd as [|dt dts Hdt Fd IH]; intros s4 Hn; cbn [map run] in Hn |- *.
    - injection Hn as <-. constructor.
    - bok Hn s5 H5. econstructor; [exact Hdt|exact H5|]. apply IH. exact Hn. }
  eapply (tr_enter 10 (1 / 10) 20 2 road); [right; left; reflexivity|discriminate|cbn; lra|exact H1|exact Ft1|exact H2|]. eapply (tr_enter 10 (1 / 10) 20 2 road); [left; reflexivity|discriminate|cbn; lra|exact H3|exact Ft3|exact H4|]. exact Ts.
Qed.
