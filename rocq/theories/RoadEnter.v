(** * Lemmas about vehicles that are let onto a road of several links (P_Traffic.v) *)
From Coq Require Import List Bool ZArith NArith Arith Lia Reals Lra Sorting.Sorted Relations.
From Verif Require Import Arith RealArith Base BaseProofs SlotMap Util Geom Light Accel Net Path Vehicle LinkOps Sim SpecSim SpecMotion SlotMapProofs Safe NetInv SimInv AccSafe SimSafe StepSafe OpSafe Evo StepEvo SimProofs StepProofs Ord LogProofs Motion RFacts NetEvo P_Motion P_Limit SpecNet SpecEnter SpecRoute SpecAhead P_Ahead P_Net P_Order P_Enter P_Exit P_Coord SpecGap GapKin GapProofs P_Gap StopProofs SpecQueue QueueProofs RouteProofs PlanProofs RouteEvo P_Route SpecCheap ArriveProofs WhereProofs SpecRoad RoadLists RoadProofs RoadKnow P_Road SpecClear RoadClear SpecTraffic.
Import ListNotations.

Section Added.
  Context {A : Arith}.
  (** A vehicle that has just been added. *)
  Lemma added e (s : sim) a x s1 k : Inv s -> add_vehicle e s a x = Ok (s1, k) ->
    exec e s (OAddVehicle a x) = Ok s1 /\ vehicle_at s k = None /\ (forall y, y <> k -> vehicle_at s1 y = vehicle_at s y) /\
    (forall y, y <> x -> link_at s1 y = link_at s y) /\
    (forall l1, link_at s1 x = Some l1 -> exists l, link_at s x = Some l /\ insert_vehicle (s_vehicles s1) k l = Ok l1) /\
    exists v, vehicle_at s1 k = Some v /\ v_route v = [x] /\ v_pos v = n0 /\ v_vel v = n0 /\ v_lane_change v = None.
  Proof.
    intros I H. split; [cbn [exec]; rewrite H; reflexivity|]. unfold add_vehicle in H. bok H v0 Hv0. bok H v1 Hv1. bok H links Hl. injection H as <- <-. unfold vehicle_at, link_at. cbn [s_vehicles s_links with_links with_vehicles].
    assert (sm_wf (s_vehicles s)) as Wf by apply (st_wf _ _ _ (i_st _ I)). split; [apply next_key_fresh; exact Wf|].
    split. { intros y N. rewrite sm_get_insert by exact Wf. destruct (key_eqb_spec (sm_next_key (s_vehicles s)) y) as [<-|]; [congruence|reflexivity]. }
    split. { intros y N. exact (upd_other _ _ _ _ y Hl N). }
    split.
    { intros l1 G1. unfold upd_link in Hl. bok Hl l Hg. bok Hl l2 Hi. injection Hl as <-. unfold get_link in Hg. destruct (sm_get (s_links s) x) as [l0|] eqn:G; [|discriminate Hg]. injection Hg as ->. rewrite sm_get_set, key_eqb_refl in G1. assert (sm_mem (s_links s) x = true) as M by (apply sm_mem_get; eauto). rewrite M in G1. injection G1 as <-. eauto. }
    exists v1. split; [rewrite sm_get_insert by exact Wf; rewrite key_eqb_refl; reflexivity|]. apply update_coords_ok in Hv1. unfold Rcoords in Hv1. unfold set_location in Hv0. bok Hv0 pf Hpf. injection Hv0 as <-.
    destruct Hv1 as (E1 & E2 & E3 & E4 & E5 & E6 & E7). unfold body in E1. injection E1 as _ _ _ _ _ Ev _ _ _ _. rewrite E3, E4, E7, Ev. repeat split; reflexivity.
  Qed.
End Added.

Local Open Scope R_scope.
Section Enter.
  Variables L d m h : R.
  Variables road : list key.
  Hypothesis HL : 0 < L.
  Hypothesis Hd : 0 <= d.
  Let z := last road null_key.

  (** What is known of a vehicle stays true if others are added or sent somewhere. *)
  Lemma know_kept ks ops e s o s' k v v' : history sim_new ops s -> groups_apart ops -> know L road ks s k v -> exec e s o = Ok s' -> is_step o = false -> builds o = false -> redirects k o = false -> moves k o = false ->
    (forall x y, o <> OLaneChange k x y) -> vehicle_at s k = Some v -> vehicle_at s' k = Some v' -> know L road ks s' k v'.
  Proof.
    intros Hist Ap Kn H Es Hb Hr Hm Nl G G'. pose proof (history_reachable _ _ _ Hist (@reach_new RA)) as Rc. pose proof (reachable_Inv _ Rc) as I. unfold vehicle_at in G, G'.
    destruct (call_keeps e s o s' k v v' Rc H Es Nl G G') as (_ & _ & _ & S4 & S5 & S6 & _).
    assert (sm_issued (s_vehicles s) k) as Is by (eapply issued_mem; eauto).
    destruct (exec_bound ops e s o s' k z Hist Ap RA_cast H Hr) as (_ & _ & Bd). destruct Bd as (_ & Bd); [exact Hb|split; [exact Is|]|].
    { intros v0 X. assert (v0 = v) by congruence. subst v0. split; apply Kn. }
    destruct (Bd _ G') as (Dd & Pl). destruct (exec_timers _ _ _ _ I H Es) as (_ & Et).
    constructor.
    - apply Kn.
    - destruct (exec_kept e s o s' k v' I H Es Hm G') as [(v0 & G0 & _ & _ & E & _)|(a & lid & v0 & _ & Ek & _)]; [rewrite E; assert (v0 = v) as -> by congruence; apply Kn|].
      exfalso. rewrite Ek, next_key_fresh in G by apply (st_wf _ _ _ (i_st _ I)). discriminate G.
    - exact Dd.
    - exact Pl.
    - destruct (kn_track _ _ _ _ _ _ Kn) as (mt & Clo & Tr). exists mt. split; [exact (closed_same road _ _ mt (exec_static _ _ _ _ I H Hb) Clo)|].
      apply (exec_track e s o s' mt k I H Hr Hm Is); [|exact G']. intros v0 X. assert (v0 = v) by congruence. subst v0. exact Tr.
    - intros x y Lx Ny. rewrite Et, S4. unfold heads_to. rewrite S6. apply (kn_pos _ _ _ _ _ _ Kn x y); congruence.
  Qed.

  (** Letting a vehicle onto the road. *)
  Lemma flow_enter e s (a : @attrs RA) x s1 k : flow L d m h road s -> In x road -> 0 < a_max_acc a /\ 4 * a_max_acc a * (1 / 10 + d) <= L -> add_vehicle e s a x = Ok (s1, k) -> fits L d m h s1 road k -> flow L d m h road s1.
  Proof.
    intros F Hx Ha H Ft. pose proof (fl_reach L d m h road s F) as Rc. pose proof (reachable_Inv _ Rc) as I.
    destruct (added e s a x s1 k I H) as (He & Gk & Vs & Ls & Lx & v & Gv & Rv & Pv & Vv & Lc). pose proof (exec_static _ _ _ _ I He eq_refl) as Sn. pose proof (exec_Inv _ _ _ _ I He) as I1.
    destruct (Ft v Gv) as (W & Fr). destruct (fl_hist _ _ _ _ _ _ F) as (ops & Hh & Fo). destruct (exec_timers _ _ _ _ I He eq_refl) as (Et & _).
    assert (0 <= s_acc_update s) as Tn. { apply (timer_nonneg ops); [exact Hh|]. eapply Forall_impl; [|exact Fo]. intros o. destruct o; cbn [one_limit forward]; tauto. }
    assert (v_link v = Some x) as Lv by (unfold v_link; rewrite Rv; reflexivity).
    assert (forall k2 v2, on_road s1 road k2 v2 -> k2 <> k -> on_road s road k2 v2) as Old. { intros k2 v2 (G2 & L2) N. split; [rewrite <- (Vs k2 N); exact G2|exact L2]. }
    assert (forall v2, road_pos s1 road v2 = road_pos s road v2) as Rp. { intros v2. unfold road_pos. destruct (v_link v2); [|reflexivity]. rewrite (start_ext (length_of s1) (length_of s)); [reflexivity|]. intros y _. exact (same_len _ _ _ Sn). }
    constructor.
    - exists (ops ++ [OAddVehicle a x]). split; [exact (history_app _ _ _ _ _ Hh (hist_call _ _ _ _ _ _ He (hist_nil _)))|]. apply Forall_app. split; [exact Fo|constructor; [exact Ha|constructor]].
    - exact (same_single road _ _ Sn (fl_road _ _ _ _ _ _ F)).
    - intros y y2 Hy. rewrite !(same_chg2 _ _ _ _ Sn). exact (fl_lanes _ _ _ _ _ _ F y y2 Hy).
    - intros y l Hy G. pose proof (same_len s s1 y Sn) as El. unfold length_of in El. unfold link_at in *. rewrite G in El. destruct (same_net_get _ _ _ _ Sn G) as (l0 & G0 & _). rewrite G0 in El. rewrite El. exact (fl_len _ _ _ _ _ _ F y l0 Hy G0).
    - intros k2 v2 O. destruct (key_eqb_spec k2 k) as [->|N].
      + assert (v2 = v) by (destruct O as (Q & _); congruence). subst v2. split; [exact W|]. intros y Ly. assert (y = x) by congruence. subst y. rewrite (same_len s s1 x Sn). change (v_pos v = 0) in Pv. rewrite Pv.
        destruct (road_link L d m h road s F x Hx) as (l & _ & _ & Lm). destruct W as ((W0 & _) & (W1 & W2) & _ & W3 & _). split; [lra|]. lra.
      + destruct (fl_well _ _ _ _ _ _ F k2 v2 (Old k2 v2 O N)) as (W2 & Wp). split; [exact W2|]. intros y Ly. rewrite (same_len s s1 y Sn). exact (Wp y Ly).
    - intros y l1 Hy G1.
      assert (forall l : @link RA, link_at s y = Some l -> ord (posf (s_vehicles s1)) (lk_vehicles l)) as Keep.
      { intros l G. eapply ord_ext; [|exact (fl_ord _ _ _ _ _ _ F y l Hy G)]. intros j p Hj Ep. unfold posf in *. destruct (in_list_on _ _ _ _ _ _ (i_st _ I) G Hj) as (w & Gw & _).
        assert (j <> k) as N by (intros ->; unfold vehicle_at in Gk; congruence). pose proof (Vs j N) as E. unfold vehicle_at in E. rewrite E in Ep. exact Ep. }
      destruct (key_eqb_spec y x) as [->|N]; [|apply Keep; rewrite <- (Ls y N); exact G1].
      destruct (Lx l1 G1) as (l & G & Hi). exact (insert_ord RA_ord _ _ _ _ Hi (Keep l G)).
    - intros k1 k2 v1 v2 O1 O2 Nk Le. rewrite Et. destruct (key_eqb_spec k1 k) as [->|N1]; [|destruct (key_eqb_spec k2 k) as [->|N2]].
      + assert (v1 = v) by (destruct O1 as (Q & _); congruence). subst v1. destruct (Fr k2 v2 O2 ltac:(congruence)) as (X & _). right. exists (refresh_time d). split; [unfold refresh_time; lra|]. split; [lra|]. apply room_K. exact (X Le).
      + assert (v2 = v) by (destruct O2 as (Q & _); congruence). subst v2. destruct (Fr k1 v1 O1 N1) as (_ & X). right. exists (refresh_time d). split; [unfold refresh_time; lra|]. split; [lra|]. apply room_K. exact (X Le).
      + unfold road_gap. rewrite !Rp in *. exact (fl_room _ _ _ _ _ _ F k1 k2 v1 v2 (Old _ _ O1 N1) (Old _ _ O2 N2) Nk Le).
  Qed.
End Enter.
