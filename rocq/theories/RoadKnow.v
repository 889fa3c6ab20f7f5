(** * More about the vehicles on a road of several links: other calls, and what the drivers know (P_Road.v) *)
From Coq Require Import List Bool ZArith NArith Arith Lia Reals Lra Sorting.Sorted Relations.
From Verif Require Import Arith RealArith Base BaseProofs SlotMap Util Geom Light Accel Net Path Vehicle LinkOps Sim SpecSim SpecMotion SlotMapProofs Safe NetInv SimInv AccSafe SimSafe StepSafe OpSafe Evo StepEvo SimProofs StepProofs Ord LogProofs Motion RFacts NetEvo P_Motion P_Limit SpecNet SpecEnter SpecRoute SpecAhead P_Ahead P_Net P_Order P_Enter P_Exit P_Coord SpecGap GapKin GapProofs P_Gap StopProofs SpecQueue QueueProofs RouteProofs PlanProofs RouteEvo P_Route SpecCheap ArriveProofs WhereProofs SpecRoad RoadLists RoadProofs.
Import ListNotations.
Local Open Scope R_scope.

Section Call.
  Variables L d m h : R.
  Variables road ks : list key.
  Hypothesis HL : 0 < L.
  Hypothesis Hd : 0 <= d.

  Lemma road_call_limit o : road_call L d road ks o -> one_limit L d o.
  Proof. destruct o; cbn [road_call one_limit]; tauto. Qed.
  Lemma road_call_builds o : road_call L d road ks o -> builds o = false.
  Proof. destruct o; cbn [road_call builds]; tauto. Qed.
  Lemma road_call_moves k o : road_call L d road ks o -> moves k o = false.
  Proof. destruct o; cbn [road_call moves]; tauto. Qed.
  Lemma road_call_redirects k o : In k ks -> road_call L d road ks o -> redirects k o = false.
  Proof. intros Hk. destruct o; cbn [road_call redirects]; try tauto. intros N. apply key_eqb_neq. intros ->. auto. Qed.

  (** A call other than a step leaves the vehicles on the road as they are. *)
  Lemma call_same e (s : @sim RA) o s' k v' : reachable s -> road_call L d road ks o -> exec e s o = Ok s' -> is_step o = false -> on_road s' road k v' ->
    exists v, on_road s road k v /\ spec_of v' = spec_of v /\ v_vel v' = v_vel v /\ acceleration v' = acceleration v /\ v_pos v' = v_pos v /\ v_link v' = v_link v /\ v_route v' = v_route v.
  Proof.
    intros Rc Q H Es (G' & x & L' & Hx). pose proof (reachable_Inv _ Rc) as I. unfold vehicle_at in G'.
    destruct (exec_vehicle _ _ _ _ _ _ I H Es G') as [(v & G & _)|(a & y & -> & Ni & Ek & _)].
    - exists v. destruct (call_keeps e s o s' k v v' Rc H Es) as (K1 & K2 & K3 & K4 & K5 & K6 & _); auto; [intros ? ? ->; exact Q|].
      split; [split; [exact G|exists x; split; [congruence|exact Hx]]|]. auto 10.
    - exfalso. cbn [road_call] in Q. apply (proj2 Q). cbn [exec] in H. bok H r Hr. destruct r as [s2 k2]. injection H as <-. unfold add_vehicle in Hr. bok Hr v0 Hv0. bok Hr v1 Hv1. bok Hr links Hl. injection Hr as <- <-.
      cbn [s_vehicles with_links with_vehicles] in G'. rewrite sm_get_insert in G' by apply (st_wf _ _ _ (i_st _ I)). rewrite Ek, key_eqb_refl in G'. injection G' as <-.
      assert (v_link v1 = v_link v0) as E1. { apply update_coords_ok in Hv1. unfold Rcoords in Hv1. unfold v_link. destruct Hv1 as (_ & _ & _ & E & _). rewrite E. reflexivity. }
      assert (v_link v0 = Some y) as E0. { unfold set_location in Hv0. bok Hv0 pf Hpf. injection Hv0 as <-. reflexivity. }
      rewrite E1, E0 in L'. injection L' as ->. exact Hx.
  Qed.

  Lemma flow_call e (s : @sim RA) o s' : flow L d m h road s -> road_call L d road ks o -> exec e s o = Ok s' -> is_step o = false -> flow L d m h road s'.
  Proof.
    intros F Q H Es. pose proof (fl_reach L d m h road s F) as Rc. pose proof (reachable_Inv _ Rc) as I. pose proof (exec_static _ _ _ _ I H (road_call_builds o Q)) as Sn.
    destruct (fl_hist _ _ _ _ _ _ F) as (ops & Hh & Fo).
    assert (forall k v', on_road s' road k v' -> exists v, on_road s road k v /\ spec_of v' = spec_of v /\ v_vel v' = v_vel v /\ acceleration v' = acceleration v /\ v_pos v' = v_pos v /\ v_link v' = v_link v /\ road_pos s' road v' = road_pos s road v) as Same.
    { intros k v' O'. destruct (call_same _ _ _ _ _ _ Rc Q H Es O') as (v & O & S1 & S2 & S3 & S4 & S5 & _). exists v. split; [exact O|]. split; [exact S1|]. split; [exact S2|]. split; [exact S3|]. split; [exact S4|]. split; [exact S5|].
      unfold road_pos. rewrite S5, S4. destruct (v_link v); [|reflexivity]. rewrite (start_ext (length_of s') (length_of s)); [reflexivity|]. intros y _. exact (same_len _ _ _ Sn). }
    constructor.
    - exists (ops ++ [o]). split; [exact (history_app _ _ _ _ _ Hh (hist_call _ _ _ _ _ _ H (hist_nil _)))|]. apply Forall_app. split; [exact Fo|constructor; [exact (road_call_limit _ Q)|constructor]].
    - exact (same_single road _ _ Sn (fl_road _ _ _ _ _ _ F)).
    - intros x y Hx. rewrite !(same_chg2 _ _ _ _ Sn). exact (fl_lanes _ _ _ _ _ _ F x y Hx).
    - intros x l Hx G. pose proof (same_len s s' x Sn) as El. unfold length_of in El. unfold link_at in *. rewrite G in El. destruct (same_net_get _ _ _ _ Sn G) as (l0 & G0 & _). rewrite G0 in El. rewrite El. exact (fl_len _ _ _ _ _ _ F x l0 Hx G0).
    - intros k v' O'. destruct (Same _ _ O') as (v & O & S1 & S2 & S3 & S4 & S5 & _). destruct (fl_well _ _ _ _ _ _ F k v O) as (W & Wp). split.
      + destruct (spec_parts _ _ S1) as (E1 & E2 & E3 & E4). destruct W as (W1 & W2 & W3 & W4). unfold drives_well. rewrite E1, E3. split; [exact (careful_same _ _ _ _ S1 W1)|]. auto.
      + intros x Lx. rewrite S4, (same_len s s' x Sn). apply Wp. congruence.
    - intros x l' Hx G'. unfold link_at in G'.
      assert ((exists l, sm_get (s_links s) x = Some l /\ subseq (lk_vehicles l') (lk_vehicles l)) \/ lk_vehicles l' = []) as Sb.
      { pose proof (exec_sub _ _ _ _ _ _ I H Es G') as Sb. destruct o; try exact Sb; [|destruct Q]. cbn [road_call] in Q. cbn [exec] in H. bok H r Hr. destruct r as [s2 k2]. injection H as <-. unfold add_vehicle in Hr. bok Hr v0 Hv0. bok Hr v1 Hv1. bok Hr links Hl. injection Hr as <- <-.
        left. exists l'. split; [|apply subseq_refl]. cbn [s_links with_links] in G'. rewrite <- (upd_other _ _ _ _ x Hl); [exact G'|]. intros ->. exact (proj2 Q Hx). }
      destruct Sb as [(l & G & Sq)|E]; [|rewrite E; constructor]. eapply ord_ext; [|exact (ord_sub _ _ _ Sq (fl_ord _ _ _ _ _ _ F x l Hx G))].
      intros k y Hk Hy. pose proof (exec_Inv e s o s' I H) as I'.
      destruct (in_list_on _ _ _ _ _ _ (i_st _ I') G' Hk) as (v' & Gv & Lv). destruct (Same k v') as (v & (Ov & _) & _ & _ & _ & S4 & _); [split; [exact Gv|eauto]|].
      unfold posf in *. rewrite Gv in Hy. unfold vehicle_at in Ov. rewrite Ov. cbn [option_map] in *. congruence.
    - intros k k2 v' v2' O1 O2 Nk Le. destruct (Same _ _ O1) as (v & P1 & S1 & S2 & S3 & S4 & S5 & S6). destruct (Same _ _ O2) as (v2 & P2 & T1 & T2 & T3 & T4 & T5 & T6).
      rewrite S6, T6 in Le. pose proof (fl_room _ _ _ _ _ _ F k k2 v v2 P1 P2 Nk Le) as Jr. destruct (spec_parts _ _ S1) as (E1 & _). destruct (spec_parts _ _ T1) as (E2 & _).
      assert (road_gap s' road v' v2' = road_gap s road v v2) as -> by (unfold road_gap; rewrite S6, T6, E1, E2; reflexivity). rewrite T2.
      exact (room_call d e s o s' v v' _ _ Rc H Es S1 S2 S3 Jr).
  Qed.
End Call.

(** ** What the drivers know of the road *)
Section Know.
  Variables L d m h : R.
  Variables road ks : list key.
  Hypothesis HL : 0 < L.
  Hypothesis Hd : 0 <= d.
  Let z := last road null_key.

  Record know (s : @sim RA) (k : key) (v : @vehicle RA) : Prop := {
    kn_in : In k ks;
    kn_lane : v_lane_change v = None;
    kn_dst : pf_dst (v_pathfind v) = z;
    kn_plan : planned_all (s_links s) (v_pathfind v);
    kn_track : exists mt, closed (s_links s) z mt /\ on_track mt v;
    kn_pos : forall x y, v_link v = Some x -> next_on road x y -> heads_to v 1 y \/ v_pos v <= L * s_lc_update s }.
  Definition all_know (s : @sim RA) : Prop := forall k v, on_road s road k v -> know s k v.

  Lemma closed_same (links links' : @linkset RA) mt : same_net links links' -> closed links z mt -> closed links' z mt.
  Proof. intros Sn C a Ha. destruct (C a Ha) as [E|(b & Sb & Hb)]; [left; exact E|right; exists b; split; [apply (same_succ2 _ _ _ _ Sn); exact Sb|exact Hb]]. Qed.

  (** All plans lead along the road. *)
  Lemma plan_next s k v x p : flow L d m h road s -> know s k v -> vehicle_at s k = Some v -> v_link v = Some x -> In x road -> In p (pf_paths (v_pathfind v)) ->
    exists q, pt_links p = x :: q /\ forall y, next_on road x y -> exists q', q = y :: q'.
  Proof.
    intros F Kn G Lv Hx Hin. pose proof (fl_Inv L d m h road s F) as I. destruct (link_src _ _ _ _ I G Lv) as (Es & _). destruct (fl_road _ _ _ _ _ _ F) as (Nd & Va & Sc).
    destruct (kn_plan _ _ _ Kn) as (P1 & _). destruct (P1 p Hin) as ((b & Hb & Pl) & _). rewrite Es in Hb.
    assert (b = x) as ->. { destruct Hb as [Hb|Hb]; auto. exfalso. exact (proj2 (fl_lanes _ _ _ _ _ _ F x b Hx) Hb). }
    destruct (plan_first _ _ _ _ _ _ Pl) as (q & Eq). exists q. split; [exact Eq|]. intros y Ny. rewrite Eq in Pl. destruct (kn_track _ _ _ Kn) as (mt & Clo & Em & _ & _).
    assert (x <> z) as Nz. { intros ->. exact (last_not_next road y Nd Ny). }
    inversion Pl as [room dist a' Ta Hs|room dist a' l b p' Ta Hd' G' Hb' P']; subst a'.
    - exfalso. destruct Hs as [Hs|[Hs|Hs]]; [discriminate Hs| |].
      + apply ltb_R_false in Hs. change (nofZ 200) with (IZR 200) in Hs. change (@n0 RA) with 0 in Hs. lra.
      + rewrite Em in *. destruct (Clo _ Ta) as [Q|(b & Sb & Mb)]; [contradiction|]. apply (Hs b); [exact Sb|exact Mb].
    - destruct (plan_first _ _ _ _ _ _ P') as (q' & ->). exists q'. f_equal. apply (next_unique road x); [exact Nd| |exact Ny]. apply Sc; [left; exact Hx|]. exists l. split; auto.
  Qed.

  Lemma know_choice e s k v s1 v1 x : flow L d m h road s -> know s k v -> vehicle_at s k = Some v -> v_link v = Some x -> In x road ->
    calculate_lane_changes e s = Ok s1 -> vehicle_at s1 k = Some v1 ->
    v_link v1 = Some x /\ v_pos v1 = v_pos v /\ v_lane_change v1 = None /\
    forall y, next_on road x y -> heads_to v1 1 y \/ s_lc_update s < 3 / 10 /\ v_pos v <= L * s_lc_update s.
  Proof.
    intros F Kn G Lv Hx H G1. pose proof (fl_Inv L d m h road s F) as I. unfold vehicle_at in G, G1. destruct (lane_changes_exact _ _ _ _ _ (i_st _ I) H G1) as (v0 & G0 & C). assert (v0 = v) by congruence. subst v0.
    destruct (kn_track _ _ _ Kn) as (mt & Clo & Em & Mr & Mp). pose proof (plan_next s k v x) as Pn.
    destruct C as [(D & ->)|(D & C)].
    { split; [exact Lv|]. split; [reflexivity|]. split; [apply Kn|]. intros y Ny. destruct (kn_pos _ _ _ Kn x y Lv Ny) as [Q|Q]; [left; exact Q|right; split; [|exact Q]]. apply ltb_R in D. revert D. unfold LANE_CHANGE_UPDATE_SEC, lit. unR. lra. }
    destruct C as [C|p C Hh|p b links' pos lc v2 C Hh Nl Hs].
    - split; [exact Lv|]. split; [reflexivity|]. split; [apply Kn|]. intros y Ny. left.
      destruct (choose_none _ _ C (kn_lane _ _ _ Kn)) as [Q|(p & Hin & Eq)].
      + exfalso. destruct (found_candidate _ _ _ _ I G Lv (kn_plan _ _ _ Kn)) as (p & Hp'). { unfold routed. rewrite Em. apply Mr. unfold v_link in Lv. destruct (v_route v); [discriminate Lv|]. injection Lv as ->. left. reflexivity. }
        unfold candidates in Hp'. rewrite Q in Hp'. destruct Hp'.
      + destruct (Pn p F Kn G Lv Hx Hin) as (q & E & N). destruct (N y Ny) as (q' & ->). unfold heads_to. rewrite <- Eq, E. reflexivity.
    - destruct (choose_path_in _ _ _ C) as (Hin & _). destruct (Pn p F Kn G Lv Hx Hin) as (q & E & N). cbn [set_path v_link v_route v_pos v_lane_change].
      split; [change (hd_error (pt_links p) = Some x); rewrite Hh; exact Lv|]. split; [reflexivity|]. split; [apply Kn|]. intros y Ny. left. destruct (N y Ny) as (q' & ->). unfold heads_to. cbn [set_path v_route]. rewrite E. reflexivity.
    - exfalso. destruct (choose_path_in _ _ _ C) as (Hin & _). destruct (Pn p F Kn G Lv Hx Hin) as (q & E & N). rewrite E in Hh. injection Hh as <-. contradiction.
  Qed.

  Lemma know_informed e s dt s' s1 s2 s3 s4 s5 : flow L d m h road s -> all_know s -> phases e s dt s1 s2 s3 s4 s5 s' -> informed L road s1.
  Proof.
    intros F Ak P k v1 x y G1 L1 Ny. pose proof (fl_Inv L d m h road s F) as I. destruct (next_in _ _ _ Ny) as (Hx & _).
    destruct (lane_changes_exact _ _ _ _ _ (i_st _ I) (ph1 _ _ _ _ _ _ _ _ _ P) G1) as (v & G & _).
    destruct (drive _ _ _ _ _ _ _ _ _ _ _ I P G) as (v1' & v4 & G1' & _ & D). unfold vehicle_at in G1. assert (v1' = v1) by congruence. subst v1'.
    assert (v_link v = Some x) as Lv.
    { destruct (dr_lc _ _ _ _ _ _ _ _ _ D) as (_ & [(Q & _)|(a & b & M1 & M2 & M3 & M4)] & _); [congruence|]. exfalso. rewrite L1 in M2. injection M2 as ->. exact (proj1 (fl_lanes _ _ _ _ _ _ F b a Hx) M3). }
    assert (know s k v) as Kn by (apply Ak; split; [exact G|eauto]).
    destruct (know_choice e s k v s1 v1 x F Kn G Lv Hx (ph1 _ _ _ _ _ _ _ _ _ P) G1) as (_ & Ep & _ & N). destruct (N y Ny) as [Q|(Q1 & Q2)]; [left; exact Q|right]. rewrite Ep.
    assert (L * s_lc_update s <= L * (3 / 10)) by (apply Rmult_le_compat_l; lra). lra.
  Qed.

  Lemma know_step ops e s dt s' : history sim_new ops s -> groups_apart ops -> flow L d m h road s -> all_know s -> 0 <= dt <= d -> step e s dt = Ok s' -> flow L d m h road s' /\ all_know s'.
  Proof.
    intros Hist Ap F Ak Hdt H. pose proof (fl_Inv L d m h road s F) as I. destruct (step_phases _ _ _ _ I H) as (s1 & s2 & s3 & s4 & s5 & P).
    pose proof (know_informed _ _ _ _ _ _ _ _ _ F Ak P) as Inf. pose proof (flow_step L d m h road HL Hd e s dt s' s1 s2 s3 s4 s5 F Hdt H P Inf) as F'. split; [exact F'|].
    intros k v' O'. destruct (survivor L d m h road HL Hd e s dt s' s1 s2 s3 s4 s5 F Hdt H P k v' O') as (v & x & v4 & G & Lv & Hx & G4 & _ & L4 & Sp & B & _ & _ & Mv).
    assert (know s k v) as Kn by (apply Ak; split; [exact G|eauto]). destruct O' as (G' & _). unfold vehicle_at in G'.
    destruct (moved L d m h road e s dt s' s1 s2 s3 s4 s5 F P k v x G Lv Hx) as (v1 & v4' & G1 & G4' & D & L1 & P1 & _ & _ & _ & _ & _ & _ & _ & Ep). assert (v4' = v4) by congruence. subst v4'.
    destruct (know_choice e s k v s1 v1 x F Kn G Lv Hx (ph1 _ _ _ _ _ _ _ _ _ P) G1) as (_ & _ & Ln & N).
    assert (exec e s (@OStep RA dt) = Ok s') as He by exact H.
    assert (sm_issued (s_vehicles s) k) as Is by (eapply issued_mem; eauto).
    destruct (exec_bound ops e s (@OStep RA dt) s' k z Hist Ap RA_cast He eq_refl) as (_ & _ & Bd). destruct Bd as (_ & Bd); [reflexivity|split; [exact Is|]|].
    { intros v0 Q. assert (v0 = v) by congruence. subst v0. split; apply Kn. }
    destruct (Bd _ G') as (Dd & Pl).
    destruct (fl_hist _ _ _ _ _ _ F) as (ops1 & Hh1 & Fo1). pose proof (lc_nonneg L d ops1 s Hh1 Fo1) as Lc0.
    assert ((s_lc_update s' : R) = (if Rlt_dec (s_lc_update s) (3 / 10) then (s_lc_update s : R) else 0) + dt) as Et.
    { destruct (step_timers _ _ _ _ I H) as (_ & ->). unfold LANE_CHANGE_UPDATE_SEC. assert (@lit RA 3 10 = 3 / 10) as -> by (unfold lit; unR; lra).
      destruct (@nltb RA (s_lc_update s) (3 / 10)) eqn:E; [apply ltb_R in E|apply ltb_R_false in E]; destruct Rlt_dec; try lra; unR; reflexivity. }
    constructor.
    - apply Kn.
    - exact (step_lane_none k e s dt s' v' v s1 v1 I H G' (ph1 _ _ _ _ _ _ _ _ _ P) G1 Ln G).
    - exact Dd.
    - exact Pl.
    - destruct (kn_track _ _ _ Kn) as (mt & Clo & Tr). exists mt. split; [exact (closed_same _ _ mt (step_same_net _ _ _ _ I H) Clo)|].
      apply (exec_track e s (@OStep RA dt) s' mt k I He eq_refl eq_refl Is); [|exact G']. intros v0 Q. assert (v0 = v) by congruence. subst v0. exact Tr.
    - intros x' y Lx' Ny. destruct Mv as [(Lv' & Ep')|(b & Nb & Lb & Eb)].
      + assert (x' = x) by congruence. subst x'. destruct (N y Ny) as [Q|(Q1 & Q2)].
        * left. destruct (step_exit _ _ _ _ _ _ I H G') as (v0 & w1 & t1 & G0 & Ht1 & Gw & _ & _ & _ & Ne & Rt). assert (t1 = s1) by (pose proof (ph1 _ _ _ _ _ _ _ _ _ P); congruence). subst t1. assert (w1 = v1) by congruence. subst w1.
          destruct Rt as [(Rt & _)|Rt]; [unfold heads_to; rewrite Rt; exact Q|]. exfalso. unfold heads_to in Q. unfold v_link in Lv', L1. rewrite Rt in Lv'. destruct (v_route v1) as [|a [|b r]]; [discriminate L1|discriminate Q|]. cbn in *. injection Q as ->. injection Lv' as ->. injection L1 as ->.
          destruct (fl_road _ _ _ _ _ _ F) as (Nd & _). destruct Ny as (pre & post & E). rewrite E in Nd. apply NoDup_remove_2 in Nd. apply Nd. apply in_or_app. right. left. reflexivity.
        * right. rewrite Ep', Ep, Et. destruct Rlt_dec; [|lra].
          destruct (fl_vel L d m h road HL Hd s F k v G) as (V0 & V1). destruct (fl_vel L d m h road HL Hd s' F' k v' G') as (W0 & W1).
          assert (v_vel v' = v_vel v4) as Ev by (unfold body in B; injection B as _ _ _ _ _ X _ _ _ _; exact X). rewrite Ev in W0, W1.
          assert ((v_vel v + v_vel v4) / 2 * dt <= L * dt) by (apply Rmult_le_compat_r; lra). lra.
      + right. assert (L * dt <= L * s_lc_update s') as X; [apply Rmult_le_compat_l; [lra|]; rewrite Et; destruct Rlt_dec; lra|]. lra.
  Qed.

  Lemma know_call ops e s o s' : history sim_new ops s -> groups_apart ops -> flow L d m h road s -> all_know s -> road_call L d road ks o -> exec e s o = Ok s' -> is_step o = false ->
    flow L d m h road s' /\ all_know s'.
  Proof.
    intros Hist Ap F Ak Q H Es. pose proof (fl_reach L d m h road s F) as Rc. pose proof (reachable_Inv _ Rc) as I. split; [exact (flow_call L d m h road ks e s o s' F Q H Es)|].
    intros k v' O'. destruct (call_same L d road ks e s o s' k v' Rc Q H Es O') as (v & O & _ & _ & _ & S4 & S5 & S6). pose proof (Ak k v O) as Kn. destruct O as (G & _). destruct O' as (G' & _). unfold vehicle_at in G, G'.
    assert (sm_issued (s_vehicles s) k) as Is by (eapply issued_mem; eauto). pose proof (road_call_redirects L d road ks k o (kn_in _ _ _ Kn) Q) as Hr. pose proof (road_call_moves L d road ks k o Q) as Hm.
    destruct (exec_bound ops e s o s' k z Hist Ap RA_cast H Hr) as (_ & _ & Bd). destruct Bd as (_ & Bd); [exact (road_call_builds L d road ks o Q)|split; [exact Is|]|].
    { intros v0 X. assert (v0 = v) by congruence. subst v0. split; apply Kn. }
    destruct (Bd _ G') as (Dd & Pl). destruct (exec_timers _ _ _ _ I H Es) as (_ & Et).
    constructor.
    - apply Kn.
    - destruct (exec_kept e s o s' k v' I H Es Hm G') as [(v0 & G0 & _ & _ & E & _)|(a & lid & v0 & _ & Ek & _)]; [rewrite E; assert (v0 = v) as -> by congruence; apply Kn|].
      exfalso. rewrite Ek, next_key_fresh in G by apply (st_wf _ _ _ (i_st _ I)). discriminate G.
    - exact Dd.
    - exact Pl.
    - destruct (kn_track _ _ _ Kn) as (mt & Clo & Tr). exists mt. split; [exact (closed_same _ _ mt (exec_static _ _ _ _ I H (road_call_builds L d road ks o Q)) Clo)|].
      apply (exec_track e s o s' mt k I H Hr Hm Is); [|exact G']. intros v0 X. assert (v0 = v) by congruence. subst v0. exact Tr.
    - intros x y Lx Ny. rewrite Et, S4. unfold heads_to. rewrite S6. apply (kn_pos _ _ _ Kn x y); congruence.
  Qed.
End Know.
