(** * Where a vehicle that drives alone leaves the simulation *)
From Coq Require Import List Bool ZArith NArith Arith Lia Reals Lra Relation_Operators Operators_Properties.
From Verif Require Import Arith RealArith Base BaseProofs SlotMap Util Geom Light Accel Net Path Vehicle LinkOps Sim SpecLight LightProofs SpecSim SlotMapProofs Safe NetInv SimInv AccSafe SimSafe StepSafe OpSafe Evo StepEvo SimProofs StepProofs Ord LogProofs SpecMotion Motion RFacts P_Motion SpecRoute PlanProofs RouteProofs RouteEvo P_Route P_Exit NetEvo P_Lane SpecEnter EnterProofs P_Enter SpecAhead P_Ahead SpecConf ConfProofs P_Conf SpecSide SpecReason P_Reason P_Alone QueueProofs ArriveKin SpecArrive ArriveProofs P_Sim P_Limit.
Import ListNotations.
Local Open Scope R_scope.

(** ** The step in which a vehicle leaves *)
Lemma gone_step e (s : @sim RA) dt s' k v : reachable s -> step e s dt = Ok s' -> vehicle_at s k = Some v -> vehicle_at s' k = None -> -6 <= max_acc v ->
  exists s1 v1 lid l0 acc, calculate_lane_changes e s = Ok s1 /\ vehicle_at s1 k = Some v1 /\ v_route v1 = [lid] /\ link_at s lid = Some l0 /\ acc <= max_acc v /\
    lk_length l0 < v_pos v1 + / 2 * (v_vel v + Rmax (v_vel v + dt * acc) 0) * dt.
Proof.
  intros Rc H G G' Ma. pose proof (reachable_Inv _ Rc) as I. destruct (C17_step _ _ _ _ _ Rc H) as (_ & s4' & H4 & K). destruct (K k) as (K1 & _); [congruence|]. specialize (K1 G'). clear K.
  destruct K1 as (v4 & lid & l & G4 & R4 & Gl & Far). destruct (step_phases _ _ _ _ I H) as (s1 & s2 & s3 & s4 & s5 & P). assert (s4' = s4) by (pose proof (ph_pre _ _ _ _ _ _ _ _ _ P); congruence). subst s4'.
  destruct (integrate_evo _ _ _ (ph4 _ _ _ _ _ _ _ _ _ P)) as (_ & Ev & _). destruct (Ev _ _ G4) as (v2 & q & q' & G2 & Hi & _). rewrite (pv3 _ _ _ _ _ _ _ _ _ P) in G2.
  destruct (pk2 _ _ _ _ _ _ _ _ _ P _ _ G2) as (v1 & G1 & Kp). destruct (lane_changes_exact _ _ _ _ _ (i_st _ I) (ph1 _ _ _ _ _ _ _ _ _ P) G1) as (v0 & G0 & C).
  unfold vehicle_at in G. assert (v0 = v) by congruence. subst v0.
  assert (body v1 = body v) as B.
  { destruct (lane_changes_evo _ _ _ (i_st _ I) (ph1 _ _ _ _ _ _ _ _ _ P) _ _ G1) as (v0 & Q & B). assert (v0 = v) by congruence. subst v0. apply Rlc_body in B. exact B. }
  apply body_spec in B. destruct B as (Bs & Ba & Bv & _).
  destruct (integrate_ok _ _ _ _ _ Hi) as (_ & _ & _ & _ & _ & _ & D6 & _ & _ & D7 & _).
  assert (v_route v1 = [lid] /\ v_pos v2 = v_pos v1 /\ v_vel v2 = v_vel v) as (R1 & E1 & E2). { destruct Kp as (x & f & ->). cbn in D6 |- *. split; [congruence|]. split; [reflexivity|exact Bv]. }
  assert (am_get (v_acc v2) <= max_acc v) as Am.
  { assert (@MAX_DECEL RA <= am_max (v_acc v)) as Md by (change (-6 <= max_acc v); exact Ma).
    destruct (lc_fields _ _ _ (ph1 _ _ _ _ _ _ _ _ _ P)) as (_ & _ & F1 & _ & F2 & F3 & _).
    destruct (@nltb RA (s_acc_update s) ACCELERATION_UPDATE_SEC) eqn:D.
    - rewrite <- F2 in D. assert (s2 = s1) by (eapply acc_kept; [exact D|exact (ph2 _ _ _ _ _ _ _ _ _ P)]). subst s2. assert (v2 = v1) by congruence. subst v2. rewrite Ba.
      apply leb_R. apply (am_get_high RA_ord s k v Rc G). apply leb_R. exact Md.
    - rewrite <- F2 in D. destruct (acc_parts e s1 s2 (ps1 _ _ _ _ _ _ _ _ _ P)) as (links & vs & log1 & log & Pt); [|exact (ph2 _ _ _ _ _ _ _ _ _ P)|exact D|].
      + rewrite F3. eapply Forall_impl; [|apply (i_cps _ I)]. intros c (V1 & V2). split; (apply (same_net_valid _ _ _ (pn1 _ _ _ _ _ _ _ _ _ P)); assumption).
      + pose proof (pt_out _ _ _ _ _ _ _ Pt _ _ G1) as Go. rewrite G2 in Go. injection Go as ->. cbn [v_acc set_flag set_acc]. unfold am_get. cbn [am_acc am_set_acc]. rewrite Ba.
        rewrite max_R. apply Rmax_lub; [|exact Md]. destruct (key_mem k (s_frozen s1)); [exact Md|]. apply leb_R. apply (log_acc_le RA_ord). reflexivity. }
  unfold link_at in Gl. rewrite (pn4 _ _ _ _ _ _ _ _ _ P) in Gl.
  assert (same_net (s_links s) (s_links s3)) as Sn by (eapply same_net_trans; [exact (pn1 _ _ _ _ _ _ _ _ _ P)|]; eapply same_net_trans; [exact (pn2 _ _ _ _ _ _ _ _ _ P)|exact (pn3 _ _ _ _ _ _ _ _ _ P)]).
  destruct (same_net_get _ _ _ _ Sn Gl) as (l0 & Gl0 & Es). assert (lk_length l0 = lk_length l) as El by (unfold lk_static in Es; injection Es as F1 F2 F3 F4 F5 F6 F7 F8 F9; unfold lk_length; congruence).
  exists s1, v1, lid, l0, (am_get (v_acc v2)). split; [exact (ph1 _ _ _ _ _ _ _ _ _ P)|]. split; [exact G1|]. split; [exact R1|]. split; [exact Gl0|]. split; [exact Am|].
  apply ltb_R in Far. rewrite D7 in Far. unfold new_pos, new_vel in Far. rewrite max_R, E1, E2 in Far. rewrite El. revert Far. unfold nhalf. cbn. intros Far. lra.
Qed.

(** ** It never runs out of road *)
Section Where.
  Variables (k d : key) (N0 : @linkset RA) (m : matrix) (L dmax : R).
  Hypothesis Acyc : no_way_back N0.
  Hypothesis Clo : closed N0 d m.
  Hypothesis Snd : forall a, inM m a -> leads N0 a d.
  Hypothesis Lpos : 0 < L.
  Hypothesis Dm : 0 <= dmax.
  Hypothesis Room : forall x l, sm_get N0 x = Some l -> 5 / 4 * L * (3 / 10 + dmax) <= lk_length l.

  Record calm (s : @sim RA) (v : @vehicle RA) : Prop := {
    c_trip : trip k d N0 m s v;
    c_hist : exists ops, history (@sim_new RA) ops s /\ List.Forall (one_limit L dmax) ops;
    c_lc : 0 <= s_lc_update s;
    c_room : forall a la, v_link v = Some a -> sm_get N0 a = Some la ->
      v_pos v <= lk_length la /\ (ready v \/ v_pos v + 5 / 4 * L * (3 / 10 + dmax - s_lc_update s) <= lk_length la) }.

  Lemma calm_speed s v dt acc : calm s v -> 0 <= dt <= dmax -> acc <= max_acc v ->
    0 < max_acc v /\ 0 <= / 2 * (v_vel v + Rmax (v_vel v + dt * acc) 0) * dt <= 5 / 4 * L * dt.
  Proof.
    intros C Hdt Ha. destruct (c_hist _ _ C) as (ops & Hh & F). pose proof (j_at _ _ _ _ _ _ (c_trip _ _ C)) as G.
    destruct (new_tame L dmax ops s Lpos Dm Hh F) as (_ & _ & T). destruct (T _ _ G) as (_ & Ma & Mb & V & _). rewrite (factor_one L dmax ops s k v Hh F G) in Mb, V.
    assert (0 <= v_vel v) as V0. { apply leb_R. apply (vel_nonneg RA_ord eq_refl s k v); [eapply history_reachable; [exact Hh|constructor]|exact G]. }
    split; [exact Ma|]. rewrite Rmult_1_l in *. assert (dt * acc <= L / 4) as Q.
    { destruct (Rle_dec acc 0) as [Z|Z]; [assert (dt * acc <= 0) by nra; lra|]. assert (dt * acc <= dmax * max_acc v) by nra. nra. }
    assert (Rmax (v_vel v + dt * acc) 0 <= 5 / 4 * L) as X by (apply Rmax_lub; lra). pose proof (Rmax_r (v_vel v + dt * acc) 0) as Y.
    split; [apply Rmult_le_pos; lra|]. apply Rmult_le_compat_r; lra.
  Qed.

  Lemma net_len s v a la l : trip k d N0 m s v -> sm_get N0 a = Some la -> link_at s a = Some l -> lk_length l = lk_length la.
  Proof.
    intros J Ga Gl. destruct (same_net_get' _ _ _ _ (j_net _ _ _ _ _ _ J) Ga) as (l1 & Gl1 & Es). unfold link_at in Gl. rewrite Gl in Gl1. injection Gl1 as <-.
    unfold lk_static in Es; injection Es as F1 F2 F3 F4 F5 F6 F7 F8 F9; unfold lk_length; congruence.
  Qed.

  Lemma calm_step e s dt s' v v' : calm s v -> step e s dt = Ok s' -> vehicle_at s' k = Some v' -> 0 <= dt <= dmax -> calm s' v'.
  Proof.
    intros C H G' Hdt. pose proof (c_trip _ _ C) as J. pose proof (trip_Inv _ _ _ _ _ _ J) as I. destruct (c_hist _ _ C) as (ops & Hh & F).
    assert (exec e s (@OStep RA dt) = Ok s') as Hx by exact H.
    assert (history (@sim_new RA) (ops ++ [@OStep RA dt]) s') as Hh' by (eapply history_app; [exact Hh|econstructor; [exact Hx|constructor]]).
    assert (List.Forall (one_limit L dmax) (ops ++ [@OStep RA dt])) as F' by (apply Forall_app; split; [exact F|constructor; [exact Hdt|constructor]]).
    destruct (vbase_link _ _ _ _ (st_veh _ _ _ (i_st _ I) _ _ (j_at _ _ _ _ _ _ J))) as (a & La & _).
    destruct (trip_step k d N0 m Acyc Clo Snd RA_cast) with (e := e) (s := s) (dt := dt) (s' := s') (v := v) (v' := v') (a := a) as (J' & Sp & Ad & Vl & la & p & Gla & Ep & Q); auto.
    { apply ltb_R. change (0 < IZR 200). lra. }
    destruct (step_timers _ _ _ _ I H) as (_ & Tl). change (@LANE_CHANGE_UPDATE_SEC RA) with (@lit RA 3 10) in *. assert (@lit RA 3 10 = 3 / 10) as L3 by (unfold lit; cbn; lra). rewrite L3 in *.
    pose proof (c_lc _ _ C) as Lc. change (@n0 RA) with 0 in *. rewrite max_R in Vl. change (v_vel v' = Rmax (v_vel v + dt * acceleration v') 0) in Vl.
    assert (max_acc v' = max_acc v) as Em by (unfold spec_of in Sp; injection Sp as _ _ _ _ S5 _; exact S5).
    assert (0 < max_acc v) as Ma by (apply (calm_speed s v dt (max_acc v) C Hdt); lra).
    assert (acceleration v' <= max_acc v) as Ha.
    { rewrite <- Em. apply leb_R. apply (am_get_high RA_ord s' k v'); [eapply history_reachable; [exact Hh'|constructor]|exact G'|]. apply leb_R. change (-6 <= max_acc v'). lra. }
    destruct (calm_speed s v dt _ C Hdt Ha) as (_ & S0 & S1). rewrite <- Vl in S0, S1.
    assert (p = v_pos v + / 2 * (v_vel v + v_vel v') * dt) as Ep'. { rewrite Ep. unfold nhalf. cbn. lra. }
    assert (exists la0, sm_get N0 a = Some la0 /\ lk_length la = lk_length la0) as (la0 & Ga0 & El).
    { destruct (same_net_get _ _ _ _ (j_net _ _ _ _ _ _ J) Gla) as (la0 & Ga0 & _). exists la0. split; [exact Ga0|]. exact (net_len _ _ _ _ _ J Ga0 Gla). }
    destruct (c_room _ _ C a la0 La Ga0) as (P1 & P2). pose proof (Room _ _ Ga0) as Ra.
    assert (0 <= s_lc_update s') as Lc'. { rewrite Tl. destruct (nltb (s_lc_update s) (3 / 10)); cbn; lra. }
    assert (5 / 4 * L * dt <= 5 / 4 * L * dmax) as Wd by (apply Rmult_le_compat_l; lra).
    constructor; [exact J'|eauto|exact Lc'|]. intros b lb Lb Gb.
    destruct Q as [(Q1 & Q2 & Q3 & Q4 & Q5)|(Q1 & Q2 & c & Q3 & Q4)].
    - assert (b = a) by congruence. subst b. assert (lb = la0) by congruence. subst lb. apply ltb_R_false in Q1. rewrite Q3. split; [lra|].
      destruct P2 as [P2|P2]; [left; auto|]. rewrite Tl. destruct (nltb (s_lc_update s) (3 / 10)) eqn:D; [|left; apply Q5; reflexivity]. right. cbn [nadd RA]. lra.
    - rewrite Q2. assert (nsub p (lk_length la) <= 5 / 4 * L * dt) as Pb by (cbn; lra). pose proof (Room _ _ Gb) as Rb.
      assert (0 <= 5 / 4 * L * (3 / 10)) by nra. split; [lra|]. right.
      assert (dt <= s_lc_update s') as Tm by (rewrite Tl; destruct (nltb (s_lc_update s) (3 / 10)); cbn; lra).
      assert (5 / 4 * L * (3 / 10 + dmax - s_lc_update s') <= 5 / 4 * L * (3 / 10 + dmax - dt)) by (apply Rmult_le_compat_l; lra). lra.
  Qed.

  Lemma calm_gone e s dt s' v : calm s v -> step e s dt = Ok s' -> vehicle_at s' k = None -> 0 <= dt <= dmax -> v_link v = Some d.
  Proof.
    intros C H G' Hdt. pose proof (c_trip _ _ C) as J. pose proof (trip_Inv _ _ _ _ _ _ J) as I. destruct (c_hist _ _ C) as (ops & Hh & F).
    assert (reachable s) as Rc by (eapply history_reachable; [exact Hh|constructor]).
    assert (0 < max_acc v) as Ma by (apply (calm_speed s v dt (max_acc v) C Hdt); lra).
    destruct (gone_step _ _ _ _ _ _ Rc H (j_at _ _ _ _ _ _ J) G') as (s1 & v1 & lid & l0 & acc & H1 & G1 & R1 & Gl & Ha & Far); [lra|].
    destruct (vbase_link _ _ _ _ (st_veh _ _ _ (i_st _ I) _ _ (j_at _ _ _ _ _ _ J))) as (a & La & _).
    destruct (trip_choice k d N0 m Acyc Clo Snd) with (e := e) (s := s) (v := v) (s1 := s1) (v1 := v1) (a := a) as (L1 & P1 & _ & _ & _ & Rd1 & Rd2); auto.
    { apply ltb_R. change (0 < IZR 200). lra. }
    unfold v_link in L1. rewrite R1 in L1. injection L1 as ->. rewrite La. f_equal.
    destruct (same_net_get _ _ _ _ (j_net _ _ _ _ _ _ J) Gl) as (la0 & Ga0 & _). pose proof (net_len _ _ _ _ _ J Ga0 Gl) as El.
    destruct (c_room _ _ C a la0 La Ga0) as (_ & P2). destruct (calm_speed s v dt _ C Hdt Ha) as (_ & _ & S1). rewrite P1, El in Far.
    assert (ready v1) as Rd.
    { destruct P2 as [P2|P2]; [exact (Rd1 P2)|]. apply Rd2. change (@LANE_CHANGE_UPDATE_SEC RA) with (@lit RA 3 10). assert (@lit RA 3 10 = 3 / 10) as -> by (unfold lit; cbn; lra).
      apply ltb_R_false. destruct (Rle_dec (3 / 10) (s_lc_update s)) as [Z|Z]; [exact Z|]. exfalso. assert (5 / 4 * L * dt <= 5 / 4 * L * (3 / 10 + dmax - s_lc_update s)) by (apply Rmult_le_compat_l; lra). lra. }
    destruct Rd as [Ce|(x & y & r & Er)]; [|congruence].
    destruct (lane_changes_exact _ _ _ _ _ (i_st _ I) H1 G1) as (v0 & G0 & Ch). pose proof (j_at _ _ _ _ _ _ J) as Gv. unfold vehicle_at in Gv. assert (v0 = v) by congruence. subst v0.
    destruct (reachable_exits _ Rc _ _ Gv) as (X1 & X2). pose proof (j_dst _ _ _ _ _ _ J) as Dd.
    destruct Ch as [(_ & ->)|(_ & Ch)].
    - specialize (X2 Ce). rewrite R1 in X2. cbn [last] in X2. congruence.
    - destruct (chosen_exit _ _ _ _ X1 Ch) as (E1 & [(-> & _)|X]).
      + specialize (X2 Ce). rewrite R1 in X2. cbn [last] in X2. congruence.
      + apply X in Ce. rewrite R1 in Ce. cbn [last] in Ce. congruence.
  Qed.

  Lemma calm_history dts : forall s v s' v', calm s v -> history s (map (@OStep RA) dts) s' -> List.Forall (fun dt => 0 <= dt <= dmax) dts -> vehicle_at s' k = Some v' -> calm s' v'.
  Proof.
    induction dts as [|dt dts IH]; intros s v s' v' C Hh F G'; inversion Hh as [|e0 s0 o0 s1 ops0 s2 H1 H2]; subst.
    - pose proof (j_at _ _ _ _ _ _ (c_trip _ _ C)) as G. rewrite G in G'. injection G' as <-. exact C.
    - inversion F as [|? ? F1 F2]; subst. destruct (vehicle_at s1 k) as [v1|] eqn:G1.
      + exact (IH s1 v1 s' v' (calm_step _ _ _ _ _ _ C H1 G1 F1) H2 F2 G').
      + exfalso. rewrite (gone_stays s1 dts s' k H2) in G'; [discriminate G'| |exact G1]. exact (exec_Inv _ _ _ _ (trip_Inv _ _ _ _ _ _ (c_trip _ _ C)) H1).
  Qed.
End Where.

(** ** Sending the vehicle *)
Lemma clock_nonneg (lim : R) (dts : list R) : List.Forall (fun dt => 0 <= dt) dts -> forall t, 0 <= t -> 0 <= @clock RA lim t dts.
Proof.
  induction 1 as [|dt dts Hd _ IH]; intros t Ht; cbn [clock]; [exact Ht|]. apply IH. destruct (@nltb RA t lim); cbn; lra.
Qed.
Lemma lc_nonneg L d ops (s : @sim RA) : history (@sim_new RA) ops s -> List.Forall (one_limit L d) ops -> 0 <= s_lc_update s.
Proof.
  intros Hh F. destruct (history_timers _ _ Hh) as (_ & ->). apply clock_nonneg; [|change (0 <= 0); lra]. clear Hh. induction F as [|o ops Fo _ IH]; [constructor|].
  unfold time_steps in *. cbn [flat_map]. destruct o; try exact IH. constructor; [apply Fo|exact IH].
Qed.
(** What the call to set the destination leaves as it was. *)
Lemma dest_same {A : Arith} e (s : sim) k d s' v v' : exec e s (OSetDestination k d) = Ok s' -> vehicle_at s k = Some v -> vehicle_at s' k = Some v' ->
  v_lane_change v' = v_lane_change v /\ v_pos v' = v_pos v /\ v_can_exit v' = false /\ spec_of v' = spec_of v /\ speed_factor v' = speed_factor v /\
  s_lights s' = s_lights s /\ s_frozen s' = s_frozen s /\ s_acc_update s' = s_acc_update s /\ s_lc_update s' = s_lc_update s /\
  (forall y w, vehicle_at s' y = Some w -> exists w0, vehicle_at s y = Some w0).
Proof.
  intros H G G'. unfold vehicle_at in *. cbn [exec] in H. unfold set_vehicle_destination in H. bok H v0 Hv0. bok H v1 Hv1. injection H as <-.
  unfold get_vehicle in Hv0. rewrite G in Hv0. injection Hv0 as <-. cbn [s_vehicles with_vehicles] in G'. rewrite sm_get_set, key_eqb_refl in G'.
  replace (sm_mem (s_vehicles s) k) with true in G' by (symmetry; apply sm_mem_get; eauto). injection G' as <-.
  unfold set_destination in Hv1. bok Hv1 pfb Hpb. injection Hv1 as <-. repeat (split; [reflexivity|]).
  intros y w Gw. cbn [s_vehicles with_vehicles] in Gw. rewrite sm_get_set in Gw. destruct (key_eqb_spec k y) as [->|]; eauto.
Qed.

Lemma sent_trip ops (s0 : @sim RA) k v a d e s1 : history (@sim_new RA) ops s0 -> groups_apart ops ->
  vehicle_at s0 k = Some v -> v_route v = [a] -> a <> d -> v_lane_change v = None -> leads (s_links s0) a d -> exec e s0 (OSetDestination k d) = Ok s1 ->
  alone s0 k -> get_vehicle_frozen s0 k = false -> single_lanes s0 ->
  exists v1 m, vehicle_at s1 k = Some v1 /\ closed (s_links s0) d m /\ (forall a, inM m a -> leads (s_links s0) a d) /\ trip k d (s_links s0) m s1 v1 /\
    v_link v1 = Some a /\ v_pos v1 = v_pos v /\ spec_of v1 = spec_of v /\ speed_factor v1 = speed_factor v /\ s_acc_update s1 = s_acc_update s0 /\ s_lc_update s1 = s_lc_update s0.
Proof.
  intros Hist Ap G R0 Nad Lc Ld H Al Fz Op.
  pose proof (history_Inv _ _ _ Hist Inv_new) as I0. assert (v_link v = Some a) as L0 by (unfold v_link; rewrite R0; reflexivity). destruct (link_src _ _ _ _ I0 G L0) as (Sa & _).
  destruct (dest_there _ _ _ _ _ H) as (v0' & v1 & _ & G1).
  destruct (dest_bound _ _ _ _ _ _ _ _ Hist Ap RA_cast H G G1) as (El & Er & Es & Ed & Fo & Pl & So & _).
  destruct (dest_same _ _ _ _ _ _ _ H G G1) as (E1 & E2 & E3 & E4 & E5 & E6 & E7 & E8 & E9 & E10).
  assert (closed (s_links s0) d (pf_matrix (v_pathfind v1))) as Clo. { eapply (dest_closed ops e s0 k d s1 v v1); eauto; [exact RA_cast| |rewrite Sa; exact Ld]. intros x l Gx. apply (Op _ _ Gx). }
  rewrite Sa in So. specialize (So Ld). unfold sound in So. rewrite Ed in So.
  exists v1, (pf_matrix (v_pathfind v1)). split; [exact G1|]. split; [exact Clo|]. split; [exact So|].
  split; [|split; [unfold v_link in *; rewrite Er; exact L0|auto 10]].
  constructor.
  - exists (ops ++ [OSetDestination k d]). split; [eapply history_app; [exact Hist|econstructor; [exact H|constructor]]|]. unfold groups_apart in *. rewrite flat_map_app. cbn [flat_map]. rewrite !app_nil_r. exact Ap.
  - rewrite El. apply same_net_refl.
  - unfold single_lanes, link_at in *. rewrite El. exact Op.
  - unfold get_vehicle_frozen in *. rewrite E7. exact Fz.
  - exact G1.
  - congruence.
  - exact Ed.
  - rewrite El. exact Pl.
  - split; auto. split; [|intros p y Hp Hy; eapply planned_in; eauto]. intros y Hy. rewrite Er, R0 in Hy. destruct Hy as [<-|[]]. unfold RouteEvo.found in Fo. rewrite Es, Ed, Sa in Fo. auto.
  - rewrite Er, R0. cbn [last]. intros E. congruence.
Qed.
Lemma sent ops (s0 : @sim RA) k v a d e s1 dmax limit : history (@sim_new RA) ops s0 -> groups_apart ops ->
  vehicle_at s0 k = Some v -> v_route v = [a] -> a <> d -> v_lane_change v = None -> leads (s_links s0) a d -> exec e s0 (OSetDestination k d) = Ok s1 ->
  alone s0 k -> get_vehicle_frozen s0 k = false -> single_lanes s0 -> no_way_back (s_links s0) ->
  at_least s0 (v_half_len v + 3) limit -> 0 < limit -> 0 <= v_half_len v -> 0 < max_acc v -> 0 < comf_dec v -> 0 < speed_factor v -> 0 <= dmax ->
  exists m vs M P0 v1, closed (s_links s0) d m /\ (forall a, inM m a -> leads (s_links s0) a d) /\ slow v limit vs /\ P0 <= 0 /\ 3 / 10 + dmax <= M /\
    vehicle_at s1 k = Some v1 /\ v_link v1 = Some a /\ going k d (s_links s0) m v M P0 s1 v1.
Proof.
  intros Hist Ap G R0 Nad Lc Ld H Al Fz Op Ac Rm Li Hl Ma Cd Sf Dm.
  destruct (sent_trip ops s0 k v a d e s1 Hist Ap G R0 Nad Lc Ld H Al Fz Op) as (v1 & m & G1 & Clo & So & J & L1 & E2 & E4 & E5 & E8 & E9).
  destruct (slow_exists v limit Ma Cd) as (vs & Sl). { apply Rmult_lt_0_compat; auto. }
  exists m, vs, (Rmax (3 / 10 + dmax) (Rmax (Rabs (s_acc_update s0)) (Rabs (s_lc_update s0)))), (Rmin 0 (v_pos v)), v1.
  split; [exact Clo|]. split; [exact So|]. split; [exact Sl|]. split; [apply Rmin_l|]. split; [apply Rmax_l|]. split; [exact G1|].
  split; [exact L1|].
  pose proof (Rmax_r (3 / 10 + dmax) (Rmax (Rabs (s_acc_update s0)) (Rabs (s_lc_update s0)))) as M0.
  pose proof (Rmax_l (Rabs (s_acc_update s0)) (Rabs (s_lc_update s0))) as M1. pose proof (Rmax_r (Rabs (s_acc_update s0)) (Rabs (s_lc_update s0))) as M2.
  pose proof (Rle_abs (s_acc_update s0)) as A1. pose proof (Rle_abs (- s_acc_update s0)) as A2. rewrite Rabs_Ropp in A2.
  pose proof (Rle_abs (s_lc_update s0)) as A3. pose proof (Rle_abs (- s_lc_update s0)) as A4. rewrite Rabs_Ropp in A4.
  constructor.
  - exact J.
  - exact E4.
  - exact E5.
  - rewrite E8. lra.
  - rewrite E9. lra.
  - rewrite E2. apply Rmin_r.
Qed.

