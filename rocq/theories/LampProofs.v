(** * How long a vehicle waits at a traffic light (exact arithmetic) *)
From Coq Require Import List Bool ZArith NArith Arith Lia Reals Lra Relation_Operators Operators_Properties.
From Verif Require Import Arith RealArith Base BaseProofs SlotMap Util Geom Light Accel Net Path Vehicle LinkOps Sim SpecLight LightProofs SpecSim SlotMapProofs Safe NetInv SimInv AccSafe SimSafe StepSafe OpSafe Evo StepEvo SimProofs StepProofs Ord LogProofs SpecMotion Motion RFacts P_Motion SpecRoute PlanProofs RouteProofs RouteEvo P_Route P_Exit NetEvo P_Lane SpecEnter EnterProofs P_Enter SpecAhead P_Ahead SpecConf ConfProofs P_Conf SpecSide SpecReason P_Reason P_Alone QueueProofs ArriveKin SpecArrive ArriveProofs LightTime SpecLamp.
Import ListNotations.
Local Open Scope R_scope.

Section Lights.
  Context {A : Arith}.
  Lemma update_lights_forward s dt s' kl l : update_lights s dt = Ok s' -> sm_get (s_lights s) kl = Some l -> exists l', sm_get (s_lights s') kl = Some l' /\ light_step l dt = Ok l'.
  Proof.
    intros H G. unfold update_lights in H. bok H x Hx. destruct x as [links lights]. injection H as <-. cbn [s_lights fst snd].
    destruct (sm_mapS_pointwise _ (fun _ => True) _ _ _ _ (fun _ _ _ _ _ _ _ _ => Logic.I) Logic.I Hx) as (_ & Q & _). destruct (Q _ _ G) as (s1 & s2 & l' & _ & _ & Hf & G'). exists l'. split; [exact G'|].
    bok Hf v1 Hs. bok Hf sts Hg. bok Hf ls2 Hu. injection Hf as _ <-. exact Hs.
  Qed.
  Lemma lights_forward e s dt s' kl l : Inv s -> step e s dt = Ok s' -> sm_get (s_lights s) kl = Some l -> exists l', sm_get (s_lights s') kl = Some l' /\ light_step l dt = Ok l'.
  Proof.
    intros I H G. destruct (step_phases _ _ _ _ I H) as (s1 & s2 & s3 & s4 & s5 & P). destruct (ph6 _ _ _ _ _ _ _ _ _ P) as (s6 & H6 & ->). cbn [s_lights].
    destruct (coords_evo _ _ H6) as (_ & _ & _ & E6). destruct (advance_vehicles_evo _ _ _ (ph5 _ _ _ _ _ _ _ _ _ P)) as (_ & _ & _ & E5).
    destruct (integrate_evo _ _ _ (ph4 _ _ _ _ _ _ _ _ _ P)) as (_ & _ & E4). rewrite E6, E5, E4. cbn [s_lights with_vehicles].
    destruct (acc_fields _ _ _ (ph2 _ _ _ _ _ _ _ _ _ P)) as (_ & F2 & _). destruct (lc_fields _ _ _ (ph1 _ _ _ _ _ _ _ _ _ P)) as (_ & F1 & _).
    apply (update_lights_forward _ _ _ _ _ (ph3 _ _ _ _ _ _ _ _ _ P)). congruence.
  Qed.
  Lemma light_same (l : light) dt l' : light_step l dt = Ok l' -> l_phases l' = l_phases l /\ length (l_movements l') = length (l_movements l) /\ l_mlinks l' = l_mlinks l.
  Proof.
    intros H. apply light_step_ok in H. destruct H as (p0 & p & _ & _ & _ & _ & E1 & E2 & E3). split; [exact E1|]. split; [|exact E2]. rewrite E3. unfold step_movements. rewrite map_length, enumerate_length, map_length, enumerate_length. reflexivity.
  Qed.
End Lights.

Section Lamps.
  Variables (d Ka Kr Kd K0 : R).
  Hypothesis D0 : 0 <= d.
  Hypothesis Ka0 : 0 <= Ka.
  Hypothesis Kr0 : 0 <= Kr.
  Hypothesis Kd0 : 0 <= Kd.
  Hypothesis K00 : 0 <= K0.
  Variable Nph : nat.
  (** The links that a light controls. *)
  Variable Lamp : key -> Prop.
  (** The links that matter. *)
  Variable Rel : key -> Prop.
  Let timed := timed d Ka Kr Kd K0.
  Let K5 := K5 d Ka Kr Kd K0.
  Lemma K5_nonneg : 0 <= K5.
  Proof. unfold K5, LightTime.K5, K3, K2, K1. lra. Qed.

  (** Movement [i] of light [kl], alone, controls the link, and is let go for at least a tenth of a second in phase [q]. *)
  Record fair (s : @sim RA) (x kl : key) (i : nat) (lt : @light RA) (q : nat) (p : @Light.phase RA) : Prop := {
    fr_light : sm_get (s_lights s) kl = Some lt;
    fr_ctl : In (i, x) (l_mlinks lt);
    fr_only : only_controller (s_lights s) kl i x;
    fr_move : (i < length (l_movements lt))%nat;
    fr_phase : nth_error (l_phases lt) q = Some p;
    fr_bit : bit (p_mask p) i = true;
    fr_dur : 1 / 10 <= p_duration p }.
  Definition uncontrolled (s : @sim RA) (x : key) : Prop := forall kl lt i, sm_get (s_lights s) kl = Some lt -> ~ In (i, x) (l_mlinks lt).
  (** Open, or a sign at which one may wait more than three metres before the line. *)
  Definition no_signal (c : @control RA) : Prop := c = COpen \/ exists dist must prio, c = CYield dist must prio /\ 3 < dist.
  Definition passable (s : @sim RA) : Prop := forall x l, Rel x -> link_at s x = Some l ->
    no_signal (lk_control l) /\ uncontrolled s x \/ Lamp x /\ exists kl i lt q p, fair s x kl i lt q p.
  Definition lamps (s : @sim RA) : Prop := forall kl lt, sm_get (s_lights s) kl = Some lt ->
    (exists t, timed lt t) /\ (l_phases lt <> [] -> l_phase lt < length (l_phases lt))%nat /\ (length (l_phases lt) <= Nph)%nat.

  Lemma uncontrolled_step (e : @env RA) (s : @sim RA) (dt : R) s' x : Inv s -> step e s dt = Ok s' -> uncontrolled s x -> uncontrolled s' x.
  Proof. intros I H U kl lt' i G. destruct (step_lights _ _ _ _ _ _ I H G) as (lt & G0 & Hl). destruct (light_same _ _ _ Hl) as (_ & _ & ->). exact (U kl lt i G0). Qed.
  Lemma fair_step (e : @env RA) (s : @sim RA) (dt : R) s' x kl i lt q p lt' : Inv s -> step e s dt = Ok s' -> fair s x kl i lt q p -> sm_get (s_lights s') kl = Some lt' -> light_step lt dt = Ok lt' -> fair s' x kl i lt' q p.
  Proof.
    intros I H [F1 F2 F3 F4 F5 F6 F7] G Hl. destruct (light_same _ _ _ Hl) as (E1 & E2 & E3). constructor; auto; [congruence| |lia|congruence].
    intros k2 l2 i2 G2 Hi. destruct (step_lights _ _ _ _ _ _ I H G2) as (l0 & G0 & Hl0). destruct (light_same _ _ _ Hl0) as (_ & _ & Q). rewrite Q in Hi. exact (F3 k2 l0 i2 G0 Hi).
  Qed.
  Lemma passable_step (e : @env RA) (s : @sim RA) (dt : R) s' : Inv s -> step e s dt = Ok s' -> passable s -> passable s'.
  Proof.
    intros I H P x l' Rx G. assert (same_net (s_links s) (s_links s')) as Sn by (eapply step_same_net; eauto). unfold link_at in G. destruct (same_net_get _ _ _ _ Sn G) as (l & G0 & _).
    destruct (P x l Rx G0) as [(C & U)|(Lm & kl & i & lt & q & p & F)].
    - left. split; [|eapply uncontrolled_step; eauto]. pose proof (step_others e s dt s' x I H U) as E. unfold ctl in E. rewrite G, G0 in E. cbn in E. injection E as E. rewrite E. exact C.
    - right. split; [exact Lm|]. destruct (lights_forward _ _ _ _ _ _ I H (fr_light _ _ _ _ _ _ _ F)) as (lt' & G' & Hl). exists kl, i, lt', q, p. eapply fair_step; eauto.
  Qed.
  Lemma lamps_step (e : @env RA) (s : @sim RA) (dt : R) s' : Inv s -> 0 <= dt <= d -> step e s dt = Ok s' -> lamps s -> lamps s'.
  Proof.
    intros I Hdt H La kl lt' G. destruct (step_lights _ _ _ _ _ _ I H G) as (lt & G0 & Hl). destruct (La kl lt G0) as ((t & T) & Ph & Nn). destruct (light_same _ _ _ Hl) as (E1 & _ & _).
    pose proof (proj1 (light_step_ok _ _ _) Hl) as (p0 & p & Ep0 & _ & _ & Ep & _).
    destruct (timed_step d Ka Kr Kd K0 D0 Ka0 Kr0 Kd0 K00 lt dt lt' t p0 T Hdt Hl Ep0) as (_ & Q). split; [destruct Q as [(_ & _ & Q)|(_ & _ & Q)]; eexists; exact Q|].
    rewrite E1. split; [intros _; apply nth_error_Some; congruence|exact Nn].
  Qed.

  (** ** Waiting *)
  Variables (k z : key) (N0 : @linkset RA) (m : matrix) (w : @vehicle RA) (M P0 : R).
  Hypothesis Acyc : no_way_back N0.
  Hypothesis Clo : closed N0 z m.
  Hypothesis Snd : forall a, inM m a -> leads N0 a z.
  Hypothesis Mb : 3 / 10 + d <= M.
  Hypothesis P0n : P0 <= 0.
  Hypothesis Pos : forall x l, sm_get N0 x = Some l -> 0 < lk_length l.
  Hypothesis Mrel : forall b, inM m b -> Rel b.
  (** A light leaves no choice. *)
  Hypothesis Uniq : forall a b c, succ_of N0 a b -> succ_of N0 a c -> inM m b -> inM m c -> Lamp b -> c = b.
  Let going := going k z N0 m w M P0.

  Lemma next_link (e : @env RA) (s : @sim RA) (dt : R) s' v a s1 v1 y : going s v -> v_link v = Some a -> step e s dt = Ok s' -> calculate_lane_changes e s = Ok s1 -> vehicle_at s1 k = Some v1 -> nth_error (v_route v1) 1 = Some y ->
    succ_of N0 a y /\ inM m y.
  Proof.
    intros Gg L H H1 G1 Ny. pose proof (g_trip _ _ _ _ _ _ _ _ _ Gg) as J. pose proof (trip_Inv _ _ _ _ _ _ J) as I.
    destruct (trip_choice k z N0 m Acyc Clo Snd) with (e := e) (s := s) (v := v) (s1 := s1) (v1 := v1) (a := a) as (L1 & _ & _ & M1 & _); auto.
    { apply ltb_R. change (0 < IZR 200). lra. }
    destruct (step_phases _ _ _ _ I H) as (t1 & s2 & s3 & s4 & s5 & P). assert (t1 = s1) by (pose proof (ph1 _ _ _ _ _ _ _ _ _ P); congruence). subst t1.
    pose proof (vb_chain _ _ _ _ (st_veh _ _ _ (ps1 _ _ _ _ _ _ _ _ _ P) _ _ G1)) as Ch. unfold v_link in L1. destruct (v_route v1) as [|x [|y' r]]; try discriminate. injection L1 as ->. cbn in Ny. injection Ny as ->.
    split; [|apply M1; right; left; reflexivity]. cbn [chain] in Ch. destruct Ch as (_ & Q & _). eapply same_succ; [eapply same_net_trans; [apply J|exact (pn1 _ _ _ _ _ _ _ _ _ P)]|exact Q].
  Qed.

  Definition len_of (a : key) : R := match sm_get N0 a with Some la => lk_length la | None => 0 end.
  Lemma len_nonneg a : 0 <= len_of a.
  Proof. unfold len_of. destruct (sm_get N0 a) as [la|] eqn:E; [apply Pos in E|]; lra. Qed.
  (** How far it is with a sign: it does not know yet, moves on without having stopped, or waits. *)
  Definition stage (a : key) (U : R) (s : @sim RA) (v : @vehicle RA) : Prop :=
    U <= s_acc_update s + M \/
    0 <= s_acc_update s /\
      ((exists p0, P0 <= p0 <= len_of a /\ U <= 2 * M + 10 * (p0 - P0) + s_acc_update s /\ p0 + Rmin (v_vel v) (1 / 10) * s_acc_update s <= v_pos v /\ (0 <= acceleration v -> 1 / 10 <= v_vel v)) \/
       v_queued v <> None /\ U <= 3 * M + 10 * (len_of a - P0) + s_acc_update s).
  Definition Wait (a : key) (U : R) (s : @sim RA) : Prop := s_acc_update s <= M /\
    ((forall v, vehicle_at s k = Some v -> stage a U s v) /\ (exists v, vehicle_at s k = Some v) /\ (forall b l, succ_of N0 a b -> inM m b -> link_at s b = Some l -> no_signal (lk_control l) /\ uncontrolled s b) \/
     exists b kl i lt q p t, succ_of N0 a b /\ inM m b /\ Lamp b /\ fair s b kl i lt q p /\ timed lt t /\ (l_phase lt < length (l_phases lt))%nat /\ (length (l_phases lt) <= Nph)%nat /\
       U <= 2 * M + INR (since_phase (length (l_phases lt)) q (l_phase lt)) * K5 + t /\
       (U <= 0 \/ ctl (s_links s) b = Some (shown lt i)) /\
       (U <= s_acc_update s + M \/ 0 <= s_acc_update s /\ forall mv, nth_error (l_movements lt) i = Some mv -> m_state mv = Green -> m_since mv <= s_acc_update s)).
  Definition Wb (a : key) : R := 4 * M + INR Nph * K5 + 10 * (len_of a - P0).
  Lemma Wb_nonneg a : 0 <= Wb a.
  Proof. unfold Wb. pose proof (len_nonneg a). pose proof K5_nonneg. pose proof (pos_INR Nph). assert (0 <= INR Nph * K5) by (apply Rmult_le_pos; assumption). lra. Qed.
  Lemma Wait_end a U (s : @sim RA) : Wait a U s -> U <= Wb a.
  Proof.
    pose proof (len_nonneg a) as Ln. intros (Tm & [(Q & (v & Gv) & _)|(b & kl & i & lt & q & p & t & _ & _ & _ & F & T & Ph & Nn & Ub & _)]); unfold Wb; pose proof K5_nonneg as K50; pose proof (pos_INR Nph) as N0'.
    - assert (0 <= INR Nph * K5) by (apply Rmult_le_pos; assumption). destruct (Q v Gv) as [Q1|(_ & [(p0 & Q1 & Q2 & _)|(_ & Q1)])]; lra.
    - assert (q < length (l_phases lt))%nat as Hq by (apply nth_error_Some; rewrite (fr_phase _ _ _ _ _ _ _ F); discriminate). pose proof (since_less _ _ _ Ph Hq) as Q. assert (S (since_phase (length (l_phases lt)) q (l_phase lt)) <= Nph)%nat as Q2 by lia. apply le_INR in Q2. rewrite S_INR in Q2.
      destruct (td_low _ _ _ _ _ _ _ T) as (_ & T5). fold K5 in T5. assert ((INR (since_phase (length (l_phases lt)) q (l_phase lt)) + 1) * K5 <= INR Nph * K5) by (apply Rmult_le_compat_r; assumption). lra.
  Qed.
  Lemma Wait_start (s : @sim RA) v a : passable s -> lamps s -> going s v -> v_link v = Some a -> Wait a 0 s.
  Proof.
    intros Pa La Gg L. pose proof (g_trip _ _ _ _ _ _ _ _ _ Gg) as J. pose proof (trip_Inv _ _ _ _ _ _ J) as I. destruct (g_acc_t _ _ _ _ _ _ _ _ _ Gg) as (A1 & A2). split; [exact A2|].
    assert (forall r, (forall b l, In b r -> inM m b -> link_at s b = Some l -> no_signal (lk_control l) /\ uncontrolled s b) \/ exists b, In b r /\ inM m b /\ Lamp b /\ exists kl i lt q p, fair s b kl i lt q p) as X.
    { induction r as [|b r [IH|(b' & I1 & I2)]]; [left; intros b l []| |right; exists b'; split; [right; exact I1|exact I2]].
      destruct (mx_get m b) as [dd|] eqn:Mx.
      - destruct (link_at s b) as [lb|] eqn:Gb.
        + destruct (Pa b lb (Mrel b ltac:(unfold inM; congruence)) Gb) as [Q|Q]; [left|right; exists b; split; [left; reflexivity|split; [unfold inM; congruence|exact Q]]]. intros c l [<-|Hc] Mc Gc; [assert (l = lb) by congruence; subst l; exact Q|exact (IH c l Hc Mc Gc)].
        + left. intros c l [<-|Hc] Mc Gc; [congruence|exact (IH c l Hc Mc Gc)].
      - left. intros c l [<-|Hc] Mc Gc; [exfalso; exact (Mc Mx)|exact (IH c l Hc Mc Gc)]. }
    destruct (sm_get N0 a) as [la|] eqn:Ga.
    2:{ left. split; [intros; left; lra|]. split; [exists v; apply J|]. intros b l (la & Q & _). congruence. }
    destruct (X (lk_out la)) as [Q|(b & Ib & Mb' & Lb & kl & i & lt & q & p & F)].
    - left. split; [intros; left; lra|]. split; [exists v; apply J|]. intros b l (la' & Ga' & Hb). assert (la' = la) by congruence. subst la'. exact (Q b l Hb).
    - right. destruct (La kl lt (fr_light _ _ _ _ _ _ _ F)) as ((t & T) & Ph & Nn). exists b, kl, i, lt, q, p, t. split; [exists la; auto|]. split; [exact Mb'|]. split; [exact Lb|]. split; [exact F|]. split; [exact T|].
      split. { apply Ph. intros Q. pose proof (fr_phase _ _ _ _ _ _ _ F) as E. rewrite Q in E. destruct q; discriminate E. }
      split; [exact Nn|]. split; [|split; [left; lra|left; lra]].
      pose proof K5_nonneg. destruct (td_low _ _ _ _ _ _ _ T) as (T1 & _). pose proof (pos_INR (since_phase (length (l_phases lt)) q (l_phase lt))). assert (0 <= INR (since_phase (length (l_phases lt)) q (l_phase lt)) * K5) by (apply Rmult_le_pos; assumption). lra.
  Qed.
  Lemma stage_step (e : @env RA) (s : @sim RA) (dt : R) s' v v' a U : no_one_ahead k e s -> going s v -> v_link v = Some a -> 0 <= dt <= d -> step e s dt = Ok s' -> vehicle_at s' k = Some v' -> v_link v' = Some a ->
    (s_acc_update s < 1 / 10 /\ s_acc_update s' = s_acc_update s + dt \/ 1 / 10 <= s_acc_update s /\ s_acc_update s' = dt) ->
    (forall b l, succ_of N0 a b -> inM m b -> link_at s b = Some l -> no_signal (lk_control l) /\ uncontrolled s b) ->
    s_acc_update s < 1 / 10 \/ (exists s1 v1, calculate_lane_changes e s = Ok s1 /\ vehicle_at s1 k = Some v1 /\ held s1 v1) -> stage a U s v -> stage a (U + dt) s' v'.
  Proof.
    intros Free Gg L Hdt H G2 L2 Tc Op Hno St. pose proof (g_trip _ _ _ _ _ _ _ _ _ Gg) as J. pose proof (trip_Inv _ _ _ _ _ _ J) as I. destruct (g_acc_t _ _ _ _ _ _ _ _ _ Gg) as (A1 & A2). pose proof (g_pos _ _ _ _ _ _ _ _ _ Gg) as Pv.
    destruct (trip_step k z N0 m Acyc Clo Snd RA_cast) with (e := e) (s := s) (dt := dt) (s' := s') (v := v) (v' := v') (a := a) as (J' & _ & _ & Vl & la & p & Gla & Ep & Q); auto.
    { apply ltb_R. change (0 < IZR 200). lra. }
    destruct Q as [(Q1 & _ & Q3 & _)|(_ & _ & b & Q3 & Q4)]; [|exfalso; assert (b = a) by congruence; subst b; apply (Acyc a); apply t_step; exact Q4].
    apply ltb_R_false in Q1. pose proof (going_vel _ _ _ _ _ _ _ _ _ Gg) as V0. change (@n0 RA) with 0 in *. rewrite max_R in Vl. change (v_vel v' = Rmax (v_vel v + dt * acceleration v') 0) in Vl.
    assert (p = v_pos v + / 2 * (v_vel v + v_vel v') * dt) as Ep' by (rewrite Ep; unfold nhalf; cbn; lra). clear Ep. rewrite <- Q3 in Ep', Q1. clear Q3 p.
    assert (0 <= v_vel v') as V1 by (rewrite Vl; apply Rmax_r). assert (v_pos v <= v_pos v') as Pm. { rewrite Ep'. assert (0 <= (v_vel v + v_vel v') * dt) by (apply Rmult_le_pos; lra). lra. }
    assert (len_of a = lk_length la) as El. { unfold len_of. destruct (same_net_get _ _ _ _ (j_net _ _ _ _ _ _ J) Gla) as (l0 & G0 & E). rewrite G0. unfold lk_static in E. injection E as F1 F2 F3 F4 F5 F6 F7 F8 F9. unfold lk_length. congruence. }
    assert (forall p0 tau, 0 <= tau -> p0 + Rmin (v_vel v) (1 / 10) * tau <= v_pos v -> (0 <= acceleration v' -> 1 / 10 <= v_vel v) -> p0 + Rmin (v_vel v') (1 / 10) * (tau + dt) <= v_pos v' /\ (0 <= acceleration v' -> 1 / 10 <= v_vel v')) as Mv.
    { intros p0 tau T0 Pp Ac. destruct (Rle_or_lt 0 (acceleration v')) as [Q|Q].
      - specialize (Ac Q). assert (0 <= dt * acceleration v') as X by (apply Rmult_le_pos; lra). assert (v_vel v <= v_vel v') as X2 by (rewrite Vl; eapply Rle_trans; [|apply Rmax_l]; lra). rewrite (Rmin_right (v_vel v)) in Pp by lra. rewrite (Rmin_right (v_vel v')) by lra.
        split; [|lra]. rewrite Ep'. assert (1 / 10 * dt <= / 2 * (v_vel v + v_vel v') * dt) by (apply Rmult_le_compat_r; lra). lra.
      - split; [|lra]. assert (v_vel v' <= v_vel v) as X. { rewrite Vl. apply Rmax_lub; [|exact V0]. assert (0 <= dt * - acceleration v') by (apply Rmult_le_pos; lra). lra. }
        assert (Rmin (v_vel v') (1 / 10) * tau <= Rmin (v_vel v) (1 / 10) * tau) by (apply Rmult_le_compat_r; [exact T0|]; apply Rle_min_compat_r; exact X).
        assert (Rmin (v_vel v') (1 / 10) * dt <= / 2 * (v_vel v + v_vel v') * dt) by (apply Rmult_le_compat_r; [lra|]; pose proof (Rmin_l (v_vel v') (1 / 10)); lra). rewrite Ep'. lra. }
    assert (forall U0, U0 <= s_acc_update s + M -> U0 <= 2 * M) as Ul by (intros; lra).
    destruct Tc as [(T1 & T2)|(T1 & T2)].
    - (* the accelerations are kept *)
      assert (acceleration v' = acceleration v) as Ka'.
      { unfold acceleration. f_equal. apply (step_no_refresh e s dt s' k v v' I H (j_at _ _ _ _ _ _ J) G2). apply ltb_R. change (s_acc_update s < @lit RA 1 10). unfold lit. cbn. lra. }
      destruct St as [St|(S0 & [(p0 & S1 & S2 & S3 & S4)|(S1 & S2)])]; [left; lra|right; split; [lra|left]|right; split; [lra|right]].
      + exists p0. split; [exact S1|]. split; [lra|]. rewrite T2. apply Mv; [exact S0|exact S3|rewrite Ka'; exact S4].
      + split; [|lra]. destruct (step_enter _ _ _ _ _ _ I H G2) as (t1 & s2 & v0 & v1 & v4 & f & G & H1' & G1 & St1 & Sn & X1 & Re & E4 & C4 & C5 & X5 & F). assert (v0 = v) by (pose proof (j_at _ _ _ _ _ _ J); congruence). subst v0.
        assert (f = 0%nat) as ->. { destruct F as [(_ & F)|(F & _)]; [exact F|]. exfalso. apply ltb_R_false in F. change (@lit RA 1 10 <= s_acc_update s) in F. unfold lit in F. cbn in F. lra. }
        destruct C4 as [(_ & _ & C)|[(C & _)|(C & _)]]; try discriminate C. congruence.
    - (* they are computed, and the vehicle is held *)
      destruct Hno as [Q|(s1 & v1 & H1 & G1 & Hd)]; [lra|].
      destruct (step_enter _ _ _ _ _ _ I H G2) as (t1 & s2 & v0 & v1' & v4 & f & G & H1' & G1' & St1 & Sn & X1 & Re & E4 & C4 & C5 & X5 & F). assert (t1 = s1) by congruence. subst t1. assert (v1' = v1) by congruence. subst v1'. assert (v0 = v) by (pose proof (j_at _ _ _ _ _ _ J); congruence). subst v0. clear F C4 C5 E4 Re X5 s2 v4 f G1' H1' G.
      destruct (trip_choice k z N0 m Acyc Clo Snd) with (e := e) (s := s) (v := v) (s1 := s1) (v1 := v1) (a := a) as (L1 & P1 & _); auto.
      { apply ltb_R. change (0 < IZR 200). lra. }
      destruct Hd as (a' & la1 & y & ly & La' & Ga' & Ny & Gy & E1 & Hc). assert (a' = a) by congruence. subst a'. clear La'.
      destruct (next_link _ _ _ _ _ _ _ _ _ Gg L H H1 G1 Ny) as (Sy & My). pose proof (lane_changes_ctl e s s1 y H1) as E. unfold ctl, link_at in E. unfold link_at in Gy. rewrite Gy in E. destruct (sm_get (s_links s) y) as [l0|] eqn:G0; [|discriminate E]. cbn in E. injection E as E.
      destruct (Op y l0 Sy My G0) as (Ns & _). rewrite <- E in Ns. destruct Hc as [Hc|(dist & must & prio & Hc & Qn & Gap & Ne)]; [destruct Ns as [Ns|(? & ? & ? & Ns & _)]; congruence|].
      destruct Ns as [Ns|(dist' & must' & prio' & Ns & D3)]; [congruence|]. rewrite Hc in Ns. injection Ns as <- <- <-.
      destruct (step_motion _ _ _ _ _ _ I H G2) as (v0 & t1 & t2 & w1 & w2 & Gw & Ht1 & _ & Gw1 & _ & Bd & _). assert (v0 = v) by (pose proof (j_at _ _ _ _ _ _ J) as Gv; unfold vehicle_at in Gv; congruence). subst v0. assert (t1 = s1) by congruence. subst t1. assert (w1 = v1) by (unfold vehicle_at in G1; congruence). subst w1.
      apply body_spec in Bd. destruct Bd as (_ & _ & Bv & _).
      destruct (Free s1 v1 H1 G1) as ((Na & _) & _).
      assert (must = true /\ 1 / 10 <= v_vel v \/ (must = true -> v_vel v < 1 / 10)) as [(_ & Q)|Q].
      { destruct must; [|right; discriminate]. destruct (Rle_or_lt (1 / 10) (v_vel v)) as [Q|Q]; [left; auto|right; auto]. }
      + (* it has not stopped *)
        assert (U <= 2 * M + 10 * (v_pos v - P0)) as Ub.
        { destruct St as [St|(S0 & [(p0 & S1 & S2 & S3 & S4)|(S1 & S2)])]; [specialize (Ul _ St); lra| |congruence]. rewrite Rmin_right in S3 by lra. lra. }
        right. rewrite T2. split; [lra|]. left. exists (v_pos v). split; [rewrite El; lra|]. split; [lra|]. replace dt with (0 + dt) by lra. apply Mv; [lra|lra|auto].
      + (* it waits *)
        assert (U <= 3 * M + 10 * (len_of a - P0)) as Ub.
        { destruct St as [St|(S0 & [(p0 & S1 & S2 & S3 & S4)|(S1 & S2)])]; [specialize (Ul _ St); rewrite El; lra| |congruence]. rewrite El in *. lra. }
        right. rewrite T2. split; [lra|]. right. split; [|lra].
        destruct (j_hist _ _ _ _ _ _ J) as (ops & Hh & _). pose proof (history_timers _ _ Hh) as (Tmr & _).
        destruct (C23_lines_up RA e ops s dt s1 s' a la1 k v1 v' y ly) as (since & Qs); [exact Hh| |exact H| |exact H1|exact Ga'| |exact G2| |exact Gy| |congruence].
        * apply C23_lengths_exact. intros x l Gx. destruct (same_net_get _ _ _ _ (j_net _ _ _ _ _ _ J) Gx) as (l1 & G3 & E3). apply Pos in G3. assert (lk_length l = lk_length l1) as -> by (unfold lk_static in E3; injection E3 as F1 F2 F3 F4 F5 F6 F7 F8 F9; unfold lk_length; congruence). exact G3.
        * unfold due. rewrite <- Tmr. apply negb_true_iff, ltb_R_false. change (@lit RA 1 10 <= s_acc_update s). unfold lit. cbn. lra.
        * assert (In k (lk_vehicles la1)) as Ik. { destruct (st_occ _ _ _ St1 _ _ Ga') as (_ & Oc). apply Oc. unfold at_of. unfold vehicle_at in G1. rewrite G1. exact L1. }
          apply in_split in Ik. destruct Ik as (pre & post & Ep). destruct post as [|k2 post]; [|exfalso; exact (Na _ _ _ _ _ Ga' Ep)].
          exists pre, []. split; [exact Ep|]. split; [intros kw []|]. auto.
        * unfold SpecEnter.next_link. rewrite E1. exact Ny.
        * split; [exact Qn|]. exists dist, must, prio. split; [exact Hc|]. split.
          { apply ltb_R. unR. lra. }
          { intros Qm. apply ltb_R. rewrite Bv. specialize (Q Qm). change (v_vel v < @lit RA 1 10). unfold lit. cbn. lra. }
  Qed.

  Lemma Wait_step (e : @env RA) (s : @sim RA) (dt : R) s' v v' a U : no_one_ahead k e s -> going s v -> v_link v = Some a -> 0 <= dt <= d -> step e s dt = Ok s' -> vehicle_at s' k = Some v' -> v_link v' = Some a -> Wait a U s ->
    s_acc_update s < 1 / 10 \/ (exists s1 v1, calculate_lane_changes e s = Ok s1 /\ vehicle_at s1 k = Some v1 /\ held s1 v1) -> Wait a (U + dt) s'.
  Proof.
    intros Free Gg L Hdt H G2 L2 (Tm & Wt) Hno. pose proof (g_trip _ _ _ _ _ _ _ _ _ Gg) as J. pose proof (trip_Inv _ _ _ _ _ _ J) as I. destruct (g_acc_t _ _ _ _ _ _ _ _ _ Gg) as (A1 & A2).
    destruct (step_timers _ _ _ _ I H) as (Ta & _). change (@ACCELERATION_UPDATE_SEC RA) with (@lit RA 1 10) in Ta. assert (@lit RA 1 10 = 1 / 10) as L1 by (unfold lit; cbn; lra). rewrite L1 in Ta.
    assert (s_acc_update s < 1 / 10 /\ s_acc_update s' = s_acc_update s + dt \/ 1 / 10 <= s_acc_update s /\ s_acc_update s' = dt) as Tc.
    { rewrite Ta. destruct (nltb (s_acc_update s) (1 / 10)) eqn:E; [left; apply ltb_R in E; split; [exact E|reflexivity]|right; apply ltb_R_false in E; split; [exact E|cbn; lra]]. }
    clear Ta. split; [destruct Tc as [(Q1 & ->)|(Q1 & ->)]; lra|].
    assert (forall b, (forall y, succ_of N0 a y -> inM m y -> y = b) -> ctl (s_links s) b = Some COpen -> next_open k e s) as Opn.
    { intros b Ub Cb s1 v1 H1 G1 (x & lx & y & l & _ & _ & Ny & Gy & _ & Hc). destruct (next_link _ _ _ _ _ _ _ _ _ Gg L H H1 G1 Ny) as (Sy & My). rewrite (Ub y Sy My) in Gy. pose proof (lane_changes_ctl e s s1 b H1) as E. unfold ctl, link_at in *. rewrite Gy in E. rewrite Cb in E. cbn in E. destruct Hc as [Hc|(? & ? & ? & Hc & _)]; congruence. }
    destruct Wt as [(Ub & _ & Op)|(b & kl & i & lt & q & p & t & Sb & Mb' & Lb & F & T & Ph & Nn & Ub & Cs & Gr)].
    - left. split; [|split; [eauto|]].
      2:{ intros b l' Sb Mb' G'. assert (same_net (s_links s) (s_links s')) as Sn by (eapply step_same_net; eauto). unfold link_at in G'. destruct (same_net_get _ _ _ _ Sn G') as (l & G0 & _). destruct (Op b l Sb Mb' G0) as (C & Un).
        split; [|eapply uncontrolled_step; eauto]. pose proof (step_others e s dt s' b I H Un) as E. unfold ctl in E. rewrite G', G0 in E. cbn in E. injection E as E. rewrite E. exact C. }
      intros v2 Q. assert (v2 = v') by congruence. subst v2. clear Q.
      apply (stage_step e s dt s' v v' a U); auto. exact (Ub v (j_at _ _ _ _ _ _ J)).
    - right. destruct (lights_forward _ _ _ _ _ _ I H (fr_light _ _ _ _ _ _ _ F)) as (lt' & G' & Hl). pose proof (fair_step _ _ _ _ _ _ _ _ _ _ _ I H F G' Hl) as F'. destruct (light_same _ _ _ Hl) as (E1 & E2 & E3).
      assert (ctl (s_links s') b = Some (shown lt' i)) as Cs' by (eapply step_control; [exact I|exact H|exact G'|apply F'|apply F']).
      pose proof (proj1 (light_step_ok _ _ _) Hl) as (p0 & p1 & Ep0 & _ & _ & Ep1 & _).
      destruct (timed_step d Ka Kr Kd K0 D0 Ka0 Kr0 Kd0 K00 lt dt lt' t p0 T Hdt Hl Ep0) as (_ & Tq).
      assert (l_phase lt' < length (l_phases lt'))%nat as Ph' by (rewrite E1; apply nth_error_Some; congruence).
      destruct (nth_error (l_movements lt) i) as [mv|] eqn:Em; [|apply nth_error_None in Em; pose proof (fr_move _ _ _ _ _ _ _ F); lia].
      (* the signal is not green when the accelerations are computed *)
      assert (1 / 10 <= s_acc_update s -> ctl (s_links s) b = Some (shown lt i) -> m_state mv <> Green) as Ng.
      { intros Du C Q. destruct Hno as [X|(s1 & v1 & X1 & X2 & X)]; [lra|]. revert X. apply (Opn b); [ | |exact X1|exact X2]; [intros y Sy My; eapply (Uniq a b y); eauto|]. rewrite C, (shown_of _ _ _ Em), Q. reflexivity. }
      assert (U + dt <= s_acc_update s' + M \/ 0 <= s_acc_update s' /\ forall mv', nth_error (l_movements lt') i = Some mv' -> m_state mv' = Green -> m_since mv' <= s_acc_update s') as Gr'.
      { destruct Cs as [U0|C]. { left. destruct Tc as [(_ & ->)|(_ & ->)]; lra. }
        destruct Tc as [(T1 & T2)|(T1 & T2)].
        - destruct Gr as [Gr|(T0 & Gr)]; [left; lra|]. right. split; [lra|]. intros mv' Em' Sg. destruct (one_step _ _ _ _ _ _ _ Hl Ep1 Em Em') as ([(S1 & ->)|(S1 & ->)] & _); [|lra].
          assert (m_since mv <= s_acc_update s) by (apply (Gr mv eq_refl); congruence). lra.
        - right. split; [lra|]. intros mv' Em' Sg. destruct (one_step _ _ _ _ _ _ _ Hl Ep1 Em Em') as ([(S1 & ->)|(S1 & ->)] & _); [|lra]. exfalso. apply (Ng T1 C). congruence. }
      assert (q < length (l_phases lt))%nat as Hq by (apply nth_error_Some; rewrite (fr_phase _ _ _ _ _ _ _ F); discriminate).
      destruct Tq as [(Qc & Qp & T')|(Qc & Qp & T')].
      + exists b, kl, i, lt', q, p, (t + dt). rewrite E1, Qp. repeat (split; [assumption|]). split; [lra|]. split; [right; exact Cs'|exact Gr'].
      + exists b, kl, i, lt', q, p, dt. rewrite E1. repeat (split; [assumption|]). split; [rewrite <- E1; exact Ph'|]. split; [exact Nn|]. split; [|split; [right; exact Cs'|exact Gr']].
        rewrite Qp. destruct (Nat.eq_dec (l_phase lt) q) as [Eq|Nq].
        * rewrite Eq, since_zero by exact Hq. cbn [INR]. assert (U <= 2 * M); [|lra]. rewrite Eq in Ep0. assert (p0 = p) by (pose proof (fr_phase _ _ _ _ _ _ _ F); congruence). subst p0.
          rewrite phase_complete_true in Qc. destruct (Qc i mv Em (fr_bit _ _ _ _ _ _ _ F)) as (Sg & Sd). apply leb_R in Sd. pose proof (fr_dur _ _ _ _ _ _ _ F) as Du.
          destruct Cs as [U0|C]; [lra|]. destruct Gr as [Gr|(_ & Gr)]; [lra|]. exfalso. specialize (Gr mv eq_refl Sg). apply (Ng ltac:(lra) C Sg).
        * rewrite since_next by auto. rewrite S_INR. destruct (td_low _ _ _ _ _ _ _ T) as (_ & T5). fold K5 in T5. lra.
  Qed.
End Lamps.

(** ** Where it starts *)
Lemma excl_state (l : @light RA) calls : made_by l calls -> exclusive_phases calls -> exclusive l.
Proof.
  intros H Ex p i j m Ip Nij Bi Bj E. pose proof (lrun_cfg _ _ H) as C. destruct (bit (m_conflict m) i) eqn:B; [|reflexivity]. exfalso.
  apply (Ex (p_mask p) (p_duration p) j i); [|congruence|exact Bj|exact Bi|].
  - destruct C as (_ & <-). apply in_map_iff. exists p. auto.
  - unfold names. exists (m_conflict m), (m_amber m), (m_red m). destruct (lrun_cfg _ _ H) as (<- & _). rewrite nth_error_map, E. auto.
Qed.
Lemma lamps_exist (s : @sim RA) d : 0 <= d -> sound_lights s -> exists Ka Kr Kd K0 Nph, 0 <= Ka /\ 0 <= Kr /\ 0 <= Kd /\ 0 <= K0 /\ lamps d Ka Kr Kd K0 Nph s.
Proof.
  intros D Sl. set (of := fun {X} (f : @light RA -> list X) => flat_map (fun kl => match sm_get (s_lights s) kl with Some l => f l | None => [] end) (sm_keys (s_lights s))).
  assert (forall X (f : @light RA -> list X) kl l x, sm_get (s_lights s) kl = Some l -> In x (f l) -> In x (of X f)) as Hof.
  { intros X f kl l x G Hx. apply in_flat_map. exists kl. split; [apply in_keys, sm_mem_get; eauto|rewrite G; exact Hx]. }
  destruct (bound_list (fun m : @movement RA => m_amber m) (of _ (@l_movements RA))) as (Ka & A0 & A1). destruct (bound_list (fun m : @movement RA => m_red m) (of _ (@l_movements RA))) as (Kr & B0 & B1).
  destruct (bound_list (fun p : @Light.phase RA => p_duration p) (of _ (@l_phases RA))) as (Kd & C0 & C1). destruct (bound_list (fun m : @movement RA => Rabs (m_since m)) (of _ (@l_movements RA))) as (K0 & S0 & S1).
  assert (exists N, forall n, In n (of _ (fun l => [length (l_phases l)])) -> (n <= N)%nat) as (N & HN).
  { clear. induction (of _ _) as [|n r (N & IH)]; [exists 0%nat; intros n []|]. exists (Nat.max n N). intros n2 [<-|Hn]; [lia|specialize (IH n2 Hn); lia]. }
  exists Ka, Kr, Kd, K0, N. do 4 (split; [assumption|]). intros kl lt G. destruct (Sl kl lt G) as (calls & Mb & _ & Ex). split; [exists 0; apply timed_start; auto|split].
  - constructor; [| |exact (excl_state _ _ Mb Ex)]. { intros i m E. apply nth_error_In in E. split; [apply A1|apply B1]; eapply Hof; eauto. } { intros p Hin. apply C1. eapply Hof; eauto. }
  - intros i m E. apply nth_error_In in E. apply S1. eapply Hof; eauto.
  - intros Np. destruct (phase_ok_run _ _ Mb) as [(Q & _)|Q]; [contradiction|exact Q].
  - apply HN. eapply Hof; [exact G|left; reflexivity].
Qed.
Lemma opens_passable (s : @sim RA) (Rel : key -> Prop) : sound_lights s -> (forall x, Rel x -> opens s x) -> passable (controlled s) Rel s.
Proof.
  intros Sl Op x l Rx Gx. destruct (Op x Rx) as [(C & Nc)|(kl & lt & i & calls & mask & dur & G & Ci & Un & Mk & Hp & Hb & Hd)].
  - left. split; [destruct C as [(l0 & G0 & C)|(l0 & dist & must & prio & G0 & C & D3)]; assert (l0 = l) by congruence; subst l0; [left; exact C|right; eauto]|]. intros kl lt i G Hi. apply Nc. exists kl, lt, i. auto.
  - right. split; [exists kl, lt, i; auto|]. pose proof (lrun_cfg _ _ Mk) as (_ & Cp). rewrite <- Cp in Hp. apply in_map_iff in Hp. destruct Hp as (p & Ep & Hp). injection Ep as <- <-. apply In_nth_error in Hp. destruct Hp as (q & Hq).
    exists kl, i, lt, q, p. constructor; auto. destruct (Sl kl lt G) as (calls2 & Mk2 & L64 & _). destruct (proj1 (lrun_mlinks _ _ Mk2 ltac:(lia) i x) Ci) as (ks & Hks & _).
    pose proof (cfg_length _ _ (lrun_cfg _ _ Mk2)) as Lm. pose proof (movement_links_length calls2) as Ll. assert (i < length (movement_links calls2))%nat by (apply nth_error_Some; congruence). lia.
Qed.
(** Without lights. *)
Lemma open_opens (s : @sim RA) x l : open_roads s -> no_lights s -> link_at s x = Some l -> opens s x.
Proof. intros Op Nl G. left. split; [left; exists l; split; [exact G|apply (Op x l G)]|]. intros (kl & l0 & i & Q & _). rewrite Nl in Q. discriminate Q. Qed.
Lemma no_lights_sound (s : @sim RA) : no_lights s -> sound_lights s.
Proof. intros Nl kl l G. rewrite Nl in G. discriminate G. Qed.
Lemma open_plain (s : @sim RA) : open_roads s -> plain_roads s.
Proof. intros Op x l G. destruct (Op x l G) as (_ & Q). exact Q. Qed.

(** ** Within a bounded time it has left *)
Lemma leaves_lights (k z : key) (N0 : @linkset RA) (m : matrix) (w : @vehicle RA) (limit vs dmax M P0 : R) (Lead : @sim RA -> Prop) (S0 : @sim RA) (Rel : key -> Prop) :
  no_way_back N0 -> closed N0 z m -> (forall a, inM m a -> leads N0 a z) -> (forall x l, sm_get N0 x = Some l -> v_half_len w + 3 <= lk_length l /\ limit <= lk_limit l) ->
  0 <= v_half_len w -> 0 < limit -> 0 < max_acc w -> 0 < comf_dec w -> 0 < speed_factor w -> slow w limit vs -> 0 <= dmax -> P0 <= 0 -> 3 / 10 + dmax <= M ->
  (forall (e : @env RA) (s : @sim RA) (dt : R) s' v, Lead s -> going k z N0 m w M P0 s v -> 0 <= dt <= dmax -> step e s dt = Ok s' -> no_one_ahead k e s) ->
  (forall (e : @env RA) (s : @sim RA) (dt : R) s' v v', Lead s -> going k z N0 m w M P0 s v -> 0 <= dt <= dmax -> step e s dt = Ok s' -> vehicle_at s' k = Some v' -> Lead s') ->
  sound_lights S0 -> (forall b, inM m b -> Rel b) -> (forall x, Rel x -> opens S0 x) ->
  (forall a b c, succ_of N0 a b -> succ_of N0 a c -> inM m b -> inM m c -> controlled S0 b -> c = b) ->
  exists G : @sim RA -> Prop, G S0 /\ (forall (e : @env RA) (s : @sim RA) (dt : R) s', Inv s -> 0 <= dt <= dmax -> step e s dt = Ok s' -> G s -> G s') /\
    forall a, exists B, forall s v, G s -> Lead s -> going k z N0 m w M P0 s v -> v_link v = Some a -> forall dts s', history s (map (@OStep RA) dts) s' -> List.Forall (fun dt => 0 <= dt <= dmax) dts -> B <= total dts -> vehicle_at s' k = None.
Proof.
  intros Ac Clo So Rm Hl Li Ma Cd Sf Sl Dm P0n Mb Qf Qs Snd Mr Op Un. destruct (lamps_exist S0 dmax Dm Snd) as (Ka & Kr & Kd & K0 & Nph & A0 & B0 & C0 & S00 & La).
  exists (fun s => passable (controlled S0) Rel s /\ lamps dmax Ka Kr Kd K0 Nph s). split; [split; [apply opens_passable; assumption|exact La]|].
  assert (forall (e : @env RA) (s : @sim RA) (dt : R) s', Inv s -> 0 <= dt <= dmax -> step e s dt = Ok s' -> passable (controlled S0) Rel s /\ lamps dmax Ka Kr Kd K0 Nph s -> passable (controlled S0) Rel s' /\ lamps dmax Ka Kr Kd K0 Nph s') as Gs.
  { intros e s dt s' I Hdt H (Q1 & Q2). split; [eapply passable_step; eauto|eapply lamps_step; eauto]. }
  split; [exact Gs|].
  assert (forall x l, sm_get N0 x = Some l -> 0 < lk_length l) as Ps by (intros x l Gx; destruct (Rm x l Gx); lra).
  intros a. destruct (leaves_in_time k z N0 m w limit vs dmax M P0 Ac Clo So Rm Hl Li Ma Cd Sf Sl Dm P0n Mb (fun s => (passable (controlled S0) Rel s /\ lamps dmax Ka Kr Kd K0 Nph s) /\ Lead s)) with (Wait := Wait dmax Ka Kr Kd K0 Nph (controlled S0) k N0 m M P0) (Wb := Wb dmax Ka Kr Kd K0 Nph N0 M P0) (a := a) as (B & HB).
  - intros e s dt s' v (_ & Ls). eauto.
  - intros e s dt s' v v' (Gd & Ls) Gg Hdt H G'. split; [|eauto]. eapply Gs; eauto. exact (trip_Inv _ _ _ _ _ _ (g_trip _ _ _ _ _ _ _ _ _ Gg)).
  - intros x. apply Wb_nonneg; auto.
  - intros s v x ((Q1 & Q2) & _) Gg Lx. eapply (Wait_start dmax Ka Kr Kd K0); eauto.
  - intros e s dt s' v v' x U (_ & Ls) Gg Lx Hdt H G' Lx' Wt Hn. eapply (Wait_step dmax Ka Kr Kd K0); eauto.
  - intros x U s Wt. eapply Wait_end; eauto.
  - exists B. intros s v Gd Ls Gg Lx dts s' Hh Fd Tb. exact (HB s v (conj Gd Ls) Gg Lx dts s' Hh Fd Tb).
Qed.
