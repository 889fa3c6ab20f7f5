(** * Lemmas about arriving (P_Arrive.v) *)
From Coq Require Import List Bool ZArith NArith Arith Lia Reals Lra Relation_Operators Operators_Properties.
From Verif Require Import Arith RealArith Base BaseProofs SlotMap Util Geom Light Accel Net Path Vehicle LinkOps Sim SpecLight LightProofs SpecSim SlotMapProofs Safe NetInv SimInv AccSafe SimSafe StepSafe OpSafe Evo StepEvo SimProofs StepProofs Ord LogProofs SpecMotion Motion RFacts P_Motion SpecRoute PlanProofs RouteProofs RouteEvo P_Route P_Exit NetEvo P_Lane SpecEnter EnterProofs P_Enter SpecAhead P_Ahead SpecConf ConfProofs P_Conf SpecSide SpecReason P_Reason P_Alone QueueProofs ArriveKin SpecArrive.
Import ListNotations.

(** ** A link that no light controls *)
Section Control.
  Context {A : Arith}.
  Lemma update_lights_others s dt s' lid : update_lights s dt = Ok s' -> (forall k l i, sm_get (s_lights s) k = Some l -> ~ In (i, lid) (l_mlinks l)) ->
    ctl (s_links s') lid = ctl (s_links s) lid.
  Proof.
    intros H No. unfold update_lights in H. bok H x Hx. destruct x as [links lights]. injection H as <-. cbn [s_links fst].
    set (f := fun links (_ : key) l => bind (light_step l dt) (fun l => bind (get_states l) (fun sts =>
       bind (foldM (fun links kc => upd_link links (fst kc) (fun l => Ok (set_control l (snd kc)))) sts links) (fun links => Ok (links, l))))) in *.
    pose proof (sm_mapS_ind f (fun done todo (links : linkset) => (forall k l, In (k, l) todo -> forall i, ~ In (i, lid) (l_mlinks l)) /\ ctl links lid = ctl (s_links s) lid)) as K.
    specialize (K (s_lights s) (s_links s) links lights). destruct K as (_ & K); auto.
    - intros done k v todo links0 links1 v' (P1 & P2) Hf. unfold f in Hf. bok Hf v1 Hs. bok Hf sts Hg. bok Hf links2 Hu. injection Hf as <- <-.
      split; [intros k1 l1 Hin; apply (P1 k1 l1); right; exact Hin|]. destruct (fold_control _ _ _ lid Hu) as (_ & F). rewrite F; [exact P2|].
      assert (l_mlinks v1 = l_mlinks v) as Em. { apply light_step_ok in Hs. destruct Hs as (? & ? & Hs). intuition congruence. }
      intros Hc. apply in_map_iff in Hc. destruct Hc as ((lid2 & c) & E & Hc). cbn [fst] in E. subst lid2. apply (get_states_in _ _ _ _ Hg) in Hc. destruct Hc as (j & m & Hj & _). rewrite Em in Hj. exact (P1 k v (or_introl eq_refl) j Hj).
    - split; [|reflexivity]. intros k l Hin i Hi. apply in_entries in Hin. exact (No k l i Hin Hi).
  Qed.
  Lemma log_ctl log lv lid : ctl (fst (apply_log lv log)) lid = ctl (fst lv) lid.
  Proof.
    unfold apply_log. revert lv. induction (rev log) as [|x l IH]; intros lv; cbn [fold_left]; [reflexivity|]. rewrite IH. destruct x as [id y|id f|id i]; cbn [apply_eff fst]; try reflexivity.
    unfold ctl. rewrite sm_get_upd. destruct (key_eqb_spec id lid) as [->|]; [|reflexivity]. destruct (sm_get (fst lv) lid); reflexivity.
  Qed.
  Lemma acc_ctl e s s' lid : St (s_links s) (s_vehicles s) (s_seq s) -> Forall (fun c => valid (s_links s) (cpl_link (cp_a c)) /\ valid (s_links s) (cpl_link (cp_b c))) (s_conflicts s) ->
    sim_apply_accelerations e s = Ok s' -> ctl (s_links s') lid = ctl (s_links s) lid.
  Proof.
    intros S1 Cp H. destruct (nltb (s_acc_update s) ACCELERATION_UPDATE_SEC) eqn:D; [rewrite (acc_kept _ _ _ D H); reflexivity|].
    destruct (acc_parts _ _ _ S1 Cp H D) as (links & vs & log1 & log & P). unfold sim_apply_accelerations in H. rewrite D in H. cbv zeta in H. rewrite (pt_act _ _ _ _ _ _ _ P) in H. cbn [bind] in H.
    rewrite (pt_stop _ _ _ _ _ _ _ P) in H. cbn [bind] in H. change (s_conflicts (with_acc_update s n0)) with (s_conflicts s) in H. rewrite (pt_link _ _ _ _ _ _ _ P) in H. cbn [bind] in H.
    pose proof (log_ctl log (links, vs) lid) as L. destruct (apply_log (links, vs) log) as [links2 vs2]. destruct (apply_frozen vs2 _) as [vs3 fr]. injection H as <-. cbn [s_links with_frozen with_vehicles with_links fst] in *. rewrite L.
    unfold ctl. pose proof (sn_get _ _ (pt_same _ _ _ _ _ _ _ P) lid) as Q. destruct (sm_get links lid) as [l|] eqn:G.
    - destruct (pt_lists _ _ _ _ _ _ _ P _ _ G) as (l0 & G0 & b & ->). rewrite G0. reflexivity.
    - destruct (sm_get (s_links s) lid); [discriminate Q|reflexivity].
  Qed.
  Lemma step_others e s dt s' lid : Inv s -> step e s dt = Ok s' -> (forall k l i, sm_get (s_lights s) k = Some l -> ~ In (i, lid) (l_mlinks l)) ->
    ctl (s_links s') lid = ctl (s_links s) lid.
  Proof.
    intros I H No. destruct (step_phases _ _ _ _ I H) as (s1 & s2 & s3 & s4 & s5 & P). destruct (ph6 _ _ _ _ _ _ _ _ _ P) as (s6 & H6 & ->). cbn [s_links].
    destruct (coords_evo _ _ H6) as (_ & _ & _ & E6). pose proof (ph5 _ _ _ _ _ _ _ _ _ P) as H5. rewrite E6. cbn [s_links with_vehicles]. rewrite (advance_ctl _ _ _ lid H5). rewrite (pn4 _ _ _ _ _ _ _ _ _ P).
    destruct (acc_fields _ _ _ (ph2 _ _ _ _ _ _ _ _ _ P)) as (_ & F2 & _).
    destruct (lc_fields _ _ _ (ph1 _ _ _ _ _ _ _ _ _ P)) as (_ & F1 & _ & _ & _ & F1' & _).
    rewrite (update_lights_others _ _ _ lid (ph3 _ _ _ _ _ _ _ _ _ P)); [|rewrite F2, F1; exact No].
    rewrite (acc_ctl _ _ _ lid (ps1 _ _ _ _ _ _ _ _ _ P)) with (2 := ph2 _ _ _ _ _ _ _ _ _ P); [exact (lane_changes_ctl _ _ _ lid (ph1 _ _ _ _ _ _ _ _ _ P))|].
    rewrite F1'. eapply List.Forall_impl; [|apply (i_cps _ I)]. cbn. intros c (Ha & Hb). split; apply (same_net_valid _ _ _ (pn1 _ _ _ _ _ _ _ _ _ P)); assumption.
  Qed.
End Control.

(** ** What holds back a slow vehicle that is alone *)
Local Open Scope R_scope.
(** Slower than this, it accelerates with at least a quarter of its maximum. *)
Record slow (v : @vehicle RA) (limit vs : R) : Prop := {
  sl_pos : 0 < vs;
  sl_lim : 2 * vs <= speed_factor v * limit;
  sl_head : vs * Rabs (headway v) <= 1 / 4;
  sl_brake : vs * vs * (1 / (2 * sqrt (max_acc v * comf_dec v))) <= 1 / 4 }.
Lemma slow_exists (v : @vehicle RA) limit : 0 < max_acc v -> 0 < comf_dec v -> 0 < speed_factor v * limit -> exists vs, slow v limit vs.
Proof.
  intros A C L. set (h := Rabs (headway v)). assert (0 <= h) as H by apply Rabs_pos. set (q := 1 / (2 * sqrt (max_acc v * comf_dec v))).
  assert (0 < q) as Q. { unfold q. apply Rdiv_lt_0_compat; [lra|]. apply Rmult_lt_0_compat; [lra|]. apply sqrt_lt_R0. apply Rmult_lt_0_compat; assumption. }
  set (x := 1 / (4 * (h + q + 1))). assert (0 < x) as X by (apply Rdiv_lt_0_compat; lra). assert (x * (h + q + 1) = 1 / 4) as E by (unfold x; field; lra).
  exists (Rmin 1 (Rmin x (speed_factor v * limit / 2))). set (vs := Rmin 1 _). assert (0 < vs) as V by (unfold vs; repeat apply Rmin_pos; lra). assert (vs <= 1) by apply Rmin_l.
  assert (vs <= x) by (eapply Rle_trans; [apply Rmin_r|apply Rmin_l]). assert (vs <= speed_factor v * limit / 2) by (eapply Rle_trans; [apply Rmin_r|apply Rmin_r]).
  assert (vs * (h + q + 1) <= 1 / 4) by (rewrite <- E; apply Rmult_le_compat_r; lra). constructor; fold h q; [exact V|lra| |]; assert (0 <= vs * h) by (apply Rmult_le_pos; lra); assert (0 <= vs * q) by (apply Rmult_le_pos; lra); [lra|].
  apply Rle_trans with (vs * q); [|lra]. rewrite Rmult_assoc. assert (vs * q <= 1 * q) by (apply Rmult_le_compat_r; lra). nra.
Qed.
Lemma way_back_far (s : @sim RA) x p i a d : (forall y l, link_at s y = Some l -> 0 <= lk_length l) -> way_back s x p i a d -> p <= d.
Proof. intros N W. induction W as [|i a la d b lb W IH Ga Hb Gb]; [lra|]. specialize (N _ _ Gb). unR. lra. Qed.

(** Nobody is in front of the vehicle, on its link or on those it heads to. *)
Definition nobody_ahead {A : Arith} (s : sim) (k : key) (v : vehicle) : Prop :=
  (forall x lx k2 pre post, link_at s x = Some lx -> lk_vehicles lx <> pre ++ k :: k2 :: post) /\
  forall i x lx, heads_to v (S i) x -> link_at s x = Some lx -> lk_vehicles lx = [].
Lemma alone_ahead {A : Arith} (s : sim) k v : St (s_links s) (s_vehicles s) (s_seq s) -> vehicle_at s k = Some v -> alone s k -> NoDup (v_route v) -> nobody_ahead s k v.
Proof.
  intros St1 Gv Al Nd. assert (forall x lx k2, link_at s x = Some lx -> In k2 (lk_vehicles lx) -> k2 = k /\ nth_error (v_route v) 0 = Some x) as On.
  { intros x lx k2 Gx Hk. destruct (st_occ _ _ _ St1 _ _ Gx) as (_ & Oc). apply Oc in Hk. unfold at_of in Hk. destruct (sm_get (s_vehicles s) k2) as [v2|] eqn:G2; [|discriminate Hk].
    pose proof (Al _ _ G2) as ->. split; [reflexivity|]. unfold vehicle_at in Gv. rewrite Gv in G2. injection G2 as <-. exact Hk. }
  split.
  - intros x lx k2 pre post Gx El. destruct (st_occ _ _ _ St1 _ _ Gx) as (Ndv & _). destruct (On x lx k2 Gx) as (-> & _); [rewrite El; apply in_or_app; right; right; left; reflexivity|].
    rewrite El in Ndv. apply NoDup_remove_2 in Ndv. apply Ndv. apply in_app_iff. right. left. reflexivity.
  - intros i x lx Hh Gx. destruct (lk_vehicles lx) as [|k2 ah] eqn:El; [reflexivity|]. exfalso. destruct (On x lx k2 Gx) as (_ & E0); [rewrite El; left; reflexivity|].
    unfold heads_to in Hh. assert (0%nat = S i) as Q; [|discriminate Q]. eapply NoDup_nth_error; [exact Nd|apply nth_error_Some; congruence|congruence].
Qed.

(** Nobody is on the way to a conflict, and no gap is missing at a sign for which the vehicle waits. *)
Definition no_cross {A : Arith} (s : sim) (v : vehicle) : Prop :=
  (forall x lx c lo hi lo2 hi2 r r2, link_at s x = Some lx -> In c (lk_conflicts lx) -> near_zone s x lo hi r -> near_zone s (cf_link c) lo2 hi2 r2 -> False) /\
  forall y ly dist must prio since pos, nth_error (v_route v) 1 = Some y -> link_at s y = Some ly -> lk_control ly = CYield dist must prio -> waits_since v 1 since ->
    Forall (sufficient_gap s v pos ly prio since) (lk_conflicts ly).
Lemma plain_cross {A : Arith} (s : sim) v : plain_roads s -> no_cross s v.
Proof.
  intros Op. split.
  - intros x lx c lo hi lo2 hi2 r r2 Gx Hc. destruct (Op _ _ Gx) as (Q & _). rewrite Q in Hc. destruct Hc.
  - intros y ly dist must prio since pos _ Gy _ _. destruct (Op _ _ Gy) as (-> & _). constructor.
Qed.
(** The next link is closed, or the vehicle comes to a sign, is less than three metres away from the line and does not wait yet. *)
Definition held (s : @sim RA) (v : @vehicle RA) : Prop := exists a la y ly, v_link v = Some a /\ link_at s a = Some la /\ nth_error (v_route v) 1 = Some y /\ link_at s y = Some ly /\ v_entered v = 1%nat /\
  (lk_control ly = CClosed \/ exists dist must prio, lk_control ly = CYield dist must prio /\ v_queued v = None /\ lk_length la < pos_front v + 3 /\ near_end la v).
Lemma held_dec s v : held s v \/ ~ held s v.
Proof.
  unfold held. destruct (v_link v) as [a|]; [|right; intros (a & la & y & ly & Q & _); discriminate Q]. destruct (link_at s a) as [la|] eqn:Ga; [|right; intros (a' & la & y & ly & Q & Q2 & _); injection Q as <-; congruence].
  destruct (nth_error (v_route v) 1) as [y|]; [|right; intros (a' & la' & y & ly & _ & _ & Q & _); discriminate Q]. destruct (link_at s y) as [ly|] eqn:Gy; [|right; intros (a' & la' & y' & ly & _ & _ & Q & Q2 & _); injection Q as <-; congruence].
  destruct (Nat.eq_dec (v_entered v) 1) as [E1|E1]; [|right; intros (a' & la' & y' & ly' & _ & _ & _ & _ & Q & _); contradiction].
  destruct (lk_control ly) as [|dd ms pr|] eqn:C.
  - right. intros (a' & la' & y' & ly' & _ & _ & Q & Q2 & _ & Q3). injection Q as <-. assert (ly' = ly) by congruence. subst ly'. destruct Q3 as [Q3|(d0 & m0 & p0 & Q3 & _)]; congruence.
  - destruct (v_queued v) eqn:Eq.
    { right. intros (a' & la' & y' & ly' & _ & _ & Q & Q2 & _ & Q3). injection Q as <-. assert (ly' = ly) by congruence. subst ly'. destruct Q3 as [Q3|(d0 & m0 & p0 & _ & Q3 & _)]; congruence. }
    destruct (Rlt_dec (lk_length la) (pos_front v + 3)) as [Q|Q].
    2:{ right. intros (a' & la' & y' & ly' & Q1 & Q2 & Q3 & Q4 & _ & Q5). injection Q1 as <-. injection Q3 as <-. assert (la' = la) by congruence. subst la'. assert (ly' = ly) by congruence. subst ly'. destruct Q5 as [Q5|(d0 & m0 & p0 & _ & _ & Q5 & _)]; [congruence|contradiction]. }
    unfold near_end. destruct (nltb (pos_front v) (nsub (lk_length la) (nmul (nofZ 5) (lk_limit la)))) eqn:Ne.
    { right. intros (a' & la' & y' & ly' & Q1 & Q2 & Q3 & Q4 & _ & Q5). injection Q1 as <-. injection Q3 as <-. assert (la' = la) by congruence. subst la'. assert (ly' = ly) by congruence. subst ly'. destruct Q5 as [Q5|(d0 & m0 & p0 & _ & _ & _ & Q5)]; congruence. }
    left. exists a, la, y, ly. repeat (split; [first [reflexivity|assumption]|]). right. exists dd, ms, pr. auto.
  - left. exists a, la, y, ly. repeat (split; [first [reflexivity|assumption]|]). left. exact C.
Qed.

Lemma trip_reason (s : @sim RA) k v a la limit vs y : St (s_links s) (s_vehicles s) (s_seq s) -> vehicle_at s k = Some v -> nobody_ahead s k v -> no_cross s v -> single_lanes s -> ~ held s v ->
  at_least s (v_half_len v + 3) limit -> 0 <= v_half_len v -> 0 < limit -> (v_can_exit v = true \/ exists x y r, v_route v = x :: y :: r) ->
  v_link v = Some a -> link_at s a = Some la -> (v_pos v : R) <= lk_length la ->
  0 < max_acc v -> 0 < comf_dec v -> 0 < speed_factor v -> slow v limit vs -> 0 <= v_vel v <= vs ->
  reason s k v y -> max_acc v / 4 <= y.
Proof.
  intros St1 Gv (Na & Nh) (Nc1 & Nc2) Op Nx Le Hl L0 Go Lk Gla Pl Ma Cd Sf [S1 S2 S3 S4] (V0 & V1) R0.
  assert (forall x lx, link_at s x = Some lx -> In k (lk_vehicles lx) -> nth_error (v_route v) 0 = Some x) as Cur.
  { intros x lx Gx Hk. destruct (st_occ _ _ _ St1 _ _ Gx) as (_ & Oc). apply Oc in Hk. unfold at_of in Hk. unfold vehicle_at in Gv. rewrite Gv in Hk. exact Hk. }
  assert (forall x lx, link_at s x = Some lx -> max_acc v / 4 <= limit_model v (lk_limit lx)) as Lm.
  { intros x lx Gx. destruct (Le _ _ Gx) as (_ & Li). unfold limit_model. set (u := ndiv _ _). assert (0 <= u <= 1 / 2) as (U0 & U1).
    { unfold u. unR. assert (0 < speed_factor v * lk_limit lx) as P by (apply Rmult_lt_0_compat; lra). split; [apply Rmult_le_pos; [lra|]; apply Rlt_le, Rinv_0_lt_compat; exact P|].
      apply Rmult_le_reg_r with (speed_factor v * lk_limit lx); [exact P|]. unfold Rdiv at 1. rewrite Rmult_assoc, Rinv_l by lra. assert (speed_factor v * limit <= speed_factor v * lk_limit lx) by (apply Rmult_le_compat_l; lra). lra. }
    change (max_acc v / 4 <= max_acc v * (1 - (u * u) * (u * u))). assert (0 <= u * u <= 1 / 4) by (split; nra). assert (0 <= (u * u) * (u * u) <= 1 / 16) by (split; nra). nra. }
  destruct R0 as [x lx Gx Hk|x lx k2 v2 Gx (pre & post & El) G2|x lx i d y Gx (b & lb & W & Gb & Hk & Hh & Wi) Fl|x lx i d k2 v2 Gx (b & lb & W & Gb & Hk & Hh & Wi) (ah & El) G2|x lx i d Gx (b & lb & W & Gb & Hk & Hh & Wi) M|c lc g p b lb w0 w o o' i d Ga Eg Hpj Hsrc Ed Gb Hw Gw Ap (a2 & la2 & W & Ga2 & Hk & Hh & Wi) Iw Np|b1' b lb1 lb c c' order p leader q follower Ga Gb Nab Hc Ec Hc' Ec' Mi Oi Bf Eo Nl Ek Ev].
  - exact (Lm _ _ Gx).
  - exfalso. exact (Na _ _ _ _ _ Gx El).
  - destruct Fl as [(_ & ->)|(Dd & Fs & _)]; [exact (Lm _ _ Gx)|]. exfalso. unfold slowing in Fs. cbv zeta in Fs. destruct (Le _ _ Gx) as (_ & Li).
    assert (speed_factor v * limit <= speed_factor v * lk_limit lx) by (apply Rmult_le_compat_l; lra).
    rewrite (RA_slow (nmul (speed_factor v) (lk_limit lx)) (v_vel v) _ _) in Fs; [discriminate Fs|apply leb_R; exact V0|apply leb_R; unR; lra|exact Dd|apply ltb_R; exact Cd].
  - exfalso. rewrite (Nh _ _ _ Hh Gx) in El. discriminate El.
  - assert (b = a /\ lb = la) as (-> & ->). { pose proof (Cur _ _ Gb Hk) as E1. unfold v_link in Lk. change (nth_error (v_route v) 0 = Some a) in Lk. assert (b = a) by congruence. subst b. split; congruence. }
    unfold driver_model. set (gap := nsub _ _). assert (3 <= gap) as G3.
    { unfold gap. destruct i as [|i].
      - inversion W; subst. assert (lx = la) by congruence. subst lx. destruct M as [(En & Q)|(y & ly & En & Ev & Gy & M)]; [exfalso; destruct Go as [Go|(x0 & y0 & r0 & Er)]; [congruence|rewrite Er in En; discriminate En]|].
        destruct (vb_ent _ _ _ _ (st_veh _ _ _ St1 _ _ Gv)) as (En1 & _). assert (v_entered v = 1%nat) as E1 by lia. destruct (Rle_or_lt (pos_front v + 3) (lk_length la)) as [Q|Q]; [change (@n0 RA) with 0%R; unR; lra|]. exfalso.
        destruct M as [C|(d' & mu & pr & C & [[M|(_ & M)]|(since & M & Ng)])]; [|lia| |].
        + apply Nx. exists a, la, y, ly. repeat (split; [assumption|]). left. exact C.
        + apply Nx. exists a, la, y, ly. repeat (split; [assumption|]). right. exists d', mu, pr. auto.
        + apply Ng. eapply Nc2; eauto.
      - assert (lk_length lx + lk_length la <= d) as Fd.
        { inversion W as [|i' a' la' d' b' lb' W' Ga' Hb' Gb']; subst. assert (lb' = la) by congruence. subst lb'. apply way_back_far in W'; [unR; lra|]. intros z lz Gz. destruct (Le _ _ Gz). lra. }
        destruct (Le _ _ Gx) as (Lx & _). unfold pos_front. change (@n0 RA) with 0%R. unR. lra. }
    clear M. assert (@nleb RA gap n2 = false) as -> by (apply leb_R_false; unfold n2; unR; lra).
    set (s0 := nadd _ _). assert (0 - 5 / 2 <= s0 <= 5 / 2) as (B1 & B2).
    { unfold s0. unfold n1, n2. unR. rewrite Rminus_0_r. set (q := 1 / (2 * sqrt (max_acc v * comf_dec v))) in *.
      assert (0 <= q). { unfold q. apply Rmult_le_pos; [lra|]. apply Rlt_le, Rinv_0_lt_compat. apply Rmult_lt_0_compat; [lra|]. apply sqrt_lt_R0. apply Rmult_lt_0_compat; assumption. }
      assert (0 <= v_vel v * v_vel v * q <= vs * vs * q) as (Q1 & Q2). { split; [apply Rmult_le_pos; [nra|assumption]|]. apply Rmult_le_compat_r; [assumption|]. nra. }
      assert (Rabs (v_vel v * headway v) <= 1 / 4) as Q3. { rewrite Rabs_mult, (Rabs_right (v_vel v)) by lra. eapply Rle_trans; [|exact S3]. apply Rmult_le_compat_r; [apply Rabs_pos|lra]. }
      assert (0 - 1/4 <= v_vel v * headway v <= 1/4) by (revert Q3; unfold Rabs; destruct (Rcase_abs _); lra). lra. }
    change (max_acc v / 4 <= max_acc v * (1 - (s0 / gap) * (s0 / gap))).
    assert (- (5 / 6) <= s0 / gap <= 5 / 6) as (D1 & D2). { split; (apply Rmult_le_reg_r with gap; [lra|]; unfold Rdiv at 2; try rewrite (Rmult_assoc s0), Rinv_l by lra; unfold Rdiv at 1; try rewrite (Rmult_assoc s0), Rinv_l by lra); lra. }
    assert (s0 / gap * (s0 / gap) <= 25 / 36) by nra. nra.
  - exfalso. destruct (Op _ _ Ga) as (Q & _). congruence.
  - exfalso. assert (forall r, In r order -> ar_link r = b1' /\ near_zone s b1' (cf_min c') (cf_max c') r \/ ar_link r = b /\ near_zone s b (cf_min c) (cf_max c) r) as Oz.
    { intros r Hr. apply Oi in Hr. destruct Hr as [Hr|Hr]; [left|right]; (split; [apply Hr|exact Hr]). }
    assert (In leader order /\ In follower order) as (I1 & I2) by (rewrite Eo; split; apply in_or_app; right; [left; reflexivity|right; left; reflexivity]).
    destruct (Oz _ I1) as [(A1 & A2)|(A1 & A2)], (Oz _ I2) as [(B1 & B2)|(B1 & B2)]; try congruence; subst b; [exact (Nc1 _ _ _ _ _ _ _ _ _ Ga Hc A2 B2)|exact (Nc1 _ _ _ _ _ _ _ _ _ Ga Hc B2 A2)].
Qed.

(** ** The table of a network without lanes beside each other *)
Section Table.
  Context {A : Arith}.
  Definition closed (links : linkset) (d : key) (m : matrix) : Prop := forall a, inM m a -> a = d \/ exists b, succ_of links a b /\ inM m b.
  Lemma inM_insert m k0 x d : inM (mx_insert m k0 d) x -> x = k0 \/ inM m x.
  Proof. unfold inM, mx_insert. destruct (key_eqb k0 null_key); auto. cbn [mx_get]. destruct (key_eqb_spec k0 x); auto. Qed.
  Lemma inM_kept m k0 x d : inM m x -> inM (mx_insert m k0 d) x.
  Proof. unfold inM, mx_insert. destruct (key_eqb k0 null_key); auto. cbn [mx_get]. destruct (key_eqb_spec k0 x); auto. intros _ Q. discriminate Q. Qed.
  Lemma closed_table links d route m : (forall x l, sm_get links x = Some l -> lk_group l = None) -> calc_lane_matrix links d route = Ok m -> closed links d m.
  Proof.
    intros Gr H. unfold calc_lane_matrix in H. assert (closed links d (mx_insert [] d dists_exit)) as C0.
    { intros a Ha. apply inM_insert in Ha. destruct Ha as [->|Ha]; auto. exfalso. apply Ha. reflexivity. }
    revert C0 H. generalize (mx_insert [] d dists_exit). generalize (rev route). clear route. intros route. induction route as [|x route IH]; intros m0 C0 H; cbn [foldM] in H; [injection H as <-; exact C0|].
    bok H m1 Hm. apply (IH m1); [|exact H]. clear IH H. unfold matrix_step in Hm. bok Hm l Gl. unfold get_link in Gl. destruct (sm_get links x) as [l'|] eqn:E; [|discriminate Gl]. injection Gl as ->. bok Hm m2 Hf.
    rewrite (Gr _ _ E) in Hm. injection Hm as <-. unfold group_links in Hf. rewrite (Gr _ _ E) in Hf. cbn [foldM] in Hf. bok Hf m3 Hb. injection Hf as ->.
    unfold propagate_back in Hb. unfold get_link in Hb. rewrite E in Hb. cbn [of_option bind] in Hb. destruct (reduce _ _) as [d1|] eqn:Er; [|injection Hb as <-; exact C0].
    injection Hb as <-. intros a Ha. apply inM_insert in Ha. destruct Ha as [->|Ha].
    - right. destruct (flat_map _ (lk_out l)) as [|d2 r] eqn:Ef; [discriminate Er|]. assert (In d2 (d2 :: r)) as Hd by (left; reflexivity). rewrite <- Ef in Hd. apply in_flat_map in Hd. destruct Hd as (o & Ho & Hd).
      exists o. split; [exists l; auto|]. apply inM_kept. unfold inM. destruct (mx_get m0 o); [discriminate|destruct Hd].
    - destruct (C0 _ Ha) as [->|(b & Hb & Mb)]; auto. right. exists b. split; auto. apply inM_kept. exact Mb.
  Qed.
  Lemma dest_closed ops e s k d s' v v' : history sim_new ops s -> groups_apart ops -> @cast_in_range A -> exec e s (OSetDestination k d) = Ok s' ->
    vehicle_at s k = Some v -> vehicle_at s' k = Some v' -> (forall x l, link_at s x = Some l -> lk_group l = None) -> leads (s_links s) (pf_src (v_pathfind v)) d ->
    closed (s_links s) d (pf_matrix (v_pathfind v')).
  Proof.
    intros Hist Ap Cast H G G' Gr Ld. pose proof (history_Inv _ _ _ Hist Inv_new) as I. unfold vehicle_at in *. cbn [exec] in H. unfold set_vehicle_destination in H. bok H v0 Hv0. bok H v1 Hv1. injection H as <-.
    unfold get_vehicle in Hv0. rewrite G in Hv0. injection Hv0 as <-. cbn [s_vehicles with_vehicles] in G'. rewrite sm_get_set, key_eqb_refl in G'.
    replace (sm_mem (s_vehicles s) k) with true in G' by (symmetry; apply sm_mem_get; eauto). injection G' as <-.
    unfold set_destination in Hv1. bok Hv1 pfb Hpb. injection Hv1 as <-. cbn [set_can_exit set_pathfind v_route v_pathfind s_links with_vehicles].
    unfold pf_set_destination in Hpb. apply bind_ok in Hpb. destruct Hpb as (pfa & Ha & Hpl). apply make_paths_planned in Hpl. destruct Hpl as (M1 & M2 & M3 & M4). rewrite M3.
    pose proof (vbase_src _ _ _ _ (st_veh _ _ _ (i_st _ I) _ _ G)) as Vs.
    unfold reroute in Ha. cbn [pf_src pf_dst] in Ha.
    replace (key_eqb (pf_src (v_pathfind v)) null_key) with false in Ha by (symmetry; apply key_eqb_neq, (valid_not_null ops s _ Hist (same_net_refl _)); auto).
    destruct (key_eqb_spec d null_key) as [->|Nd].
    { exfalso. apply (valid_not_null ops s (s_links s) Hist (same_net_refl _) null_key); auto. apply clos_rt_rtn1 in Ld.
      destruct Ld as [|y z [St|St] _]; auto; [apply (succ_valid ops s (s_links s) Hist (same_net_refl _)) in St|apply (chg_valid ops s (s_links s) Hist (same_net_refl _)) in St]; apply St. }
    cbn [orb] in Ha. bok Ha dl Gd0. unfold get_link in Gd0. destruct (sm_get (s_links s) d) as [dl'|] eqn:Gd; [|discriminate Gd0]. injection Gd0 as ->. bok Ha dsts Hd. bok Ha r Hr.
    pose proof (search_ok ops s (s_links s) Hist (same_net_refl _) Ap (costs_ok ops s Hist Cast (s_links s) (same_net_refl _)) (e_fuel e) (e_pick e (s_links s) (pf_src (v_pathfind v)) d) _ _ _ _ Vs Gd Hd) as Q. rewrite Hr in Q.
    destruct r as [(p, c)|]; [|exfalso; apply Q; exact Ld]. bok Ha m Hmx. injection Ha as <-. cbn [pf_matrix]. eapply closed_table; [exact Gr|exact Hmx].
  Qed.
End Table.

(** ** What stays as it is while one vehicle drives alone *)
Section Trip.
  Context {A : Arith}.
  Variables (k d : key) (N0 : linkset) (m : matrix).
  Record trip (s : sim) (v : vehicle) : Prop := {
    j_hist : exists ops, history sim_new ops s /\ groups_apart ops;
    j_net : same_net N0 (s_links s);
    j_open : single_lanes s;
    j_frozen : get_vehicle_frozen s k = false;
    j_at : vehicle_at s k = Some v;
    j_lane : v_lane_change v = None;
    j_dst : v_destination v = d;
    j_plan : planned_all (s_links s) (v_pathfind v);
    j_track : on_track m v;
    j_exit : last (v_route v) null_key = d -> v_can_exit v = true }.
  (** It has a way on, or may leave. *)
  Definition ready (v : vehicle) : Prop := v_can_exit v = true \/ exists x y r, v_route v = x :: y :: r.
  Hypothesis Acyc : no_way_back N0.
  Hypothesis Clo : closed N0 d m.
  Hypothesis Snd : forall a, inM m a -> leads N0 a d.
  Hypothesis Cast : @cast_in_range A.
  Hypothesis Near : @nltb A n0 (nofZ 200) = true.

  Lemma trip_Inv s v : trip s v -> Inv s.
  Proof. intros J. destruct (j_hist _ _ J) as (ops & Hh & _). exact (history_Inv _ _ _ Hh Inv_new). Qed.
  Lemma same_succ links links' a b : same_net links links' -> succ_of links' a b -> succ_of links a b.
  Proof. intros S. apply (same_net_ge _ _ S). Qed.
  Lemma plain_net s s' : plain_roads s -> same_net (s_links s) (s_links s') -> plain_roads s'.
  Proof.
    intros Op S x l G. unfold link_at in G. destruct (same_net_get _ _ _ _ S G) as (l0 & G0 & E). destruct (Op x l0 G0) as (C2 & C3 & C4).
    unfold lk_static in E. injection E as F1 F2 F3 F4 F5 F6 F7 F8 F9. rewrite <- F7, <- F2, <- F6. auto.
  Qed.
  Lemma single_net s s' : single_lanes s -> same_net (s_links s) (s_links s') -> single_lanes s'.
  Proof.
    intros Op S x l G. unfold link_at in G. destruct (same_net_get _ _ _ _ S G) as (l0 & G0 & E). destruct (Op x l0 G0) as (C3 & C4).
    unfold lk_static in E. injection E as F1 F2 F3 F4 F5 F6 F7 F8 F9. rewrite <- F2, <- F6. auto.
  Qed.
  Lemma plain_single s : plain_roads s -> single_lanes s.
  Proof. intros Op x l G. apply (Op x l G). Qed.
  Lemma chain_tail links r a : chain links (a :: r) -> forall b, In b r -> clos_trans key (succ_of links) a b.
  Proof.
    revert a. induction r as [|c r IH]; intros a C b Hb; [destruct Hb|]. cbn [chain] in C. destruct C as (_ & Ss & C). destruct Hb as [<-|Hb]; [apply t_step; exact Ss|].
    eapply t_trans; [apply t_step; exact Ss|]. apply IH; auto.
  Qed.
  Lemma clos_same links links' a b : same_net links links' -> clos_trans key (succ_of links') a b -> clos_trans key (succ_of links) a b.
  Proof. intros S H. induction H; [apply t_step; eapply same_succ; eauto|eapply t_trans; eauto]. Qed.
  Lemma chain_nodup links r : same_net N0 links -> chain links r -> NoDup r.
  Proof.
    intros S. induction r as [|a r IH]; intros C; [constructor|]. constructor; [|apply IH; apply C]. intros Ha. apply (Acyc a). eapply clos_same; [exact S|]. eapply chain_tail; eauto.
  Qed.
  Lemma leads_trans s v a : trip s v -> leads N0 a d -> a = d \/ clos_trans key (succ_of N0) a d.
  Proof.
    intros J L. apply clos_rt_rt1n in L. assert (forall z, clos_refl_trans_1n key (next_of N0) a z -> a = z \/ clos_trans key (succ_of N0) a z) as K; [|exact (K d L)].
    clear L. intros z L. induction L as [|x y z [Sx|Sx] _ IH]; auto.
    - right. destruct IH as [->|IH]; [apply t_step; exact Sx|eapply t_trans; [apply t_step; exact Sx|exact IH]].
    - exfalso. destruct Sx as (l & G & Hb). destruct (same_net_get' _ _ _ _ (j_net _ _ J) G) as (l1 & G1 & E). destruct (j_open _ _ J x l1 G1) as (_ & Q).
      unfold lk_static in E. injection E as F1 F2 F3 F4 F5 F6 F7 F8 F9. rewrite F6 in Q. rewrite Q in Hb. destruct Hb.
  Qed.
  (** On the destination it has nothing else before it. *)
  Lemma at_destination s v r : trip s v -> chain N0 (d :: r) -> (forall x, In x r -> inM m x) -> r = [].
  Proof.
    intros J C M. destruct r as [|b r]; auto. exfalso. apply (Acyc d). assert (clos_trans key (succ_of N0) d b) as T by (eapply chain_tail; [exact C|left; auto]).
    destruct (leads_trans s v b J) as [->|Q]; [apply Snd; apply M; left; auto|exact T|eapply t_trans; eauto].
  Qed.
  Lemma plan_first links (t : key -> Prop) r dd a p : plan links t r dd a p -> exists q, p = a :: q.
  Proof. intros P. destruct P; eauto. Qed.

  Lemma planned_here s v a p : trip s v -> v_link v = Some a -> In p (pf_paths (v_pathfind v)) ->
    exists q, pt_links p = a :: q /\ (a <> d -> q <> []).
  Proof.
    intros J L Hin. pose proof (trip_Inv _ _ J) as I. destruct (link_src _ _ _ _ I (j_at _ _ J) L) as (Es & _).
    destruct (j_plan _ _ J) as (P1 & _). destruct (P1 p Hin) as ((b & Hb & P) & _). rewrite Es in Hb.
    assert (b = a) as ->. { destruct Hb as [Hb|(l & G & Hb)]; auto. exfalso. destruct (j_open _ _ J a l G) as (_ & Q). rewrite Q in Hb. destruct Hb. }
    destruct (plan_first _ _ _ _ _ _ P) as (q & Eq). exists q. split; auto. intros Na Hq. subst q. rewrite Eq in P. destruct (j_track _ _ J) as (Em & _ & _).
    inversion P as [room dist a' Ta Hs|room dist a' l b p' Ta Hd G Hb' P']; subst.
    - destruct Hs as [Hs|[Hs|Hs]]; [discriminate Hs| |].
      + congruence.
      + rewrite Em in *. destruct (Clo _ Ta) as [Q|(b & Sb & Mb)]; [contradiction|]. apply (Hs b); [apply (same_net_le _ _ (j_net _ _ J)); exact Sb|exact Mb].
    - destruct (plan_first _ _ _ _ _ _ P') as (q' & Q). discriminate Q.
  Qed.

  Lemma choose_none links v : choose_path links v = Ok None -> v_lane_change v = None -> pf_paths (v_pathfind v) = [] \/ exists p, In p (pf_paths (v_pathfind v)) /\ pt_links p = v_route v.
  Proof.
    unfold choose_path. intros H E. rewrite E in H. bok H x Hx. destruct x as [|y l].
    - left. destruct (pf_paths (v_pathfind v)) as [|p ps]; auto. exfalso. destruct (mapM_in_l _ _ _ p Hx (or_introl eq_refl)) as (z & [] & _).
    - right. destruct (keys_eqb (pt_links (min_by_key y l)) (v_route v)) eqn:Ek; [|discriminate H]. apply keys_eqb_eq in Ek. exists (min_by_key y l). split; auto.
      assert (exists c, In (min_by_key y l, c) (y :: l)) as (c & Hc). { destruct (min_by_key_in y l) as [->|(c & Hin)]; [exists (snd y); left; destruct y; reflexivity|exists c; right; exact Hin]. }
      destruct (mapM_in _ _ _ _ Hx Hc) as (p & Hp0 & Hf). bok Hf c0 Hc0. injection Hf as <- _. exact Hp0.
  Qed.
  (** The choice of paths. *)
  Lemma trip_choice e s v s1 v1 a : trip s v -> v_link v = Some a -> calculate_lane_changes e s = Ok s1 -> vehicle_at s1 k = Some v1 ->
    v_link v1 = Some a /\ v_pos v1 = v_pos v /\ v_lane_change v1 = None /\ (forall x, In x (v_route v1) -> inM m x) /\ (last (v_route v1) null_key = d -> v_can_exit v1 = true) /\
    (ready v -> ready v1) /\ (nltb (s_lc_update s) LANE_CHANGE_UPDATE_SEC = false -> ready v1).
  Proof.
    intros J L H G1. pose proof (trip_Inv _ _ J) as I. destruct (lane_changes_exact _ _ _ _ _ (i_st _ I) H G1) as (v0 & G0 & C). pose proof (j_at _ _ J) as Gv. unfold vehicle_at in Gv. assert (v0 = v) by congruence. subst v0.
    destruct (j_track _ _ J) as (Em & Mr & Mp). destruct (link_src _ _ _ _ I (j_at _ _ J) L) as (Es & Va).
    assert (exists r, v_route v = a :: r) as (r & Er). { unfold v_link in L. destruct (v_route v) as [|x r]; [discriminate L|]. injection L as ->. eauto. }
    assert (chain N0 (v_route v)) as Ch. { pose proof (vb_chain _ _ _ _ (st_veh _ _ _ (i_st _ I) _ _ Gv)) as C0. eapply chain_mono; [apply (same_net_ge _ _ (j_net _ _ J))|exact C0]. }
    assert (a = d -> ready v) as Rd.
    { intros ->. left. apply (j_exit _ _ J). rewrite Er. rewrite Er in Ch. rewrite (at_destination s v r J Ch); [reflexivity|]. intros x Hx. apply Mr. rewrite Er. right. exact Hx. }
    assert (In a (v_route v)) as Ia by (rewrite Er; left; reflexivity).
    assert (forall p, In p (pf_paths (v_pathfind v)) -> pt_links p = v_route v -> ready v) as Rn.
    { intros p Hin Eq. destruct (key_eqb_spec a d) as [->|Na]; [apply Rd; reflexivity|]. destruct (planned_here _ _ _ _ J L Hin) as (q & Eq' & Nq). right. destruct q as [|y q]; [exfalso; apply Nq; auto|]. rewrite <- Eq, Eq'. eauto. }
    destruct C as [(D & ->)|(D & C)].
    { split; [exact L|]. split; [reflexivity|]. split; [apply J|]. split; [exact Mr|]. split; [apply J|]. split; [auto|]. intros Q. congruence. }
    destruct C as [C|p C Hh|p b links' pos lc v2 C Hh Nl Hs].
    - split; [exact L|]. split; [reflexivity|]. split; [apply J|]. split; [exact Mr|]. split; [apply J|]. split; [auto|]. intros _.
      destruct (choose_none _ _ C (j_lane _ _ J)) as [Q|(p & Hin & Eq)]; [|exact (Rn p Hin Eq)].
      exfalso. destruct (found_candidate _ _ _ _ I (j_at _ _ J) L (j_plan _ _ J)) as (p & Hp'); [unfold routed; rewrite Em; apply Mr; exact Ia|].
      unfold candidates in Hp'. rewrite Q in Hp'. destruct Hp'.
    - destruct (choose_path_in _ _ _ C) as (Hin & _). destruct (planned_here _ _ _ _ J L Hin) as (q & Eq & Nq).
      assert (last (pt_links p) null_key = d -> pt_exit p = true) as Ex. { intros Q. apply (proj1 (j_plan _ _ J) p Hin). rewrite Q. symmetry. apply J. }
      assert (ready (set_path v p)) as Rp.
      { destruct (key_eqb_spec a d) as [->|Na].
        - left. cbn [set_path v_can_exit]. apply Ex. pose proof (vb_paths _ _ _ _ (st_veh _ _ _ (i_st _ I) _ _ Gv)) as Pk. rewrite Forall_forall in Pk. destruct (Pk p Hin) as (first & (Cp & _) & _). rewrite Eq in Cp |- *.
          rewrite (at_destination s v q J); [reflexivity|eapply chain_mono; [apply (same_net_ge _ _ (j_net _ _ J))|exact Cp]|]. intros x Hx. apply (Mp p x Hin). rewrite Eq. right. exact Hx.
        - right. cbn [set_path v_route]. rewrite Eq. destruct q as [|y q]; [exfalso; apply Nq; auto|]. eauto. }
      cbn [set_path v_link v_route v_pos v_lane_change v_can_exit]. split; [change (hd_error (pt_links p) = Some a); rewrite Hh; exact L|]. split; [reflexivity|]. split; [apply J|]. split; [intros x Hx; eapply Mp; eauto|]. split; [exact Ex|]. auto.
    - exfalso. destruct (choose_path_in _ _ _ C) as (Hin & _). destruct (planned_here _ _ _ _ J L Hin) as (q & Eq & _). rewrite Eq in Hh. injection Hh as <-. contradiction.
  Qed.

  Lemma step_lane_none e s dt s' v' v s1 v1 : Inv s -> step e s dt = Ok s' -> vehicle_at s' k = Some v' -> calculate_lane_changes e s = Ok s1 -> vehicle_at s1 k = Some v1 -> v_lane_change v1 = None ->
    vehicle_at s k = Some v -> v_lane_change v' = None.
  Proof.
    intros I H G' H1 G1 Ln Gv. destruct (step_vehicle_parts _ _ _ _ _ _ I H G') as (t1 & s2 & s3 & s4 & s5 & v0 & v1' & v2 & v4 & v5 & q & q' & P & G & G1' & G2 & G4 & R1 & Kp & Hi & R5 & R6).
    assert (t1 = s1) by (pose proof (ph1 _ _ _ _ _ _ _ _ _ P); congruence). subst t1. unfold vehicle_at in *. assert (v1' = v1) by congruence. subst v1'.
    destruct Kp as (a & f & Ek). assert (v_lane_change v2 = None) as L2 by (rewrite Ek; exact Ln).
    assert (v_lane_change v4 = None) as L4. { unfold integrate in Hi. bok Hi x Hx. destruct x as [xa [xb xc]]. injection Hi as _ <-. cbn [v_lane_change]. rewrite L2. reflexivity. }
    destruct R6 as (_ & _ & _ & _ & _ & _ & ->). destruct R5 as (lid & l & _ & _ & [(_ & ->)|(_ & _ & _ & _ & _ & -> & _)]); [exact L4|rewrite L4; reflexivity].
  Qed.
  Lemma trip_step e s dt s' v v' a : trip s v -> step e s dt = Ok s' -> vehicle_at s' k = Some v' -> v_link v = Some a ->
    trip s' v' /\ spec_of v' = spec_of v /\ am_adj (v_acc v') = am_adj (v_acc v) /\ v_vel v' = nmax (nadd (v_vel v) (nmul dt (am_get (v_acc v')))) n0 /\
    exists la p, link_at s a = Some la /\ p = nadd (v_pos v) (nmul (nmul nhalf (nadd (v_vel v) (v_vel v'))) dt) /\
      (nltb (lk_length la) p = false /\ v_link v' = Some a /\ v_pos v' = p /\ (ready v -> ready v') /\ (nltb (s_lc_update s) LANE_CHANGE_UPDATE_SEC = false -> ready v') \/
       nltb (lk_length la) p = true /\ v_pos v' = nsub p (lk_length la) /\ exists b, v_link v' = Some b /\ succ_of N0 a b).
  Proof.
    intros J H G' L. pose proof (trip_Inv _ _ J) as I. pose proof (j_at _ _ J) as Gv. destruct (j_hist _ _ J) as (ops & Hh & Ap).
    assert (exec e s (OStep dt) = Ok s') as Hx by exact H. assert (same_net (s_links s) (s_links s')) as Sn by (eapply step_same_net; eauto).
    destruct (step_exit _ _ _ _ _ _ I H G') as (v0 & v1 & s1 & G0 & H1 & G1 & C & Ce & _ & Ne & Rt). unfold vehicle_at in Gv. assert (v0 = v) by congruence. subst v0.
    destruct (trip_choice _ _ _ _ _ _ J L H1 G1) as (L1 & P1 & Ln & M1 & Ex1 & Rd1 & Rd2).
    destruct (step_motion _ _ _ _ _ _ I H G') as (v0 & t1 & t2 & w1 & w2 & Gw & Ht1 & _ & _ & _ & _ & _ & Sp & _ & Ad & Vl & _). assert (v0 = v) by congruence. subst v0.
    assert (sm_issued (s_vehicles s) k) as Is by (eapply issued_mem; eauto).
    destruct (exec_bound ops e s (OStep dt) s' k d Hh Ap Cast Hx eq_refl) as (_ & _ & Bd). destruct Bd as (_ & Bd); [reflexivity|split; [exact Is|]|].
    { intros v0 Q. assert (v0 = v) by congruence. subst v0. split; [exact (j_dst _ _ J)|apply J]. }
    destruct (Bd _ G') as (Dd & Pl).
    assert (on_track m v') as Tr. { destruct (step_track _ _ _ _ I H m _ _ G') as (v0 & Q & T). assert (v0 = v) by congruence. subst v0. apply T, J. }
    assert (Inv s') as I' by exact (exec_Inv _ _ _ _ I Hx).
    split.
    { constructor.
      - exists (ops ++ [OStep dt]). split; [eapply history_app; [exact Hh|econstructor; [exact Hx|constructor]]|]. unfold groups_apart in *. rewrite flat_map_app. cbn [flat_map]. rewrite !app_nil_r. exact Ap.
      - eapply same_net_trans; [apply J|exact Sn].
      - apply (single_net s); [apply J|exact Sn].
      - rewrite (frozen_step _ _ _ _ _ I H); [apply J|]. unfold vehicle_at in G'. congruence.
      - exact G'.
      - exact (step_lane_none e s dt s' v' v s1 v1 I H G' H1 G1 Ln G0).
      - exact Dd.
      - exact Pl.
      - exact Tr.
      - intros Q. rewrite Ce. apply Ex1. destruct Rt as [(Rt & _)|Rt]; [congruence|]. rewrite Rt in Q, Ne. rewrite last_tl in Q; auto. }
    split; [exact Sp|]. split; [exact Ad|]. split; [exact Vl|].
    destruct (step_position _ _ _ _ _ _ _ I H G0 G') as [(a0 & b & L0 & (l0 & Gl0 & Hc) & _)|(p & lid & la & L0 & Gl & Ep & Q)].
    { exfalso. destruct (j_open _ _ J a0 l0 Gl0) as (_ & Q). rewrite Q in Hc. destruct Hc. }
    assert (lid = a) by congruence. subst lid. exists la, p. split; [exact Gl|]. split; [exact Ep|]. destruct Q as [(Q1 & Q2 & Q3)|(Q1 & Q2 & b & Q3 & Q4)].
    - left. split; [exact Q1|]. split; [congruence|]. split; [exact Q3|].
      assert (v_route v' = v_route v1) as Er.
      { destruct Rt as [(Rt & _)|Rt]; auto. exfalso. apply (Acyc a). unfold v_link in L1. rewrite L in Q2.
        pose proof (vb_chain _ _ _ _ (st_veh _ _ _ (i_st _ I') _ _ G')) as Ch.
        assert (In a (tl (v_route v1))) as Ia. { rewrite <- Rt. unfold v_link in Q2. destruct (v_route v') as [|z r]; [discriminate Q2|]. injection Q2 as ->. left. reflexivity. }
        destruct (step_phases _ _ _ _ I H) as (t1' & s2 & s3 & s4 & s5 & P). assert (t1' = s1) by (pose proof (ph1 _ _ _ _ _ _ _ _ _ P); congruence). subst t1'.
        pose proof (vb_chain _ _ _ _ (st_veh _ _ _ (ps1 _ _ _ _ _ _ _ _ _ P) _ _ G1)) as Ch1. destruct (v_route v1) as [|z r]; [discriminate L1|]. injection L1 as ->.
        eapply clos_same; [eapply same_net_trans; [apply J|exact (pn1 _ _ _ _ _ _ _ _ _ P)]|]. eapply chain_tail; [exact Ch1|exact Ia]. }
      assert (ready v1 -> ready v') as Rr. { unfold ready. rewrite Er, Ce. auto. }
      auto.
    - right. split; [exact Q1|]. split; [exact Q2|]. exists b. split; [exact Q3|]. eapply same_succ; [apply J|exact Q4].
  Qed.
  Lemma alone_kept e s dt s' : alone s k -> Inv s -> step e s dt = Ok s' -> alone s' k.
  Proof. intros Al I H k2 v2 G2. destruct (step_motion _ _ _ _ _ _ I H G2) as (v0 & _ & _ & _ & _ & Q & _). exact (Al _ _ Q). Qed.
  Lemma alone_free e s dt s' v : alone s k -> trip s v -> step e s dt = Ok s' ->
    forall s1 v1, calculate_lane_changes e s = Ok s1 -> vehicle_at s1 k = Some v1 -> nobody_ahead s1 k v1.
  Proof.
    intros Al J H s1 v1 H1 G1. pose proof (trip_Inv _ _ J) as I. destruct (step_phases _ _ _ _ I H) as (t1 & s2 & s3 & s4 & s5 & P). assert (t1 = s1) by (pose proof (ph1 _ _ _ _ _ _ _ _ _ P); congruence). subst t1.
    apply alone_ahead; [exact (ps1 _ _ _ _ _ _ _ _ _ P)|exact G1| |].
    - intros k2 v2 G2. destruct (lane_changes_exact _ _ _ _ _ (i_st _ I) H1 G2) as (v0 & G0 & _). exact (Al _ _ G0).
    - eapply chain_nodup; [eapply same_net_trans; [apply J|exact (pn1 _ _ _ _ _ _ _ _ _ P)]|]. exact (vb_chain _ _ _ _ (st_veh _ _ _ (ps1 _ _ _ _ _ _ _ _ _ P) _ _ G1)).
  Qed.
End Trip.

(** ** How long it stays on a link *)
Section Time.
  Variables (k d : key) (N0 : @linkset RA) (m : matrix) (w : @vehicle RA) (limit vs dmax M P0 : R).
  Hypothesis Acyc : no_way_back N0.
  Hypothesis Clo : closed N0 d m.
  Hypothesis Snd : forall a, inM m a -> leads N0 a d.
  Hypothesis Room : forall x l, sm_get N0 x = Some l -> v_half_len w + 3 <= lk_length l /\ limit <= lk_limit l.
  Hypothesis Half : 0 <= v_half_len w.
  Hypothesis Lim : 0 < limit.
  Hypothesis Ma : 0 < max_acc w.
  Hypothesis Cd : 0 < comf_dec w.
  Hypothesis Sf : 0 < speed_factor w.
  Hypothesis Sl : slow w limit vs.
  Hypothesis Dm : 0 <= dmax.
  Hypothesis P0n : P0 <= 0.
  Hypothesis Mb : 3 / 10 + dmax <= M.

  Record going (s : @sim RA) (v : @vehicle RA) : Prop := {
    g_trip : trip k d N0 m s v;
    g_spec : spec_of v = spec_of w;
    g_fac : speed_factor v = speed_factor w;
    g_acc_t : - M <= s_acc_update s <= M;
    g_lc_t : - M <= s_lc_update s <= M;
    g_pos : P0 <= v_pos v }.
  Definition step_len : R := stride (max_acc w / 4) vs.
  Lemma going_vel s v : going s v -> 0 <= v_vel v.
  Proof. intros G. destruct (j_hist _ _ _ _ _ _ (g_trip _ _ G)) as (ops & Hh & _). eapply C08_speed_exact; [eapply history_reachable; [exact Hh|constructor]|exact (j_at _ _ _ _ _ _ (g_trip _ _ G))]. Qed.
  Lemma acc_low (v : @vehicle RA) : -6 <= acceleration v.
  Proof. unfold acceleration, am_get. rewrite max_R. apply Rmax_r. Qed.
  Lemma room_of s v x l : trip k d N0 m s v -> forall s1, same_net (s_links s) (s_links s1) -> link_at s1 x = Some l -> v_half_len w + 3 <= lk_length l /\ limit <= lk_limit l.
  Proof.
    intros J s1 S G. destruct (same_net_get _ _ _ _ (same_net_trans _ _ _ (j_net _ _ _ _ _ _ J) S) G) as (l0 & G0 & E). unfold lk_static in E. injection E as F1 F2 F3 F4 F5 F6 F7 F8 F9.
    destruct (Room _ _ G0) as (R1 & R2). unfold lk_length in *. rewrite <- F3, <- F8. auto.
  Qed.

  (** Nobody is ahead of it when the accelerations are computed in the next step. *)
  Definition no_one_ahead (e : @env RA) (s : @sim RA) : Prop := forall s1 v1, calculate_lane_changes e s = Ok s1 -> vehicle_at s1 k = Some v1 -> nobody_ahead s1 k v1 /\ no_cross s1 v1.
  (** Nothing holds it at the end of its link when the accelerations are computed in the next step. *)
  Definition next_open (e : @env RA) (s : @sim RA) : Prop := forall s1 v1, calculate_lane_changes e s = Ok s1 -> vehicle_at s1 k = Some v1 -> ~ held s1 v1.
  Lemma next_open_dec e s : next_open e s \/ exists s1 v1, calculate_lane_changes e s = Ok s1 /\ vehicle_at s1 k = Some v1 /\ held s1 v1.
  Proof.
    unfold next_open. destruct (calculate_lane_changes e s) as [s1| |] eqn:E1; [|left; intros; discriminate|left; intros; discriminate].
    destruct (vehicle_at s1 k) as [v1|] eqn:G1; [|left; intros t vv Q; injection Q as <-; rewrite G1; discriminate].
    destruct (held_dec s1 v1) as [Q|Q]; [right; exists s1, v1; auto|left]. intros t vv E. injection E as <-. rewrite G1. intros E. injection E as <-. exact Q.
  Qed.
  Lemma going_step e s dt s' v v' a : going s v -> step e s dt = Ok s' -> vehicle_at s' k = Some v' -> v_link v = Some a -> 0 <= dt <= dmax ->
    going s' v' /\
    exists la p, link_at s a = Some la /\ p = v_pos v + / 2 * (v_vel v + v_vel v') * dt /\ v_vel v' = Rmax (v_vel v + dt * acceleration v') 0 /\
      (p <= lk_length la /\ v_link v' = Some a /\ v_pos v' = p /\ (ready v -> ready v') /\ (3 / 10 <= s_lc_update s -> ready v') /\ (s_acc_update s < 1 / 10 -> acceleration v' = acceleration v) /\
       (no_one_ahead e s -> next_open e s -> ready v \/ 3 / 10 <= s_lc_update s -> 1 / 10 <= s_acc_update s -> v_vel v <= vs -> max_acc w / 4 <= acceleration v') \/
       lk_length la < p /\ v_pos v' = p - lk_length la /\ exists b, v_link v' = Some b /\ succ_of N0 a b).
  Proof.
    intros Gg H G' L Hdt. pose proof (g_trip _ _ Gg) as J. pose proof (trip_Inv _ _ _ _ _ _ J) as I.
    destruct (trip_step k d N0 m Acyc Clo Snd RA_cast) with (e := e) (s := s) (dt := dt) (s' := s') (v := v) (v' := v') (a := a) as (J' & Sp & Ad & Vl & la & p & Gla & Ep & Q); auto.
    { apply ltb_R. change (0 < IZR 200). lra. }
    destruct (step_timers _ _ _ _ I H) as (Ta & Tl). pose proof (going_vel _ _ Gg) as V0. destruct (g_acc_t _ _ Gg) as (A1 & A2). destruct (g_lc_t _ _ Gg) as (B1 & B2).
    change (@ACCELERATION_UPDATE_SEC RA) with (@lit RA 1 10) in *. change (@LANE_CHANGE_UPDATE_SEC RA) with (@lit RA 3 10) in *.
    assert (@lit RA 1 10 = 1 / 10) as L1 by (unfold lit; cbn; lra). assert (@lit RA 3 10 = 3 / 10) as L3 by (unfold lit; cbn; lra). rewrite L1, L3 in *.
    change (@n0 RA) with 0 in *. rewrite max_R in Vl. change (v_vel v' = Rmax (v_vel v + dt * acceleration v') 0) in Vl.
    assert (0 <= v_vel v') as V1 by (rewrite Vl; apply Rmax_r).
    assert (p = v_pos v + / 2 * (v_vel v + v_vel v') * dt) as Ep'. { rewrite Ep. unfold nhalf. cbn. lra. }
    assert (v_pos v <= p) as Pp. { rewrite Ep'. assert (0 <= (v_vel v + v_vel v') * dt) by (apply Rmult_le_pos; lra). lra. }
    assert (going s' v') as Gg'.
    { constructor; [exact J'|rewrite Sp; apply Gg|unfold speed_factor in *; rewrite Ad; apply Gg| | |].
      - rewrite Ta. destruct (nltb (s_acc_update s) (1 / 10)) eqn:E; [apply ltb_R in E|]; cbn; lra.
      - rewrite Tl. destruct (nltb (s_lc_update s) (3 / 10)) eqn:E; [apply ltb_R in E|]; cbn; lra.
      - pose proof (g_pos _ _ Gg). destruct Q as [(_ & _ & -> & _)|(Q1 & -> & _)]; [lra|]. apply ltb_R in Q1. cbn. assert (P0 <= 0) by exact P0n. lra. }
    split; [exact Gg'|]. exists la, p. split; [exact Gla|]. split; [exact Ep'|]. split; [exact Vl|].
    destruct Q as [(Q1 & Q2 & Q3 & Q4 & Q5)|(Q1 & Q2 & b & Q3 & Q4)].
    2:{ right. split; [apply ltb_R; exact Q1|]. split; [rewrite Q2; reflexivity|]. eauto. }
    left. apply ltb_R_false in Q1. split; [exact Q1|]. split; [exact Q2|]. split; [exact Q3|]. split; [exact Q4|]. split; [intros Q; apply Q5, ltb_R_false; exact Q|].
    split. { intros D. apply ltb_R in D. unfold acceleration. f_equal. apply (step_no_refresh e s dt s' k v v' I H (j_at _ _ _ _ _ _ J) G'). change (@ACCELERATION_UPDATE_SEC RA) with (@lit RA 1 10). rewrite L1. exact D. }
    { intros Free Nopen Rv D Vs. apply ltb_R_false in D. assert (ready v \/ nltb (s_lc_update s) (3 / 10) = false) as Rv2 by (destruct Rv as [Rv|Rv]; [auto|right; apply ltb_R_false; exact Rv]). clear Rv. rename Rv2 into Rv. pose proof (j_hist _ _ _ _ _ _ J) as (ops & Hh & _). pose proof (history_timers _ _ Hh) as (Tm & _).
      assert (due (@lit RA 1 10) ops = true) as Du by (unfold due; rewrite <- Tm, L1; rewrite D; reflexivity).
      destruct (step_exit _ _ _ _ _ _ I H G') as (v0 & v1 & s1 & G0 & H1 & G1 & _). pose proof (j_at _ _ _ _ _ _ J) as Gv. assert (v0 = v) by (unfold vehicle_at in Gv; congruence). subst v0.
      destruct (trip_choice k d N0 m Acyc Clo Snd) with (e := e) (s := s) (v := v) (s1 := s1) (v1 := v1) (a := a) as (L1' & P1 & _ & _ & _ & Rd1 & Rd2); auto.
      { apply ltb_R. change (0 < IZR 200). lra. }
      change (@LANE_CHANGE_UPDATE_SEC RA) with (@lit RA 3 10) in Rd2. rewrite L3 in Rd2.
      assert (ready v1) as Rv1 by (destruct Rv; auto).
      destruct (step_phases _ _ _ _ I H) as (t1 & s2 & s3 & s4 & s5 & P). assert (t1 = s1) by (pose proof (ph1 _ _ _ _ _ _ _ _ _ P); congruence). subst t1.
      destruct (step_motion _ _ _ _ _ _ I H G') as (v0 & t1 & t2 & w1 & w2 & Gw & Ht1 & _ & Gw1 & _ & Bd & _). assert (v0 = v) by (unfold vehicle_at in Gv; congruence). subst v0. assert (t1 = s1) by congruence. subst t1. assert (w1 = v1) by congruence. subst w1.
      apply body_spec in Bd. destruct Bd as (Bs & Ba & Bv & _).
      pose proof (single_net s s1 (j_open _ _ _ _ _ _ J) (pn1 _ _ _ _ _ _ _ _ _ P)) as Op1. pose proof (Free s1 v1 H1 G1) as Al1.
      pose proof (g_spec _ _ Gg) as Gs. rewrite <- Bs in Gs. pose proof (g_fac _ _ Gg) as Gf. assert (speed_factor v1 = speed_factor w) as Gf1 by (unfold speed_factor in *; congruence).
      unfold spec_of in Gs. injection Gs as _ S2 _ S4 S5 S6. assert (max_acc v1 = max_acc w) as S5' by exact S5. assert (comf_dec v1 = comf_dec w) as S6' by exact S6. assert (headway v1 = headway w) as S4' by exact S4.
      destruct (same_net_get' _ _ _ _ (pn1 _ _ _ _ _ _ _ _ _ P) Gla) as (la1 & Gla1 & Es). assert (lk_length la1 = lk_length la) as El by (unfold lk_static in Es; injection Es as F1 F2 F3 F4 F5 F6 F7 F8 F9; unfold lk_length; congruence).
      rewrite <- S5'. destruct (reason_gen RA_ord _ _ _ _ _ _ _ _ _ Hh H Du H1 G1 G') as [E|(y & Ry & E)]; [apply J| |].
      - rewrite E, max_R. eapply Rle_trans; [|apply Rmax_l]. lra.
      - rewrite E, max_R. eapply Rle_trans; [|apply Rmax_l]. 
        eapply (trip_reason s1 k v1 a la1 limit vs y); [exact (ps1 _ _ _ _ _ _ _ _ _ P)|exact G1|exact (proj1 Al1)|exact (proj2 Al1)|exact Op1|exact (Nopen s1 v1 H1 G1)| |lra|exact Lim|exact Rv1|exact L1'|exact Gla1| |lra|lra|lra| | |exact Ry].
        + intros x l Gx. rewrite S2. exact (room_of _ _ _ _ J _ (pn1 _ _ _ _ _ _ _ _ _ P) Gx).
        + rewrite P1, El. lra.
        + destruct Sl as [Z1 Z2 Z3 Z4]. constructor; rewrite ?Gf1, ?S4', ?S5', ?S6'; assumption.
        + rewrite Bv. lra. }
  Qed.
End Time.

(** ** Over all links *)
Lemma acyc_ind {A : Arith} (N0 : linkset) (P : key -> Prop) : no_way_back N0 -> (forall a, (forall b, succ_of N0 a b -> P b) -> P a) -> forall a, P a.
Proof.
  intros Acyc Ih. set (keys := map fst (sm_entries N0)).
  assert (forall n trail a, NoDup (a :: trail) -> incl trail keys -> (forall x, In x trail -> clos_trans key (succ_of N0) x a) -> (length keys - length trail <= n)%nat -> P a) as K.
  { induction n as [|n IH]; intros trail a Nd In1 Tr Ln; apply Ih; intros b Sb.
    all: assert (incl (a :: trail) keys) as In2 by (intros x [<-|Hx]; [destruct Sb as (l & G & _); apply in_map_iff; exists (a, l); split; [reflexivity|apply in_entries; exact G]|apply In1; exact Hx]).
    - exfalso. pose proof (NoDup_incl_length Nd In2) as Q. cbn [length] in Q. lia.
    - assert (forall x, In x (a :: trail) -> clos_trans key (succ_of N0) x b) as Tb. { intros x [<-|Hx]; [apply t_step; exact Sb|eapply t_trans; [apply Tr; exact Hx|apply t_step; exact Sb]]. }
      apply (IH (a :: trail)); [|exact In2|exact Tb|pose proof (NoDup_incl_length Nd In2) as Q; cbn [length] in *; lia].
      constructor; [|exact Nd]. intros Hb. apply (Acyc b). apply Tb. exact Hb. }
  intros a. apply (K (length keys) [] a); [repeat constructor; intros []|intros x []|intros x []|cbn; lia].
Qed.
Lemma gone_stays {A : Arith} (s : sim) dts s' k : history s (map OStep dts) s' -> Inv s -> vehicle_at s k = None -> vehicle_at s' k = None.
Proof.
  revert s. induction dts as [|dt dts IH]; intros s H I G; [inversion H; subst; exact G|]. inversion H as [|e s0 o s1 ops s2 Hx Hh]; subst. apply (IH s1 Hh); [eapply exec_Inv; eauto|].
  cbn [exec] in Hx. destruct (vehicle_at s1 k) as [v'|] eqn:G'; auto. exfalso. destruct (step_motion _ _ _ _ _ _ I Hx G') as (v & _ & _ & _ & _ & Q & _). unfold vehicle_at in G. congruence.
Qed.
Section All.
  Variables (k d : key) (N0 : @linkset RA) (m : matrix) (w : @vehicle RA) (limit vs dmax M P0 : R).
  Hypothesis Acyc : no_way_back N0.
  Hypothesis Clo : closed N0 d m.
  Hypothesis Snd : forall a, inM m a -> leads N0 a d.
  Hypothesis Room : forall x l, sm_get N0 x = Some l -> v_half_len w + 3 <= lk_length l /\ limit <= lk_limit l.
  Hypothesis Half : 0 <= v_half_len w.
  Hypothesis Lim : 0 < limit.
  Hypothesis Ma : 0 < max_acc w.
  Hypothesis Cd : 0 < comf_dec w.
  Hypothesis Sf : 0 < speed_factor w.
  Hypothesis Sl : slow w limit vs.
  Hypothesis Dm : 0 <= dmax.
  Hypothesis P0n : P0 <= 0.
  Hypothesis Mb : 3 / 10 + dmax <= M.
  (** What makes sure that nobody is ahead, as long as the vehicle is there. *)
  Variable Lead : @sim RA -> Prop.
  Hypothesis Qfree : forall e s dt s' v, Lead s -> going k d N0 m w M P0 s v -> 0 <= dt <= dmax -> step e s dt = Ok s' -> no_one_ahead k e s.
  Hypothesis Qstep : forall e s dt s' v v', Lead s -> going k d N0 m w M P0 s v -> 0 <= dt <= dmax -> step e s dt = Ok s' -> vehicle_at s' k = Some v' -> Lead s'.
  Let going := going k d N0 m w M P0.
  (** How long it waits until the next link is open when the accelerations are computed. *)
  Variables (Wait : key -> R -> @sim RA -> Prop) (Wb : key -> R).
  Hypothesis Wb0 : forall a, 0 <= Wb a.
  Hypothesis Wait_start : forall s v a, Lead s -> going s v -> v_link v = Some a -> Wait a 0 s.
  Hypothesis Wait_step : forall e s dt s' v v' a U, Lead s -> going s v -> v_link v = Some a -> 0 <= dt <= dmax -> step e s dt = Ok s' -> vehicle_at s' k = Some v' -> v_link v' = Some a ->
    Wait a U s -> s_acc_update s < 1 / 10 \/ (exists s1 v1, calculate_lane_changes e s = Ok s1 /\ vehicle_at s1 k = Some v1 /\ held s1 v1) -> Wait a (U + dt) s'.
  Hypothesis Wait_end : forall a U s, Wait a U s -> U <= Wb a.

  Definition round (a : key) : R := Wb a + M + dmax.
  Definition phase (a : key) (T : R) (s : @sim RA) (v : @vehicle RA) : Prop :=
    T <= s_lc_update s + M \/
    ready v /\ exists n,
      (exists U, Wait a U s /\ P0 + INR n * step_len w vs <= v_pos v /\ T <= 2 * M + dmax + INR n * round a + U) \/
      (exists p0 v0, 0 <= v0 /\ 0 <= s_acc_update s /\ kin (acceleration v) p0 v0 (s_acc_update s) (v_pos v) (v_vel v) /\ (v0 <= vs -> max_acc w / 4 <= acceleration v) /\
        P0 + INR n * step_len w vs <= p0 /\ T <= 2 * M + dmax + INR n * round a + Wb a + s_acc_update s).
  Lemma phase_step e s dt s' v v' a la p T : Lead s -> Lead s' -> going s v -> going s' v' -> step e s dt = Ok s' -> vehicle_at s' k = Some v' -> v_link v = Some a -> 0 <= dt <= dmax -> link_at s a = Some la ->
    p = v_pos v + / 2 * (v_vel v + v_vel v') * dt -> v_vel v' = Rmax (v_vel v + dt * acceleration v') 0 -> v_link v' = Some a -> v_pos v' = p -> (ready v -> ready v') -> (3 / 10 <= s_lc_update s -> ready v') ->
    (s_acc_update s < 1 / 10 -> acceleration v' = acceleration v) ->
    (next_open k e s -> ready v \/ 3 / 10 <= s_lc_update s -> 1 / 10 <= s_acc_update s -> v_vel v <= vs -> max_acc w / 4 <= acceleration v') ->
    phase a T s v -> phase a (T + dt) s' v'.
  Proof.
    intros Ls Ls' Gg Gg' H G' L Hdt Gla Ep Vl L' Pp Rk Rd Keep Fresh Ph. pose proof (trip_Inv _ _ _ _ _ _ (g_trip _ _ _ _ _ _ _ _ _ Gg)) as I.
    destruct (step_timers _ _ _ _ I H) as (Ta & Tl). pose proof (going_vel _ _ _ _ _ _ _ _ _ Gg) as V0. pose proof (going_vel _ _ _ _ _ _ _ _ _ Gg') as V1. destruct (g_acc_t _ _ _ _ _ _ _ _ _ Gg) as (A1 & A2). destruct (g_lc_t _ _ _ _ _ _ _ _ _ Gg) as (B1 & B2).
    change (@ACCELERATION_UPDATE_SEC RA) with (@lit RA 1 10) in *. change (@LANE_CHANGE_UPDATE_SEC RA) with (@lit RA 3 10) in *.
    assert (@lit RA 1 10 = 1 / 10) as L1 by (unfold lit; cbn; lra). assert (@lit RA 3 10 = 3 / 10) as L3 by (unfold lit; cbn; lra). rewrite L1, L3 in *. change (@n0 RA) with 0 in *.
    assert (v_pos v <= v_pos v') as Pm. { rewrite Pp, Ep. assert (0 <= (v_vel v + v_vel v') * dt) by (apply Rmult_le_pos; lra). lra. }
    pose proof (Wb0 a) as Wa. assert (round a = Wb a + M + dmax) as Er by reflexivity.
    assert (1 / 10 <= s_acc_update s -> s_acc_update s' = dt) as Tdue. { intros D. rewrite Ta. apply ltb_R_false in D. rewrite D. cbn. lra. }
    assert (s_acc_update s < 1 / 10 -> s_acc_update s' = s_acc_update s + dt) as Tnot. { intros D. rewrite Ta. apply ltb_R in D. rewrite D. reflexivity. }
    assert (1 / 10 <= s_acc_update s -> kin (acceleration v') (v_pos v) (v_vel v) (s_acc_update s') (v_pos v') (v_vel v')) as Kn'.
    { intros D. rewrite (Tdue D), Pp, Ep, Vl. replace dt with (0 + dt) at 1 by lra. apply (kin_step _ _ _ 0); [apply acc_low|lra|lra|apply kin_start; exact V0]. }
    destruct Ph as [Ph|(Rv & n & Ph)].
    - destruct (Rle_or_lt (3 / 10) (s_lc_update s)) as [D|D].
      + right. split; [auto|]. exists 0%nat. left. exists 0. split; [exact (Wait_start _ _ _ Ls' Gg' L')|]. cbn [INR]. pose proof (g_pos _ _ _ _ _ _ _ _ _ Gg'). split; [lra|]. lra.
      + left. rewrite Tl. apply ltb_R in D. rewrite D. cbn. lra.
    - right. split; [auto|]. destruct (Rle_or_lt (1 / 10) (s_acc_update s)) as [D|D].
      + specialize (Kn' D). specialize (Tdue D). assert (0 <= s_acc_update s') as Tp by (rewrite Tdue; lra).
        destruct (next_open_dec k e s) as [O|O].
        * assert (v_vel v <= vs -> max_acc w / 4 <= acceleration v') as Fr by auto.
          destruct Ph as [(U & Wt & N1 & N2)|(p0 & v0 & N1 & N2 & Kn & N3 & N4 & N5)].
          { exists n. right. exists (v_pos v), (v_vel v). pose proof (Wait_end _ _ _ Wt). rewrite Tdue in *. do 5 (split; [assumption|]). lra. }
          { exists (S n). right. exists (v_pos v), (v_vel v). rewrite Tdue in *. do 4 (split; [assumption|]). rewrite S_INR.
            assert (p0 + step_len w vs <= v_pos v) by (unfold step_len; eapply kin_end; [apply (acc_low v)| | |exact N1| |exact Kn|exact N3]; [lra|apply Sl|exact D]). split; lra. }
        * destruct Ph as [(U & Wt & N1 & N2)|(p0 & v0 & N1 & N2 & Kn & N3 & N4 & N5)].
          { exists n. left. exists (U + dt). split; [exact (Wait_step _ _ _ _ _ _ _ _ Ls Gg L Hdt H G' L' Wt (or_intror O))|]. split; lra. }
          { exists (S n). left. exists 0. split; [exact (Wait_start _ _ _ Ls' Gg' L')|]. rewrite S_INR.
            assert (p0 + step_len w vs <= v_pos v) by (unfold step_len; eapply kin_end; [apply (acc_low v)| | |exact N1| |exact Kn|exact N3]; [lra|apply Sl|exact D]). split; lra. }
      + specialize (Keep D). specialize (Tnot D). exists n. destruct Ph as [(U & Wt & N1 & N2)|(p0 & v0 & N1 & N2 & Kn & N3 & N4 & N5)].
        * left. exists (U + dt). split; [exact (Wait_step _ _ _ _ _ _ _ _ Ls Gg L Hdt H G' L' Wt (or_introl D))|]. split; lra.
        * right. exists p0, v0. split; [exact N1|]. split; [lra|]. split; [|split; [rewrite Keep; exact N3|split; [exact N4|lra]]].
          rewrite Tnot, Keep, Pp, Ep, Vl, Keep. apply kin_step; [apply acc_low|lra|exact N2|exact Kn].
  Qed.

  Definition link_time (a : key) (len : R) : R := 4 * M + 2 * dmax + Wb a + round a * ((len - P0) / step_len w vs).
  Lemma step_len_pos : 0 < step_len w vs.
  Proof. apply stride_pos; [lra|apply Sl]. Qed.
  Lemma phase_bound a s v T len : going s v -> v_pos v <= len -> phase a T s v -> T <= link_time a len.
  Proof.
    intros G Pl Ph. pose proof step_len_pos as Sp. destruct (g_acc_t _ _ _ _ _ _ _ _ _ G). destruct (g_lc_t _ _ _ _ _ _ _ _ _ G). pose proof (g_pos _ _ _ _ _ _ _ _ _ G). pose proof (Wb0 a) as Wa. assert (round a = Wb a + M + dmax) as Er by reflexivity.
    assert (0 <= (len - P0) / step_len w vs) as Q0 by (apply Rmult_le_pos; [lra|apply Rlt_le, Rinv_0_lt_compat; exact Sp]). assert (0 <= round a) as M0 by lra.
    assert (0 <= round a * ((len - P0) / step_len w vs)) as Q1 by (apply Rmult_le_pos; lra). unfold link_time.
    destruct Ph as [Ph|(_ & n & Ph)]; [lra|].
    assert (P0 + INR n * step_len w vs <= v_pos v /\ T <= 3 * M + dmax + INR n * round a + Wb a) as (Qp & Qt).
    { destruct Ph as [(U & Wt & N1 & N2)|(p0 & v0 & N1 & N2 & (K0 & _ & K2 & K3) & _ & N4 & N5)]; [pose proof (Wait_end _ _ _ Wt); lra|].
      assert (p0 <= v_pos v) as Pp.
      { destruct (Rle_or_lt 0 (acceleration v)) as [Q|Q]; [destruct (K3 Q) as (_ & K4)|pose proof (K2 Q) as K4].
        - assert (0 <= v0 * s_acc_update s) by (apply Rmult_le_pos; assumption). assert (0 <= acceleration v * s_acc_update s * s_acc_update s) by (apply Rmult_le_pos; [apply Rmult_le_pos|]; assumption). lra.
        - assert (0 <= v_vel v * s_acc_update s) by (apply Rmult_le_pos; assumption). lra. }
      lra. }
    assert (INR n <= (len - P0) / step_len w vs) as Qn. { apply Rmult_le_reg_r with (step_len w vs); [exact Sp|]. unfold Rdiv. rewrite Rmult_assoc, Rinv_l by lra. lra. }
    assert (INR n * round a <= (len - P0) / step_len w vs * round a) by (apply Rmult_le_compat_r; assumption). lra.
  Qed.
  Lemma phase_start a s v : going s v -> phase a 0 s v.
  Proof. intros G. left. destruct (g_lc_t _ _ _ _ _ _ _ _ _ G). lra. Qed.

  (** It is gone, still there, or has come to a following link in time. *)
  Lemma on_link a la dts : sm_get N0 a = Some la -> forall s v T s', Lead s -> going s v -> v_link v = Some a -> phase a T s v -> T <= link_time a (lk_length la) -> history s (map OStep dts) s' -> List.Forall (fun dt => 0 <= dt <= dmax) dts ->
    vehicle_at s' k = None \/ T + total dts <= link_time a (lk_length la) \/
    exists d1 d2 b s1 v1, dts = d1 ++ d2 /\ T + total d1 <= link_time a (lk_length la) + dmax /\ Lead s1 /\ going s1 v1 /\ v_link v1 = Some b /\ succ_of N0 a b /\ history s1 (map OStep d2) s'.
  Proof.
    intros Ga. induction dts as [|dt dts IH]; intros s v T s' Qs G L Ph Tb H Fd; [right; left; cbn; lra|]. inversion H as [|e s0 o s1 ops s2 Hx Hh]; subst. inversion Fd as [|x xs Hd Fd']; subst.
    pose proof (trip_Inv _ _ _ _ _ _ (g_trip _ _ _ _ _ _ _ _ _ G)) as I. pose proof (exec_Inv _ _ _ _ I Hx) as I1. cbn [exec] in Hx. pose proof (Qfree _ _ _ _ _ Qs G Hd Hx) as Fr0.
    destruct (vehicle_at s1 k) as [v1|] eqn:G1; [|left; eapply gone_stays; eauto].
    pose proof (Qstep _ _ _ _ _ _ Qs G Hd Hx G1) as Qs1.
    destruct (going_step k d N0 m w limit vs dmax M P0 Acyc Clo Snd Room Half Lim Ma Cd Sf Sl Dm P0n Mb _ _ _ _ _ _ _ G Hx G1 L Hd) as (Gg & la1 & p & Gl & Ep & Ev & Mv).
    assert (lk_length la1 = lk_length la) as El. { destruct (same_net_get _ _ _ _ (j_net _ _ _ _ _ _ (g_trip _ _ _ _ _ _ _ _ _ G)) Gl) as (l0 & G0 & E). assert (l0 = la) by congruence. subst l0. unfold lk_static in E. injection E as F1 F2 F3 F4 F5 F6 F7 F8 F9. unfold lk_length. congruence. }
    destruct Mv as [(Q1 & Q2 & Q3 & X1 & X2 & X3 & X4)|(Q1 & Q2 & b & Q3 & Q4)].
    - assert (phase a (T + dt) s1 v1) as Ph1 by (eapply (phase_step e s dt s1 v v1 a la1 p T); eauto). assert (T + dt <= link_time a (lk_length la)) as Tb1 by (eapply phase_bound; [exact Gg| |exact Ph1]; lra).
      destruct (IH s1 v1 (T + dt) s' Qs1 Gg Q2 Ph1 Tb1 Hh Fd') as [R|[R|(d1 & d2 & b & s3 & v3 & E & R1 & R6 & R2 & R3 & R4 & R5)]]; [left; exact R|right; left; change (total (dt :: dts)) with (dt + total dts); lra|].
      right. right. exists (dt :: d1), d2, b, s3, v3. split; [rewrite E; reflexivity|]. split; [change (total (dt :: d1)) with (dt + total d1); lra|]. auto.
    - right. right. exists [dt], dts, b, s1, v1. split; [reflexivity|]. split; [cbn; lra|]. auto.
  Qed.
  Lemma total_app d1 d2 : total (d1 ++ d2) = total d1 + total d2.
  Proof. induction d1 as [|x d1 IH]; cbn [app total fold_right] in *; [unfold total; lra|]. unfold total in *. rewrite IH. lra. Qed.

  Lemma leaves_in_time : forall a, exists B, forall s v, Lead s -> going s v -> v_link v = Some a -> forall dts s', history s (map OStep dts) s' -> List.Forall (fun dt => 0 <= dt <= dmax) dts -> B <= total dts -> vehicle_at s' k = None.
  Proof.
    apply (acyc_ind N0); [exact Acyc|]. intros a IH.
    destruct (sm_get N0 a) as [la|] eqn:Ga.
    2:{ exists 0. intros s v Qs G L. exfalso. destruct (link_src _ _ _ _ (trip_Inv _ _ _ _ _ _ (g_trip _ _ _ _ _ _ _ _ _ G)) (j_at _ _ _ _ _ _ (g_trip _ _ _ _ _ _ _ _ _ G)) L) as (_ & V).
        apply (same_net_valid _ _ _ (j_net _ _ _ _ _ _ (g_trip _ _ _ _ _ _ _ _ _ G))) in V. apply sm_mem_get in V. destruct V as (l & Q). congruence. }
    assert (exists B, 0 <= B /\ forall b, In b (lk_out la) -> forall s v, Lead s -> going s v -> v_link v = Some b -> forall dts s', history s (map OStep dts) s' -> List.Forall (fun dt => 0 <= dt <= dmax) dts -> B <= total dts -> vehicle_at s' k = None) as (B & B0 & HB).
    { assert (forall b, In b (lk_out la) -> exists B, forall s v, Lead s -> going s v -> v_link v = Some b -> forall dts s', history s (map OStep dts) s' -> List.Forall (fun dt => 0 <= dt <= dmax) dts -> B <= total dts -> vehicle_at s' k = None) as K.
      { intros b Hb. apply IH. exists la. auto. }
      clear IH. induction (lk_out la) as [|b bs IHb]; [exists 0; split; [lra|intros b []]|]. destruct (K b (or_introl eq_refl)) as (B1 & H1). destruct IHb as (B2 & Z2 & H2); [intros; apply K; right; assumption|].
      exists (Rmax B1 B2). split; [eapply Rle_trans; [exact Z2|apply Rmax_r]|]. intros b' [<-|Hb] s v Qs G L dts s' Hh Fd Tb; [eapply H1|eapply (H2 b' Hb)]; eauto; eapply Rle_trans; [apply Rmax_l|exact Tb|apply Rmax_r|exact Tb]. }
    exists (Rmax 0 (link_time a (lk_length la)) + dmax + B + 1). intros s v Qs G L dts s' Hh Fd Tb. pose proof (Rmax_l 0 (link_time a (lk_length la))). pose proof (Rmax_r 0 (link_time a (lk_length la))).
    set (Z := Rmax 0 (link_time a (lk_length la))) in *.
    destruct dts as [|dt dts]; [exfalso; cbn in Tb; lra|]. 
    assert (0 <= link_time a (lk_length la)) as L0. { unfold link_time. destruct (Room _ _ Ga) as (Rm & _). pose proof step_len_pos. assert (0 <= (lk_length la - P0) / step_len w vs) by (apply Rmult_le_pos; [lra|apply Rlt_le, Rinv_0_lt_compat; assumption]). pose proof (Wb0 a). assert (0 <= round a * ((lk_length la - P0) / step_len w vs)) by (apply Rmult_le_pos; [unfold round|]; lra). lra. }
    destruct (on_link a la (dt :: dts) Ga s v 0 s' Qs G L (phase_start a _ _ G) L0 Hh Fd) as [R|[R|(d1 & d2 & b & s1 & v1 & E & R1 & R6 & R2 & R3 & R4 & R5)]]; [exact R|exfalso; lra|].
    destruct R4 as (la' & Ga' & Hb). assert (la' = la) by congruence. subst la'. rewrite E in *. rewrite total_app in Tb. apply Forall_app in Fd. eapply (HB b Hb); eauto; [apply Fd|lra].
  Qed.
End All.
