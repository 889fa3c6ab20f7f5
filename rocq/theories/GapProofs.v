(** * Lemmas about the gaps between vehicles (P_Gap.v) *)
From Coq Require Import List Bool ZArith NArith Arith Lia Reals Lra.
From Verif Require Import Arith RealArith Base BaseProofs SlotMap Util Geom Light Accel Net Path Vehicle LinkOps Sim SpecSim SpecMotion SlotMapProofs Safe NetInv SimInv AccSafe SimSafe StepSafe OpSafe Evo StepEvo SimProofs StepProofs Ord LogProofs Motion RFacts NetEvo P_Motion SpecGap GapKin.
Import ListNotations.

Section Lists.
  Context {A : Arith}.
  Lemma upd_other links k0 f links' k : upd_link links k0 f = Ok links' -> k <> k0 -> sm_get links' k = sm_get links k.
  Proof.
    unfold upd_link, get_link. intros H N. bok H l Hl. bok H l1 Hl1. injection H as <-. rewrite sm_get_set. destruct (key_eqb_spec k0 k); [congruence|]. reflexivity.
  Qed.
  (** Lane changes leave a link alone that none of them enters or leaves. *)
  Lemma lane_changes_other e s s1 x : St (s_links s) (s_vehicles s) (s_seq s) -> calculate_lane_changes e s = Ok s1 ->
    (forall y, ~ chg_of (s_links s) y x /\ ~ chg_of (s_links s) x y) -> sm_get (s_links s1) x = sm_get (s_links s) x.
  Proof.
    intros I H N. unfold calculate_lane_changes in H. destruct (nltb _ _); [injection H as <-; reflexivity|].
    bok H r Hr. destruct r as [acc vs]. cbn [fst snd] in H. destruct (choose_all_evo _ _ _ _ _ I Hr) as (K1 & Nd & K3).
    set (s0 := with_vehicles (with_lc_update s n0) vs) in *.
    assert (forall k p, In (k, p) acc -> forall v, sm_get (s_vehicles s0) k = Some v -> exists a b, v_link v = Some a /\ hd_error (pt_links p) = Some b /\ a <> x /\ b <> x) as K.
    { intros k p Hin v Gv. destruct (K3 _ _ Hin) as (v0 & a & b & G0 & L & Hh & C & _). cbn in Gv. destruct (K1 _ _ Gv) as (v1 & G1 & _ & ((L1 & _) & _) & _).
      assert (v1 = v0) by congruence. subst v1. exists a, b. split; [congruence|]. split; [exact Hh|]. split; intros E; rewrite E in C; [exact (proj2 (N b) C)|exact (proj1 (N a) C)]. }
    assert (sm_get (s_links s0) x = sm_get (s_links s) x) as E0 by reflexivity. rewrite <- E0. clear E0 Hr K1 K3. clearbody s0. clear I N.
    revert s0 H K. induction acc as [|vp acc IH]; intros s0 H K; cbn [foldM] in H; [injection H as <-; reflexivity|].
    bok H s2 H2. cbn [map] in Nd. inversion Nd as [|? ? N1 N2]; subst.
    destruct (exec_change_evo _ _ _ _ H2) as (v & v1 & b & Gv & Hb & Es & _).
    destruct vp as [k p]. cbn [fst snd] in *. destruct (K k p (or_introl eq_refl) v Gv) as (a & b' & La & Hb' & Na & Nb). assert (b' = b) by congruence. subst b'.
    rewrite (IH N2 s2 H).
    - unfold exec_change in H2. cbn [fst snd] in H2. rewrite Hb in H2. cbn [of_option bind] in H2. bok H2 s3 H3. bok H2 v3 Hv3. injection H2 as <-. cbn [s_links with_vehicles].
      unfold do_lane_change in H3. unfold get_vehicle in H3. rewrite Gv in H3. cbn [of_option bind] in H3. rewrite La in H3. bok H3 links Hl. bok H3 l Hg. bok H3 o Ho. bok H3 t Ht. destruct t as [[pos off] sl].
      bok H3 v4 Hv4. bok H3 links2 Hl2. injection H3 as <-. cbn [s_links with_links]. rewrite (upd_other _ _ _ _ _ Hl2) by congruence. apply (upd_other _ _ _ _ _ Hl). congruence.
    - intros k' p' Hin w Gw. rewrite Es, !sm_get_set in Gw. assert (k' <> k) as Nk. { intros ->. apply N1. change k with (fst (k, p')). apply in_map. exact Hin. }
      destruct (key_eqb_spec k k'); [congruence|]. cbn [andb] in Gw. apply (K k' p'); [right; exact Hin|exact Gw].
  Qed.
End Lists.

Local Open Scope R_scope.

(** ** One vehicle, one step *)
Lemma vel0_R (s : @sim RA) k v : reachable s -> sm_get (s_vehicles s) k = Some v -> 0 <= (v_vel v : R).
Proof. intros R G. pose proof (vel_nonneg RA_ord zero_nan_R _ _ _ R G) as H. apply leb_R in H. exact H. Qed.
Lemma acc_low_R (v : @vehicle RA) : -6 <= (acceleration v : R).
Proof. pose proof (am_get_low RA_ord decel_nan_R (v_acc v)) as H. apply leb_R in H. exact H. Qed.
Lemma acc_high_R (s : @sim RA) k v : reachable s -> sm_get (s_vehicles s) k = Some v -> 0 <= (max_acc v : R) -> (acceleration v : R) <= max_acc v.
Proof.
  intros R G P. pose proof (am_get_high RA_ord _ _ _ R G) as H. assert (@nleb RA (@MAX_DECEL RA) (am_max (v_acc v)) = true) as E.
  { apply leb_R. unfold MAX_DECEL. unR. unfold max_acc in P. cbn in *. lra. }
  apply H in E. apply leb_R in E. exact E.
Qed.
(** A vehicle that a step leaves on its link. *)
Lemma stay_step e (s : @sim RA) (dt : R) s' k v v' lid : reachable s -> step e s dt = Ok s' -> sm_get (s_vehicles s) k = Some v -> sm_get (s_vehicles s') k = Some v' ->
  v_link v = Some lid -> v_link v' = Some lid -> plain_road s lid ->
  spec_of v' = spec_of v /\ (v_pos v' : R) = v_pos v + (v_vel v + v_vel v') / 2 * dt /\ (v_vel v' : R) = Rmax (v_vel v + dt * acceleration v') 0 /\
  exists s1 v1, calculate_lane_changes e s = Ok s1 /\ sm_get (s_vehicles s1) k = Some v1 /\ v_pos v1 = v_pos v /\ v_half_len v1 = v_half_len v /\ v_vel v1 = v_vel v /\ v_acc v1 = v_acc v /\ v_link v1 = Some lid /\ St (s_links s1) (s_vehicles s1) (s_seq s1).
Proof.
  intros R H G G' L L' (Ns & Nc). pose proof (reachable_Inv _ R) as I.
  destruct (step_motion _ _ _ _ _ _ I H G') as (v0 & s1 & s2 & v1 & v2 & G0 & H1 & H2 & G1 & G2 & B & Kp & Sp & Ea & _ & Ev & St1 & _). assert (v0 = v) by congruence. subst v0.
  split; [exact Sp|]. split.
  - destruct (step_position _ _ _ _ _ _ _ I H G G') as [(a & b & La & C & _)|(p & x & l & Lx & Gl & Ep & [(_ & _ & Epos)|(_ & _ & x' & Lx' & C)])].
    + exfalso. assert (a = lid) by congruence. subst a. exact (proj2 (Nc b) C).
    + rewrite Epos, Ep, half_R. unR. lra.
    + exfalso. assert (x = lid) by congruence. assert (x' = lid) by congruence. subst x x'. exact (Ns C).
  - split.
    + rewrite Ev. unfold acceleration. apply max_R.
    + exists s1, v1. split; [exact H1|]. split; [exact G1|]. destruct (lane_changes_evo _ _ _ (i_st _ I) H1 _ _ G1) as (v0 & G0' & Rl). assert (v0 = v) by congruence. subst v0.
      destruct Rl as (_ & [(L1 & P1 & _)|(a & b & M1 & M2 & M3 & M4)] & _).
      2: { exfalso. assert (a = lid) by congruence. subst a. exact (proj2 (Nc b) M3). }
      apply body_spec in B. destruct B as (Sb & Ba & Bv & _). unfold spec_of in Sb. injection Sb as _ Eh _ _ _ _. split; [exact P1|]. split; [exact Eh|]. split; [exact Bv|]. split; [exact Ba|]. split; [congruence|exact St1].
Qed.
(** The gap that the driver model keeps. *)
Lemma driver_room V d (v : @vehicle RA) (u g A : R) : careful V d v -> 0 <= d -> 0 <= (v_vel v : R) <= V -> -6 <= A ->
  A <= Rmax (idm (v_acc v) g (v_vel v) u) (-6) -> A = -6 \/ K (max_acc v) (d / 2) (refresh_time d) (v_vel v) u g.
Proof.
  intros (Ca & Cb & C1 & C2) Hd Hv Al Ah. destruct (Rle_dec A (-6)) as [L|L]; [left; lra|right].
  assert (-6 < (idm (v_acc v) g (v_vel v) u : R)) as Hi. { unfold Rmax in Ah. destruct (Rle_dec _ _); lra. }
  unfold idm in Hi. cbv zeta in Hi. destruct (@nleb RA g (@MIN_GAP RA)) eqn:E.
  { exfalso. unfold max_acc in Ca. cbn in Hi, Ca. lra. }
  apply leb_R_false in E. assert (2 < g) as Hg by (unfold MIN_GAP, n2 in E; unR; lra).
  unfold max_acc, comf_dec, headway in *. set (a := am_max (v_acc v) : R) in *. set (b := am_comf (v_acc v) : R) in *. set (T := am_headway (v_acc v) : R) in *. set (w := v_vel v : R) in *.
  apply (K_driver a b T V d w u g); auto; lra.
Qed.

(** ** A vehicle and the one in front of it *)
Definition kept (d : R) (k k2 : key) (s : @sim RA) : Prop :=
  exists v v2, sm_get (s_vehicles s) k = Some v /\ sm_get (s_vehicles s) k2 = Some v2 /\
    (acceleration v = -6 /\ K (max_acc v) (d / 2) 0 (v_vel v) (v_vel v2) (gap v v2) \/
     exists r, 0 <= r /\ refresh_time d <= r + s_acc_update s /\ K (max_acc v) (d / 2) r (v_vel v) (v_vel v2) (gap v v2)).

Lemma spec_parts (v v' : @vehicle RA) : spec_of v' = spec_of v -> v_half_len v' = v_half_len v /\ headway v' = headway v /\ max_acc v' = max_acc v /\ comf_dec v' = comf_dec v.
Proof. unfold spec_of, headway, max_acc, comf_dec. intros H. injection H as _ -> _ -> -> ->. auto. Qed.
Lemma careful_same V d (v v' : @vehicle RA) : spec_of v' = spec_of v -> careful V d v -> careful V d v'.
Proof. intros E. apply spec_parts in E. destruct E as (_ & E1 & E2 & E3). unfold careful. rewrite E1, E2, E3. auto. Qed.

Lemma step_R_timer e (s : @sim RA) (dt : R) s' : Inv s -> step e s dt = Ok s' ->
  (s_acc_update s' : R) = (if Rlt_dec (s_acc_update s) (1 / 10) then (s_acc_update s : R) else 0) + dt.
Proof.
  intros I H. destruct (step_timers _ _ _ _ I H) as (Et & _). rewrite Et. unfold ACCELERATION_UPDATE_SEC. assert (@lit RA 1 10 = 1 / 10) as -> by (unfold lit; unR; lra).
  destruct (@nltb RA (s_acc_update s) (1 / 10)) eqn:E; [apply ltb_R in E|apply ltb_R_false in E]; destruct Rlt_dec; try lra; unR; reflexivity.
Qed.
Lemma not_due_R (s : @sim RA) : (s_acc_update s : R) < 1 / 10 -> @nltb RA (s_acc_update s) ACCELERATION_UPDATE_SEC = true.
Proof. intros H. unfold ACCELERATION_UPDATE_SEC. assert (@lit RA 1 10 = 1 / 10) as -> by (unfold lit; unR; lra). apply ltb_R. exact H. Qed.
Lemma due_R (s : @sim RA) : 1 / 10 <= (s_acc_update s : R) -> @nltb RA (s_acc_update s) ACCELERATION_UPDATE_SEC = false.
Proof. intros H. unfold ACCELERATION_UPDATE_SEC. assert (@lit RA 1 10 = 1 / 10) as -> by (unfold lit; unR; lra). apply ltb_R_false. exact H. Qed.

(** What a step does to the room in front of a vehicle, given what the leader does and, if the
    accelerations are refreshed, how the vehicle reacts. *)
Lemma room_gen V d e (s : @sim RA) (dt : R) s' (v v' : @vehicle RA) (u u' g : R) : Inv s -> 0 <= dt <= d -> step e s dt = Ok s' ->
  spec_of v' = spec_of v -> (v_vel v' : R) = Rmax (v_vel v + dt * acceleration v') 0 -> (acceleration v' : R) <= max_acc v ->
  ((s_acc_update s : R) < 1 / 10 -> v_acc v' = v_acc v) ->
  careful V d v -> 0 <= (v_vel v : R) <= V -> 0 <= u -> 0 <= u' -> u - 6 * dt <= u' ->
  (1 / 10 <= (s_acc_update s : R) -> (acceleration v' : R) <= Rmax (idm (v_acc v) g (v_vel v) u) (-6) \/ K (max_acc v) (d / 2) (refresh_time d) (v_vel v) u g) ->
  acceleration v = -6 /\ K (max_acc v) (d / 2) 0 (v_vel v) u g \/ (exists r, 0 <= r /\ refresh_time d <= r + s_acc_update s /\ K (max_acc v) (d / 2) r (v_vel v) u g) ->
  let g' := g + (u + u') / 2 * dt - (v_vel v + v_vel v') / 2 * dt in
  acceleration v' = -6 /\ K (max_acc v') (d / 2) 0 (v_vel v') u' g' \/ exists r, 0 <= r /\ refresh_time d <= r + s_acc_update s' /\ K (max_acc v') (d / 2) r (v_vel v') u' g'.
Proof.
  intros I Hdt H Sp Ev Ah Nr Cf (V0 & HV) Hu Hu' Lu Hr J g'.
  destruct (spec_parts _ _ Sp) as (_ & _ & Em & _). pose proof (acc_low_R v') as Al.
  assert (0 <= (v_vel v' : R)) as V0' by (rewrite Ev; apply Rmax_r).
  assert (0 < (max_acc v : R)) as Pm by (destruct Cf as (Ca & _); lra).
  assert ((v_vel v' : R) <= v_vel v + max_acc v * dt) as Lv.
  { rewrite Ev. apply Rmax_lub; [|assert (0 <= max_acc v * dt) by (apply Rmult_le_pos; lra); lra]. rewrite (Rmult_comm dt). assert (acceleration v' * dt <= max_acc v * dt) by (apply Rmult_le_compat_r; lra). lra. }
  pose proof (step_R_timer _ _ _ _ I H) as Et. rewrite Em.
  assert (K (max_acc v) (d / 2) 0 (v_vel v) u g) as K0.
  { destruct J as [(_ & J)|(r & R1 & _ & J)]; [exact J|]. apply (K_mono _ _ r); try lra; auto. }
  assert (acceleration v' = -6 -> acceleration v' = -6 /\ K (max_acc v) (d / 2) 0 (v_vel v') u' g') as Br.
  { intros E. split; [exact E|]. apply K_brake; try lra; auto. rewrite Ev, E. reflexivity. }
  destruct (Rlt_dec (s_acc_update s) (1 / 10)) as [Lt|Nlt].
  - destruct J as [(E & J)|(r & R1 & R2 & J)].
    + left. apply Br. unfold acceleration in *. rewrite (Nr Lt). exact E.
    + right. exists (r - dt). unfold refresh_time in *. split; [lra|]. split; [rewrite Et; lra|]. apply K_hold; try lra; auto.
  - assert (acceleration v' = -6 \/ K (max_acc v) (d / 2) (refresh_time d) (v_vel v) u g) as [E|Kd].
    { destruct Hr as [Hr|Hr]; [lra| |right; exact Hr]. destruct (driver_room V d v u g (acceleration v') Cf ltac:(lra) (conj V0 HV) Al Hr) as [E|Kd]; auto. }
    + left. auto.
    + right. exists (refresh_time d - dt). unfold refresh_time in *. split; [lra|]. split; [rewrite Et; lra|]. apply K_hold; try lra; auto.
Qed.
Lemma room_step V d e (s : @sim RA) (dt : R) s' k v v' lid (u u' g : R) : reachable s -> 0 <= dt <= d -> step e s dt = Ok s' ->
  sm_get (s_vehicles s) k = Some v -> sm_get (s_vehicles s') k = Some v' -> v_link v = Some lid -> v_link v' = Some lid -> plain_road s lid ->
  careful V d v -> (v_vel v : R) <= V -> 0 <= u -> 0 <= u' -> u - 6 * dt <= u' ->
  (1 / 10 <= (s_acc_update s : R) -> (acceleration v' : R) <= Rmax (idm (v_acc v) g (v_vel v) u) (-6) \/ K (max_acc v) (d / 2) (refresh_time d) (v_vel v) u g) ->
  acceleration v = -6 /\ K (max_acc v) (d / 2) 0 (v_vel v) u g \/ (exists r, 0 <= r /\ refresh_time d <= r + s_acc_update s /\ K (max_acc v) (d / 2) r (v_vel v) u g) ->
  let g' := g + (u + u') / 2 * dt - (v_vel v + v_vel v') / 2 * dt in
  acceleration v' = -6 /\ K (max_acc v') (d / 2) 0 (v_vel v') u' g' \/ exists r, 0 <= r /\ refresh_time d <= r + s_acc_update s' /\ K (max_acc v') (d / 2) r (v_vel v') u' g'.
Proof.
  intros Rc Hdt H G G' L L' Pr Cf HV Hu Hu' Lu Hr J g'. pose proof (reachable_Inv _ Rc) as I. pose proof (reach_call e s (@OStep RA dt) s' Rc H) as R'.
  destruct (stay_step _ _ _ _ _ _ _ _ Rc H G G' L L' Pr) as (Sp & _ & Ev & _). destruct (spec_parts _ _ Sp) as (_ & _ & Em & _).
  pose proof (vel0_R _ _ _ Rc G) as V0. assert (0 < (max_acc v : R)) as Pm by (destruct Cf as (Ca & _); lra).
  apply (room_gen V d e s dt s' v v'); auto.
  - rewrite <- Em. apply (acc_high_R s' k v' R' G'). rewrite Em. lra.
  - intros Lt. apply (step_no_refresh _ _ _ _ _ _ _ I H G G' (not_due_R _ Lt)).
Qed.

(** ** The vehicle in front *)
Lemma behind_on (s : @sim RA) lid l k k2 : Inv s -> sm_get (s_links s) lid = Some l -> right_behind l k k2 ->
  exists v v2, sm_get (s_vehicles s) k = Some v /\ v_link v = Some lid /\ sm_get (s_vehicles s) k2 = Some v2 /\ v_link v2 = Some lid.
Proof.
  intros I Gl (pre & post & El). pose proof (i_st _ I) as St0. destruct (st_occ _ _ _ St0 _ _ Gl) as (_ & Oc).
  assert (forall x, In x (lk_vehicles l) -> exists v, sm_get (s_vehicles s) x = Some v /\ v_link v = Some lid) as On.
  { intros x Hx. apply Oc in Hx. unfold at_of in Hx. destruct (sm_get (s_vehicles s) x) as [v|]; [eauto|discriminate Hx]. }
  destruct (On k) as (v & G & L); [rewrite El; apply in_or_app; right; left; reflexivity|].
  destruct (On k2) as (v2 & G2 & L2); [rewrite El; apply in_or_app; right; right; left; reflexivity|]. eauto 8.
Qed.
Lemma call_keeps e (s : @sim RA) o s' k v v' : reachable s -> exec e s o = Ok s' -> is_step o = false -> (forall x y, o <> OLaneChange k x y) ->
  sm_get (s_vehicles s) k = Some v -> sm_get (s_vehicles s') k = Some v' ->
  spec_of v' = spec_of v /\ v_vel v' = v_vel v /\ acceleration v' = acceleration v /\ v_pos v' = v_pos v /\ v_link v' = v_link v /\ v_route v' = v_route v /\ v_entered v' = v_entered v.
Proof.
  intros Rc H Es N G G'. pose proof (reachable_Inv _ Rc) as I.
  destruct (exec_body _ _ _ _ _ _ I H Es G') as [(w & Gw & Sp & Ev & Ea & _)|(a & x & _ & E & _)]; [|congruence]. assert (w = v) by congruence. subst w.
  destruct (exec_vehicle _ _ _ _ _ _ I H Es G') as [(w & Gw' & _ & _ & _ & _ & [(L & P & Ro & En)|(x & y & E & _)])|(a & x & _ & N2 & _)].
  - assert (w = v) by congruence. subst w. split; [exact Sp|]. split; [exact Ev|]. split; [unfold acceleration, am_get; rewrite Ea; reflexivity|]. auto.
  - exfalso. exact (N _ _ E).
  - exfalso. apply N2. eapply issued_mem; eauto.
Qed.
Lemma room_call d e (s : @sim RA) o s' (v v' : @vehicle RA) (u g : R) : reachable s -> exec e s o = Ok s' -> is_step o = false ->
  spec_of v' = spec_of v -> v_vel v' = v_vel v -> acceleration v' = acceleration v ->
  acceleration v = -6 /\ K (max_acc v) (d / 2) 0 (v_vel v) u g \/ (exists r, 0 <= r /\ refresh_time d <= r + s_acc_update s /\ K (max_acc v) (d / 2) r (v_vel v) u g) ->
  acceleration v' = -6 /\ K (max_acc v') (d / 2) 0 (v_vel v') u g \/ exists r, 0 <= r /\ refresh_time d <= r + s_acc_update s' /\ K (max_acc v') (d / 2) r (v_vel v') u g.
Proof.
  intros Rc H Es Sp Ev Ea J. destruct (spec_parts _ _ Sp) as (_ & _ & Em & _). destruct (exec_timers _ _ _ _ (reachable_Inv _ Rc) H Es) as (Et & _).
  rewrite Em, Ev, Ea, Et. exact J.
Qed.

Lemma pair_step V d e (s : @sim RA) o s' lid k k2 v : reachable s -> keep_lanes d [k; k2] o -> exec e s o = Ok s' ->
  follows V lid k k2 s -> follows V lid k k2 s' -> sm_get (s_vehicles s) k = Some v -> careful V d v -> kept d k k2 s -> kept d k k2 s'.
Proof.
  intros Rc Q H (Pr & l & v0 & v2 & Gl & Rb & G0 & G2 & HV) (_ & l' & v' & v2' & Gl' & Rb' & G' & G2' & HV') G Cf J.
  unfold link_at, vehicle_at in *. assert (v0 = v) by congruence. subst v0. pose proof (reachable_Inv _ Rc) as I. pose proof (reach_call _ _ _ _ Rc H) as Rc'. pose proof (reachable_Inv _ Rc') as I'.
  destruct (behind_on _ _ _ _ _ I Gl Rb) as (w & w2 & E1 & L & E2 & L2). assert (w = v) by congruence. assert (w2 = v2) by congruence. subst w w2. clear E1 E2.
  destruct (behind_on _ _ _ _ _ I' Gl' Rb') as (w & w2 & E1 & L' & E2 & L2'). assert (w = v') by congruence. assert (w2 = v2') by congruence. subst w w2. clear E1 E2.
  destruct J as (w & w2 & E1 & E2 & J). assert (w = v) by congruence. assert (w2 = v2) by congruence. subst w w2. clear E1 E2.
  exists v', v2'. split; [exact G'|]. split; [exact G2'|].
  destruct (is_step o) eqn:Es.
  - destruct o; try discriminate Es. cbn [exec] in H. cbn [keep_lanes] in Q.
    destruct (stay_step _ _ _ _ _ _ _ _ Rc H G G' L L' Pr) as (Sp & Ep & Ev & s1 & v1 & H1 & G1 & Ep1 & Eh1 & Ev1 & Ea1 & L1 & St1).
    destruct (stay_step _ _ _ _ _ _ _ _ Rc H G2 G2' L2 L2' Pr) as (Sp2 & Ep2 & Ev2 & s1' & v21 & H1' & G21 & Ep21 & Eh21 & Ev21 & Ea21 & L21 & _).
    assert (s1' = s1) by congruence. subst s1'. destruct (spec_parts _ _ Sp) as (Eh & _). destruct (spec_parts _ _ Sp2) as (Eh2 & _).
    assert (gap v' v2' = gap v v2 + (v_vel v2 + v_vel v2') / 2 * dt - (v_vel v + v_vel v') / 2 * dt) as ->.
    { unfold gap, pos_rear, pos_front. rewrite Ep, Ep2, Eh, Eh2. unR. lra. }
    apply (room_step V d e s dt s' k v v' lid); auto.
    + apply (vel0_R _ _ _ Rc G2).
    + apply (vel0_R _ _ _ Rc' G2').
    + rewrite Ev2. pose proof (acc_low_R v2') as Al. assert (dt * -6 <= dt * acceleration v2') by (apply Rmult_le_compat_l; lra). eapply Rle_trans; [|apply Rmax_l]. lra.
    + intros D. left. destruct Rb as (pre & post & El).
      pose proof (refresh_bound RA_ord decel_nan_R e s dt s' k v v' (vx_follow_vehicle v1 (pos_rear v21) (v_vel v21)) I H G G' (due_R _ D) eq_refl) as B.
      assert (nleb (am_get (v_acc v')) (nmax (vx_follow_vehicle v1 (pos_rear v21) (v_vel v21)) MAX_DECEL) = true) as B'.
      { apply B. intros t1 t2 links vs log1 log E1 P. assert (t1 = s1) by congruence. subst t1.
        apply (parts_follow _ _ _ _ _ _ _ lid l pre k k2 post v1 v21 P); auto. rewrite (lane_changes_other _ _ _ _ (i_st _ I) H1 (proj2 Pr)). exact Gl. }
      apply leb_R in B'. rewrite max_R in B'. unfold vx_follow_vehicle, x_follow_vehicle in B'.
      assert (nsub (pos_rear v21) (pos_front v1) = gap v v2) as E. { unfold gap, pos_rear, pos_front. rewrite Ep1, Eh1, Ep21, Eh21. reflexivity. }
      rewrite E, Ev21, Ev1, Ea1 in B'. exact B'.
  - assert (forall x y, o <> OLaneChange k x y) as N1 by (intros x y ->; cbn in Q; tauto). assert (forall x y, o <> OLaneChange k2 x y) as N2 by (intros x y ->; cbn in Q; tauto).
    destruct (call_keeps _ _ _ _ _ _ _ Rc H Es N1 G G') as (Sp & Ev & Ea & Ep & _). destruct (call_keeps _ _ _ _ _ _ _ Rc H Es N2 G2 G2') as (Sp2 & Ev2 & Ea2 & Ep2 & _).
    destruct (spec_parts _ _ Sp) as (Eh & _). destruct (spec_parts _ _ Sp2) as (Eh2 & _).
    assert (gap v' v2' = gap v v2) as -> by (unfold gap, pos_rear, pos_front; rewrite Ep, Ep2, Eh, Eh2; reflexivity). rewrite Ev2.
    apply (room_call d e s o s' v v'); auto.
Qed.
Lemma room_K a d v u g : room_to_react a d v u g -> K a (d / 2) (refresh_time d) v u g.
Proof. unfold room_to_react, K. intros (H1 & H2). split; [exact H1|]. lra. Qed.
Lemma pair_all V d lid k k2 s ops s' v : throughout (follows V lid k k2) (keep_lanes d [k; k2]) s ops s' -> reachable s -> sm_get (s_vehicles s) k = Some v -> careful V d v ->
  kept d k k2 s -> kept d k k2 s'.
Proof.
  intros T. revert v. induction T as [s F|e s o s1 ops s' F Q H T IH]; intros v Rc G Cf J; [exact J|].
  assert (follows V lid k k2 s1) as F1 by (destruct T; assumption). pose proof (pair_step _ _ _ _ _ _ _ _ _ _ Rc Q H F F1 G Cf J) as J1. pose proof (reach_call _ _ _ _ Rc H) as Rc1.
  destruct J1 as (v1 & w & G1 & ?). apply (IH v1); auto; [|exists v1, w; auto].
  apply (careful_same _ _ v); auto. destruct (is_step o) eqn:Es.
  - destruct o; try discriminate Es. destruct (step_motion _ _ _ _ _ _ (reachable_Inv _ Rc) H G1) as (v0 & ? & ? & ? & ? & G0 & _ & _ & _ & _ & _ & _ & Sp & _). congruence.
  - destruct (exec_body _ _ _ _ _ _ (reachable_Inv _ Rc) H Es G1) as [(v0 & G0 & Sp & _)|(a & x & _ & E & _)]; congruence.
Qed.
