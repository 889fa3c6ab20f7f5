(** * Motion of vehicles (C07, C08, C09, C14, C15, C54) *)
From Coq Require Import List Bool ZArith NArith Arith Lia Reals Lra.
From Flocq Require Import Core IEEE754.BinarySingleNaN.
From Verif Require Import Arith F64 RealArith Base BaseProofs SlotMap Util Geom Light Accel Net Path Vehicle LinkOps Sim SpecLight SpecSim SpecMotion SlotMapProofs Safe NetInv SimInv StepSafe OpSafe Evo StepEvo SimProofs StepProofs Ord FloatLaws LogProofs Motion RFacts SimExample P_Sim.
Import ListNotations.

Lemma decel_nan : @nnan F64 MAX_DECEL = false. Proof. reflexivity. Qed.
Lemma zero_nan : @nnan F64 n0 = false. Proof. reflexivity. Qed.
Lemma decel_nan_R : @nnan RA MAX_DECEL = false. Proof. reflexivity. Qed.
Lemma zero_nan_R : @nnan RA n0 = false. Proof. reflexivity. Qed.

(** ** C07: the applied acceleration lies between full braking and the maximum acceleration *)
(** In binary64, for all attributes, limits and time steps. *)
Theorem C07_bounds :
  forall s k v, @reachable F64 s -> vehicle_at s k = Some v ->
    nleb full_braking (acceleration v) = true /\
    (nleb full_braking (max_acc v) = true -> nleb (acceleration v) (max_acc v) = true).
Proof.
  intros s k v R G. split.
  - exact (am_get_low F64_ord decel_nan (v_acc v)).
  - exact (am_get_high F64_ord s k v R G).
Qed.
Print Assumptions C07_bounds.
(** This acceleration is the one by which a step changes the speed. *)
Theorem C07_applied :
  forall (A : Arith) e s dt s' k v', reachable s -> step e s dt = Ok s' -> vehicle_at s' k = Some v' ->
    exists v, vehicle_at s k = Some v /\ v_vel v' = nmax (nadd (v_vel v) (nmul dt (acceleration v'))) n0.
Proof.
  intros A e s dt s' k v' R H G. destruct (step_motion _ _ _ _ _ _ (reachable_Inv _ R) H G) as (v & s1 & s2 & v1 & v2 & G0 & _ & _ & _ & _ & _ & _ & _ & _ & _ & Ev & _).
  exists v. auto.
Qed.
Print Assumptions C07_applied.

(** ** C54: the attributes of a vehicle never change *)
Theorem C54_added :
  forall (A : Arith) e s a lid s', reachable s -> exec e s (OAddVehicle a lid) = Ok s' ->
    exists v, vehicle_at s' (sm_next_key (s_vehicles s)) = Some v /\ has_attributes v a /\ v_vel v = n0.
Proof.
  intros A e s a lid s' R H. pose proof (reachable_Inv _ R) as I. pose proof H as H0. cbn [exec] in H. bok H x Hx. destruct x as [s1 k1]. injection H as <-.
  destruct (add_vehicle_ok _ _ _ _ _ _ Hx) as (-> & v & Ev & _). exists v. cbn [fst].
  assert (sm_get (s_vehicles s1) (sm_next_key (s_vehicles s)) = Some v) as G by (rewrite Ev, sm_get_insert, key_eqb_refl by apply I; auto).
  split; [exact G|]. destruct (exec_body _ _ _ _ _ v I H0 eq_refl G) as [(v0 & G0 & _)|(a' & l' & E & _ & Sp & V0 & _)].
  - exfalso. apply (next_key_not_issued (s_vehicles s)); [apply I|]. eapply issued_mem; eauto.
  - injection E as <- <-. unfold spec_of, attr_spec in Sp. injection Sp as E1 E2 E3 E4 E5 E6. split; [|exact V0].
    unfold has_attributes, v_width, v_length, headway, max_acc, comf_dec. rewrite E1, E2. auto 10.
Qed.
Print Assumptions C54_added.
Theorem C54_kept :
  forall (A : Arith) s ops s' k v v' a, reachable s -> history s ops s' ->
    vehicle_at s k = Some v -> vehicle_at s' k = Some v' -> has_attributes v a -> has_attributes v' a.
Proof.
  intros A s ops s' k v v' a R H G G' Ha.
  assert (spec_of v' = spec_of v) as E.
  { clear Ha. revert v G. induction H as [s|e s o s1 ops s' H1 Hh IH]; intros v G.
    - unfold vehicle_at in *. congruence.
    - pose proof (reachable_Inv _ R) as I.
      assert (forall v1, vehicle_at s1 k = Some v1 -> spec_of v1 = spec_of v) as K.
      { intros v1 G1. destruct (is_step o) eqn:Es.
        - destruct o; try discriminate Es. destruct (step_motion _ _ _ _ _ _ I H1 G1) as (v0 & ? & ? & ? & ? & G0 & _ & _ & _ & _ & _ & _ & Sp & _). unfold vehicle_at in G. congruence.
        - destruct (exec_body _ _ _ _ _ _ I H1 Es G1) as [(v0 & G0 & Sp & _)|(a0 & l & _ & N & _)]; unfold vehicle_at in G; congruence. }
      destruct (vehicle_at s1 k) as [v1|] eqn:G1.
      + rewrite (IH (reach_call _ _ _ _ R H1) G' v1 eq_refl). auto.
      + exfalso. assert (sm_mem (s_vehicles s') k = false) as M.
        { eapply history_gone; [exact Hh|eapply exec_Inv; eauto| |].
          - eapply exec_issued; eauto. eapply issued_mem; eauto.
          - unfold sm_mem. unfold vehicle_at in G1. rewrite G1. auto. }
        unfold sm_mem in M. unfold vehicle_at in G'. rewrite G' in M. discriminate. }
  unfold spec_of in E. injection E as E1 E2 E3 E4 E5 E6. unfold has_attributes, v_width, v_length, headway, max_acc, comf_dec in *.
  rewrite E1, E2, E3, E4, E5, E6. exact Ha.
Qed.
Print Assumptions C54_kept.

(** ** C08: the speed is a number and is not negative *)
Theorem C08_speed :
  forall s k v, @reachable F64 s -> vehicle_at s k = Some v -> nleb n0 (v_vel v) = true.
Proof. intros s k v R G. exact (vel_nonneg F64_ord zero_nan s k v R G). Qed.
Print Assumptions C08_speed.
(** The comparison is false for a NaN, so the speed is not one. *)
Corollary C08_not_nan :
  forall s k v, @reachable F64 s -> vehicle_at s k = Some v -> nnan (v_vel v) = false.
Proof. intros s k v R G. pose proof (C08_speed s k v R G) as H. apply (le_iff F64_ord) in H. tauto. Qed.
Print Assumptions C08_not_nan.
Theorem C08_speed_exact :
  forall s k v, @reachable RA s -> vehicle_at s k = Some v -> (0 <= (v_vel v : R))%R.
Proof. intros s k v R G. pose proof (vel_nonneg RA_ord zero_nan_R s k v R G) as H. apply (le_iff RA_ord) in H. apply H. Qed.
Print Assumptions C08_speed_exact.

(** ** C09: vehicles do not roll back *)
(** In a step, a vehicle changes lane, or goes on to a following link, or stays where it is or
    further along: what it covers is not negative. *)
Theorem C09_forward :
  forall e s dt s' k v v', @reachable F64 s -> step e s dt = Ok s' -> nleb n0 dt = true ->
    vehicle_at s k = Some v -> vehicle_at s' k = Some v' ->
    (exists a b, v_link v = Some a /\ chg_of (s_links s) a b /\ a <> b) \/
    exists lid l, v_link v = Some lid /\ link_at s lid = Some l /\
      (v_link v' = Some lid /\ nltb (v_pos v') (v_pos v) = false \/
       exists lid' p, v_link v' = Some lid' /\ succ_of (s_links s) lid lid' /\
         nltb p (v_pos v) = false /\ nltb (lk_length l) p = true /\ v_pos v' = nsub p (lk_length l)).
Proof.
  intros e s dt s' k v v' R H D G G'. pose proof (reachable_Inv _ R) as I.
  destruct (step_position _ _ _ _ _ _ _ I H G G') as [L|(p & lid & l & Hl & Gl & Ep & C)]; [left; exact L|right]. exists lid, l. split; [exact Hl|]. split; [exact Gl|].
  assert (nltb p (v_pos v) = false) as F.
  { rewrite Ep. apply (p_ge _ _ F64_pos). apply (p_mul _ _ F64_pos); [|exact D].
    assert (nleb n0 (v_vel v) = true) as V by (exact (C08_speed _ _ _ R G)).
    assert (nleb n0 (v_vel v') = true) as V' by (refine (C08_speed s' k v' _ G'); exact (reach_call e s (OStep dt) s' R H)).
    pose proof (p_add _ _ F64_pos _ _ V V') as S. apply (not_lt_le F64_ord).
    - apply (le_iff F64_ord) in S. destruct S as (_ & S1 & S2).
      destruct (fval_nonneg_cases (@nadd F64 (v_vel v) (v_vel v')) S1 S2) as [(Fi & Po)| E].
      + destruct (fval_mult (@nhalf F64) _ eq_refl Fi) as (Nn & _). exact Nn.
      + rewrite E. reflexivity.
    - reflexivity.
    - apply (p_mul _ _ F64_pos); [reflexivity|exact S]. }
  destruct C as [(_ & E1 & E2)|(Lt & E & lid' & L1 & L2)].
  - left. split; [congruence|]. rewrite E2. exact F.
  - right. exists lid', p. auto.
Qed.
Print Assumptions C09_forward.

(** ** C14: each vehicle follows the one ahead and keeps to the limit *)
(** [s1] is the simulation after the lane changes at the start of the step. *)
Theorem C14_follow :
  forall e ops s dt s1 s' lid l k k2 v v2 v', history (@sim_new F64) ops s -> step e s dt = Ok s' -> due (lit 1 10) ops = true ->
    calculate_lane_changes e s = Ok s1 -> link_at s1 lid = Some l -> right_behind l k k2 ->
    vehicle_at s1 k = Some v -> vehicle_at s1 k2 = Some v2 -> vehicle_at s' k = Some v' ->
    let x := driver_model v (nsub (pos_rear v2) (pos_front v)) (v_vel v2) in
    nnan x = false -> nleb (acceleration v') (nmax x full_braking) = true.
Proof.
  intros e ops s dt s1 s' lid l k k2 v v2 v' Hh H D H1 Gl (pre & post & El) Gv Gv2 G' x Nx.
  pose proof (history_Inv _ _ _ Hh Inv_new) as I. pose proof (history_timers _ _ Hh) as (T & _). pose proof (due_true _ _ _ T D) as D'.
  destruct (step_motion _ _ _ _ _ _ I H G') as (v0 & _ & _ & _ & _ & G0 & _).
  refine (refresh_bound F64_ord decel_nan e s dt s' k v0 v' x I H G0 G' D' Nx _).
  intros t1 t2 links vs log1 log E1 P. assert (t1 = s1) by congruence. subst t1. exact (parts_follow _ _ _ _ _ _ _ _ _ _ _ _ _ _ _ P Gl El Gv Gv2).
Qed.
Print Assumptions C14_follow.
Theorem C14_limit :
  forall e ops s dt s1 s' lid l k v v', history (@sim_new F64) ops s -> step e s dt = Ok s' -> due (lit 1 10) ops = true ->
    calculate_lane_changes e s = Ok s1 -> link_at s1 lid = Some l -> vehicle_at s1 k = Some v -> v_link v = Some lid -> vehicle_at s' k = Some v' ->
    let x := limit_model v (lk_limit l) in
    nnan x = false -> nleb (acceleration v') (nmax x full_braking) = true.
Proof.
  intros e ops s dt s1 s' lid l k v v' Hh H D H1 Gl Gv Hl G' x Nx.
  pose proof (history_Inv _ _ _ Hh Inv_new) as I. pose proof (history_timers _ _ Hh) as (T & _). pose proof (due_true _ _ _ T D) as D'.
  destruct (step_motion _ _ _ _ _ _ I H G') as (v0 & s1' & _ & _ & _ & G0 & H1' & _ & _ & _ & _ & _ & _ & _ & _ & _ & St1 & _).
  assert (s1' = s1) by congruence. subst s1'.
  refine (refresh_bound F64_ord decel_nan e s dt s' k v0 v' x I H G0 G' D' Nx _).
  intros t1 t2 links vs log1 log E1 P. assert (t1 = s1) by congruence. subst t1. refine (parts_limit _ _ _ _ _ _ _ _ _ _ _ P Gl _ Gv).
  destruct (st_occ _ _ _ St1 _ _ Gl) as (_ & Oc). apply Oc. unfold at_of. unfold vehicle_at in Gv. rewrite Gv. exact Hl.
Qed.
Print Assumptions C14_limit.

(** ** C15: freezing a vehicle *)
Theorem C15_set :
  forall (A : Arith) e s k b s', reachable s -> exec e s (OSetFrozen k b) = Ok s' ->
    get_vehicle_frozen s' k = b /\ forall k', k' <> k -> get_vehicle_frozen s' k' = get_vehicle_frozen s k'.
Proof.
  intros A e s k b s' R H. pose proof (reachable_Inv _ R) as I. split.
  - rewrite (frozen_other _ _ _ _ k I H eq_refl), key_eqb_refl. reflexivity.
  - intros k' N. rewrite (frozen_other _ _ _ _ k' I H eq_refl). destruct (key_eqb_spec k k'); congruence.
Qed.
Print Assumptions C15_set.
(** As long as the vehicle exists, the last value set is reported. *)
Theorem C15_get :
  forall (A : Arith) s ops s' k, reachable s -> history s ops s' -> vehicle_at s k <> None -> vehicle_at s' k <> None ->
    get_vehicle_frozen s' k = last_set k ops (get_vehicle_frozen s k).
Proof.
  intros A s ops s' k R H. induction H as [s|e s o s1 ops s' H1 Hh IH]; intros G G'; [reflexivity|].
  pose proof (reachable_Inv _ R) as I. pose proof (reach_call _ _ _ _ R H1) as R1.
  assert (vehicle_at s1 k <> None) as G1.
  { intros E. assert (sm_mem (s_vehicles s') k = false) as M.
    { eapply history_gone; [exact Hh|eapply exec_Inv; eauto| |].
      - eapply exec_issued; eauto. destruct (vehicle_at s k) as [v|] eqn:Gv; [|congruence]. eapply issued_mem; eauto.
      - unfold sm_mem. unfold vehicle_at in E. rewrite E. reflexivity. }
    unfold sm_mem in M. unfold vehicle_at in G'. destruct (sm_get (s_vehicles s') k); congruence. }
  rewrite (IH R1 G1 G'). unfold last_set. cbn [fold_left]. f_equal. destruct (is_step o) eqn:Es.
  - destruct o; try discriminate Es. exact (frozen_step _ _ _ _ _ I H1 G1).
  - rewrite (frozen_other _ _ _ _ k I H1 Es). destruct o; reflexivity.
Qed.
Print Assumptions C15_get.
(** The first refresh of the accelerations makes a frozen vehicle brake fully. *)
Theorem C15_brakes :
  forall (A : Arith) e ops s dt s' k v', history sim_new ops s -> step e s dt = Ok s' -> due (lit 1 10) ops = true ->
    get_vehicle_frozen s k = true -> vehicle_at s' k = Some v' -> acceleration v' = full_braking.
Proof.
  intros A e ops s dt s' k v' Hh H D F G'. pose proof (history_Inv _ _ _ Hh Inv_new) as I. pose proof (history_timers _ _ Hh) as (T & _).
  destruct (step_refresh _ _ _ _ _ _ I H G' (due_true _ _ _ T D)) as (v & s1 & s2 & v1 & links & vs & log1 & log & _ & _ & _ & _ & _ & _ & _ & Ea).
  rewrite frozen_key_mem in F. rewrite F in Ea. unfold acceleration, am_get. rewrite Ea. cbn [am_acc am_set_acc]. apply nmax_same.
Qed.
Print Assumptions C15_brakes.
(** From then on it brakes fully in every step until it is unfrozen. *)
Theorem C15_keeps_braking :
  forall (A : Arith) s ops s' k v v', reachable s -> history s ops s' -> never_unfrozen k ops ->
    vehicle_at s k = Some v -> vehicle_at s' k = Some v' -> get_vehicle_frozen s k = true ->
    am_acc (v_acc v) = full_braking -> get_vehicle_frozen s' k = true /\ am_acc (v_acc v') = full_braking.
Proof. exact @frozen_keeps. Qed.
Print Assumptions C15_keeps_braking.
(** So its speed drops accordingly, ... *)
Theorem C15_speed :
  forall (A : Arith) s ops s' k v v', reachable s -> history s ops s' -> never_unfrozen k ops ->
    vehicle_at s k = Some v -> vehicle_at s' k = Some v' -> get_vehicle_frozen s k = true ->
    am_acc (v_acc v) = full_braking -> v_vel v' = brake_for (time_steps ops) (v_vel v).
Proof.
  intros A s ops s' k v v' R H. revert v. induction H as [s|e s o s1 ops s' H1 Hh IH]; intros v Hn G G' F Ea.
  { assert (v' = v) by (unfold vehicle_at in *; congruence). subst. reflexivity. }
  pose proof (reachable_Inv _ R) as I. pose proof (reach_call _ _ _ _ R H1) as R1.
  destruct (vehicle_at s1 k) as [v1|] eqn:G1; [|exfalso; eapply (exec_gone e s o s1 ops s' k); eauto; congruence].
  assert (history s [o] s1) as H1' by (econstructor; [exact H1|constructor]).
  assert (never_unfrozen k [o]) as Hn1 by (intros [->|[]]; apply Hn; left; reflexivity).
  assert (never_unfrozen k ops) as Hn2 by (intros Hin; apply Hn; right; exact Hin).
  destruct (C15_keeps_braking _ _ _ _ _ _ _ R H1' Hn1 G G1 F Ea) as (F1 & E1).
  rewrite (IH R1 v1 Hn2 eq_refl G' F1 E1).
  destruct (is_step o) eqn:Es.
  - destruct o; try discriminate Es. destruct (C07_applied _ _ _ _ _ _ _ R H1 G1) as (v0 & G0 & Ev). assert (v0 = v) by congruence. subst v0.
    assert (acceleration v1 = full_braking) as Ac. { unfold acceleration, am_get. rewrite E1. apply nmax_same. }
    rewrite Ac in Ev. rewrite Ev. reflexivity.
  - assert (time_steps (o :: ops) = time_steps ops) as -> by (destruct o; try discriminate Es; reflexivity).
    assert (v_vel v1 = v_vel v) as ->; [|reflexivity].
    destruct (exec_body _ _ _ _ _ _ I H1 Es G1) as [(v0 & G0 & _ & V0 & _)|(a & l & _ & N & _)]; unfold vehicle_at in G; congruence.
Qed.
Print Assumptions C15_speed.
(** ... which in exact arithmetic means: by 6 m/s per second, down to zero. *)
Theorem C15_speed_exact :
  forall (dts : list (@num RA)) (v : R), (0 <= v)%R -> (forall dt, In dt dts -> (0 <= (dt : R))%R) ->
    brake_for dts v = Rmax (v - 6 * fold_right Rplus 0%R dts) 0.
Proof.
  induction dts as [|dt dts IH]; intros v V Hd.
  - simpl. rewrite Rmax_left; lra.
  - change (brake_for (dt :: dts) v) with (brake_for dts (@nmax RA (v + dt * (-6))%R 0%R)). rewrite max_R.
    rewrite IH; [|apply Rmax_r|intros; apply Hd; right; auto].
    assert (0 <= dt)%R as Dt by (apply Hd; left; reflexivity).
    assert (0 <= fold_right Rplus 0 dts)%R as Tt.
    { assert (forall x, In x dts -> (0 <= (x : R))%R) as K by (intros; apply Hd; right; auto). clear -K. induction dts; simpl; [lra|].
      pose proof (K a (or_introl eq_refl)). assert (0 <= fold_right Rplus 0 dts)%R by (apply IHdts; intros; apply K; right; auto). simpl in *. lra. }
    change (fold_right Rplus 0 (dt :: dts))%R with (dt + fold_right Rplus 0 dts)%R. unfold Rmax. repeat destruct Rle_dec; lra.
Qed.
Print Assumptions C15_speed_exact.

(** In binary64: a frozen vehicle at rest stays at rest, ... *)
Lemma rest_F64 (dt : @num F64) : nleb n0 dt = true -> @nmax F64 (nadd n0 (nmul dt full_braking)) n0 = n0.
Proof.
  intros D. destruct dt as [s|s| |s m ex B].
  - destruct s; reflexivity.
  - destruct s; [discriminate D|reflexivity].
  - discriminate D.
  - destruct s; [discriminate D|].
    assert (is_finite (@full_braking F64) = true) as Ff by reflexivity.
    assert (B2R (@full_braking F64) <= 0)%R as Vf by (apply sign_neg; [exact Ff|vm_compute; reflexivity]).
    set (x := B754_finite false m ex B) in *. assert (is_finite x = true) as Fx by reflexivity.
    destruct (fval_mult x (@full_braking F64) Fx Ff) as (N1 & V1). 
    assert (fval (@nmul F64 x full_braking) <= 0)%R as Le.
    { change (fval (Bmult mode_NE x (@full_braking F64)) <= 0)%R. rewrite V1. rewrite <- sat_0. apply sat_mono.
      assert (0 < B2R x)%R by (unfold x; simpl; apply F2R_gt_0; reflexivity). nra. }
    change (is_nan (@nmul F64 x full_braking) = false) in N1. destruct (@nmul F64 x full_braking) as [z|z| |z m2 e2 B2].
    + destruct z; reflexivity.
    + destruct z; [reflexivity|]. exfalso. simpl in Le. pose proof big_pos. unfold big in *. simpl in *. lra.
    + discriminate N1.
    + destruct z; [|exfalso; simpl in Le; assert (0 < F2R (Float radix2 (Zpos m2) e2))%R by (apply F2R_gt_0; reflexivity); lra].
      reflexivity.
Qed.
Theorem C15_rest :
  forall s ops s' k v v', @reachable F64 s -> history s ops s' -> never_unfrozen k ops ->
    vehicle_at s k = Some v -> vehicle_at s' k = Some v' -> get_vehicle_frozen s k = true ->
    am_acc (v_acc v) = full_braking -> v_vel v = n0 -> (forall dt, In dt (time_steps ops) -> nleb n0 dt = true) ->
    v_vel v' = n0.
Proof.
  intros s ops s' k v v' R H Hn G G' F Ea V0 Hd. rewrite (C15_speed _ _ _ _ _ _ _ R H Hn G G' F Ea), V0. clear -Hd.
  induction (time_steps ops) as [|dt l IH]; [reflexivity|].
  change (brake_for (dt :: l) n0) with (brake_for l (@nmax F64 (nadd n0 (nmul dt full_braking)) n0)).
  rewrite rest_F64 by (apply Hd; left; reflexivity). apply IH. intros x Hx. apply Hd. right. exact Hx.
Qed.
Print Assumptions C15_rest.
(** ... and where it is: whatever vehicle has speed zero before and after a step, the step leaves
    its position as it is, unless it changes lane or is already beyond the end of its link. *)
Lemma stay_F64 (p dt : @num F64) : is_finite dt = true -> nnan p = false -> neqb (nadd p (nmul (nmul nhalf (nadd n0 n0)) dt)) p = true.
Proof.
  intros D N. assert (exists z, @nmul F64 (nmul nhalf (nadd n0 n0)) dt = B754_zero z) as (z & ->).
  { change (@nmul F64 nhalf (nadd n0 n0)) with (@B754_zero prec emax false). destruct dt as [s|s| |s m ex B]; try discriminate D; eexists; reflexivity. }
  destruct p as [s|s| |s m ex B]; try discriminate N.
  - destruct s, z; reflexivity.
  - destruct s, z; reflexivity.
  - change (Beqb (B754_finite s m ex B) (B754_finite s m ex B) = true). rewrite Beqb_correct by reflexivity. apply Req_bool_true. reflexivity.
Qed.
Theorem C15_position :
  forall e s dt s' k v v', @reachable F64 s -> step e s dt = Ok s' -> is_finite dt = true ->
    vehicle_at s k = Some v -> vehicle_at s' k = Some v' -> v_vel v = n0 -> v_vel v' = n0 -> nnan (v_pos v) = false ->
    (exists a b, v_link v = Some a /\ chg_of (s_links s) a b /\ a <> b) \/
    (exists lid l, v_link v = Some lid /\ link_at s lid = Some l /\ nltb (lk_length l) (v_pos v) = true) \/
    v_link v' = v_link v /\ neqb (v_pos v') (v_pos v) = true.
Proof.
  intros e s dt s' k v v' R H D G G' V V' N. pose proof (reachable_Inv _ R) as I.
  destruct (step_position _ _ _ _ _ _ _ I H G G') as [L|(p & lid & l & Hl & Gl & Ep & C)]; [left; exact L|right].
  rewrite V, V' in Ep. pose proof (stay_F64 (v_pos v) dt D N) as St. rewrite <- Ep in St.
  destruct C as [(_ & E1 & E2)|(Lt & E & _)].
  - right. rewrite E2. auto.
  - left. exists lid, l. split; [exact Hl|]. split; [exact Gl|].
    apply (lt_iff F64_ord) in Lt. apply (lt_iff F64_ord). destruct Lt as (L1 & L2 & L3). split; [exact L1|]. split; [exact N|].
    assert (fval p = fval (v_pos v)) as Ef.
    { clear -St N L2. change (Beqb p (v_pos v) = true) in St. unfold Beqb, SpecFloat.SFeqb in St. change (SpecFloat.SFcompare (B2SF p) (B2SF (v_pos v))) with (Bcompare p (v_pos v)) in St.
      rewrite bcompare_fval in St by assumption. destruct (Rcompare_spec (fval p) (fval (v_pos v))); try discriminate St. auto. }
    change (fval (lk_length l) < fval (v_pos v))%R. change (fval (lk_length l) < fval p)%R in L3. rewrite <- Ef. exact L3.
Qed.
Print Assumptions C15_position.

(** ** Concrete cases *)
Definition veh_b (s : @sim F64) (k : key) (f : @vehicle F64 -> bool) : bool := match vehicle_at s k with Some v => f v | None => false end.
Lemma veh_b_ok s k f : veh_b s k f = true -> exists v, vehicle_at s k = Some v /\ f v = true.
Proof. unfold veh_b. destruct (vehicle_at s k); intros; [eauto|discriminate]. Qed.
Definition link_b (s : @sim F64) (k : key) (f : @link F64 -> bool) : bool := match link_at s k with Some v => f v | None => false end.
Lemma link_b_ok s k f : link_b s k f = true -> exists v, link_at s k = Some v /\ f v = true.
Proof. unfold link_b. destruct (link_at s k); intros; [eauto|discriminate]. Qed.
Ltac bsplit H := repeat (apply andb_true_iff in H; let H2 := fresh "B" in destruct H as [H H2]).
Lemma run_step e (s : @sim F64) dt s' : run e s [OStep dt] = Ok s' -> step e s dt = Ok s'.
Proof. cbn [run exec]. destruct (step e s dt); cbn [bind]; intros H; inversion H; auto. Qed.
Lemma run_reachable e ops (s : @sim F64) : run e sim_new ops = Ok s -> @reachable F64 s.
Proof. intros H. eapply history_reachable; [eapply run_history; eauto|constructor]. Qed.

(** In the third step of the story of SimExample the cars speed up, below the limit, and move. *)
Lemma ex_motion_ok :
  okb (run ex_env sim_new (ex_setup ++ ex_steps 2)) (fun s =>
  veh_b s car1 (fun v =>
  okb (run ex_env s (ex_steps 1)) (fun s' =>
  veh_b s' car1 (fun v' => nltb n0 (acceleration v') && nltb (v_vel v) (v_vel v') && nltb (v_pos v) (v_pos v') && nleb full_braking (max_acc v')
    && neqb (acceleration v') (acceleration v'))))) = true.
Proof. vm_compute. reflexivity. Qed.
Example C07_C08_C09_example : exists s s' v v', @reachable F64 s /\ step ex_env s (fz 1) = Ok s' /\ vehicle_at s car1 = Some v /\ vehicle_at s' car1 = Some v' /\
  nleb full_braking (max_acc v') = true /\ nltb n0 (acceleration v') = true /\ nltb (v_vel v) (v_vel v') = true /\ nltb (v_pos v) (v_pos v') = true.
Proof.
  pose proof ex_motion_ok as H. apply okb_ok in H. destruct H as (s & H0 & H). apply veh_b_ok in H. destruct H as (v & G & H).
  apply okb_ok in H. destruct H as (s' & H1 & H). apply veh_b_ok in H. destruct H as (v' & G' & H). bsplit H.
  exists s, s', v, v'. split; [eapply run_reachable; exact H0|]. split; [apply run_step; exact H1|]. auto 10.
Qed.

(** In the fifth step the accelerations are refreshed; the second car is right behind the first on
    the first lane, so its acceleration is bounded by that of the driver model. *)
Fixpoint behind_b (l : list key) (k k2 : key) : bool :=
  match l with
  | a :: t => match t with b :: _ => key_eqb a k && key_eqb b k2 | [] => false end || behind_b t k k2
  | [] => false
  end.
Lemma behind_b_ok l k k2 : behind_b l k k2 = true -> exists pre post, l = pre ++ k :: k2 :: post.
Proof.
  induction l as [|a t IH]; [discriminate|]. cbn [behind_b]. intros H. apply orb_true_iff in H. destruct H as [H|H].
  - destruct t as [|b t']; [discriminate|]. apply andb_true_iff in H. destruct H as (H1 & H2). apply key_eqb_eq in H1, H2. subst. exists [], t'. reflexivity.
  - destruct (IH H) as (p & q & ->). exists (a :: p), q. reflexivity.
Qed.
Lemma ex_behind_ok :
  okb (run ex_env sim_new (ex_setup ++ ex_steps 4)) (fun s =>
  okb (calculate_lane_changes ex_env s) (fun s1 =>
  link_b s1 lane1 (fun l => behind_b (lk_vehicles l) car2 car1 &&
  veh_b s1 car2 (fun v => match v_link v with Some a => key_eqb a lane1 | None => false end && veh_b s1 car1 (fun v2 =>
    negb (nnan (driver_model v (nsub (pos_rear v2) (pos_front v)) (v_vel v2))) && negb (nnan (limit_model v (lk_limit l))) &&
  okb (run ex_env s (ex_steps 1)) (fun s' =>
  veh_b s' car2 (fun v' => nltb (acceleration v') (max_acc v')))))))) = true.
Proof. vm_compute. reflexivity. Qed.
Lemma ex_due5 : @due F64 (lit 1 10) (ex_setup ++ ex_steps 4) = true.
Proof. vm_compute. reflexivity. Qed.
Example C14_example : exists s s1 s' l v v2 v',
  history (@sim_new F64) (ex_setup ++ ex_steps 4) s /\ step ex_env s (fz 1) = Ok s' /\ due (lit 1 10) (ex_setup ++ ex_steps 4) = true /\
  calculate_lane_changes ex_env s = Ok s1 /\ link_at s1 lane1 = Some l /\ right_behind l car2 car1 /\
  vehicle_at s1 car2 = Some v /\ vehicle_at s1 car1 = Some v2 /\ vehicle_at s' car2 = Some v' /\ v_link v = Some lane1 /\
  nnan (driver_model v (nsub (pos_rear v2) (pos_front v)) (v_vel v2)) = false /\ nnan (limit_model v (lk_limit l)) = false /\
  nltb (acceleration v') (max_acc v') = true.
Proof.
  pose proof ex_behind_ok as H. apply okb_ok in H. destruct H as (s & H0 & H). apply okb_ok in H. destruct H as (s1 & H1 & H).
  apply link_b_ok in H. destruct H as (l & Gl & H). bsplit H. apply veh_b_ok in B. destruct B as (v & Gv & B). bsplit B. apply veh_b_ok in B0. destruct B0 as (v2 & Gv2 & B0). bsplit B0.
  apply okb_ok in B1. destruct B1 as (s' & H2 & B1). apply veh_b_ok in B1. destruct B1 as (v' & G' & B1).
  exists s, s1, s', l, v, v2, v'. split; [eapply run_history; exact H0|]. split; [apply run_step; exact H2|]. split; [exact ex_due5|].
  split; [exact H1|]. split; [exact Gl|]. split; [exact (behind_b_ok _ _ _ H)|]. split; [exact Gv|]. split; [exact Gv2|]. split; [exact G'|].
  split; [destruct (v_link v) as [a|]; [apply key_eqb_eq in B; congruence|discriminate B]|].
  split; [apply negb_true_iff; exact B0|]. split; [apply negb_true_iff; exact B2|]. exact B1.
Qed.

Lemma zero_float (x : @num F64) : Bsign x = false -> neqb x n0 = true -> x = n0.
Proof. destruct x as [[|]|[|]| |[|] m ex B]; intros S E; try discriminate S; try discriminate E. reflexivity. Qed.
Lemma neq_float (x y : @num F64) : is_finite_strict y = true -> neqb x y = true -> x = y.
Proof.
  intros F E. change (Beqb x y = true) in E. assert (is_nan x = false) as N by (destruct x; auto; destruct y; discriminate E).
  assert (is_finite y = true) as Fy by (destruct y; auto; discriminate F).
  assert (fval x = fval y) as V.
  { unfold Beqb, SpecFloat.SFeqb in E. change (SpecFloat.SFcompare (B2SF x) (B2SF y)) with (Bcompare x y) in E.
    rewrite bcompare_fval in E by (auto; destruct y; auto; discriminate F). destruct (Rcompare_spec (fval x) (fval y)); try discriminate E. auto. }
  assert (is_finite x = true) as Fx.
  { pose proof (fval_bound y Fy) as Bd. destruct x as [|[|]| |]; auto; try discriminate N; rewrite <- V in Bd; cbn [fval] in Bd; lra. }
  rewrite (fval_finite _ Fx), (fval_finite _ Fy) in V. apply B2R_inj; auto.
  assert (B2R y <> 0)%R as Nz.
  { clear -F. destruct y as [| | |s m ex B]; try discriminate F. cbn [B2R]. intros E. apply eq_0_F2R in E. destruct s; discriminate E. }
  destruct x as [s| | |s m ex B], y as [s2| | |s2 m2 ex2 B2]; try discriminate Fx; try discriminate F; try reflexivity.
  exfalso. apply Nz. rewrite <- V. reflexivity.
Qed.
(** The first car is frozen after the third step: it brakes from the fourth on and then stands. *)
Lemma ex_freeze_ok :
  okb (run ex_env sim_new (ex_setup ++ ex_steps 3 ++ [OSetFrozen car1 true])) (fun s =>
  veh_b s car1 (fun v => nltb n0 (v_vel v) &&
  okb (run ex_env s (ex_steps 1)) (fun s1 => get_vehicle_frozen s1 car1 &&
  veh_b s1 car1 (fun v1 => neqb (am_acc (v_acc v1)) full_braking && negb (Bsign (v_vel v1)) && neqb (v_vel v1) n0 &&
  okb (run ex_env s1 (ex_steps 2)) (fun s2 =>
  veh_b s2 car1 (fun v2 => neqb (v_pos v2) (v_pos v1))))))) = true.
Proof. vm_compute. reflexivity. Qed.
Lemma ex_due4 : @due F64 (lit 1 10) (ex_setup ++ ex_steps 3 ++ [OSetFrozen car1 true]) = true.
Proof. vm_compute. reflexivity. Qed.
Example C15_example : exists s s1 s2 v1 v2,
  history (@sim_new F64) (ex_setup ++ ex_steps 3 ++ [OSetFrozen car1 true]) s /\ get_vehicle_frozen s car1 = true /\
  due (lit 1 10) (ex_setup ++ ex_steps 3 ++ [OSetFrozen car1 true]) = true /\ step ex_env s (fz 1) = Ok s1 /\
  history s1 (ex_steps 2) s2 /\ never_unfrozen car1 (ex_steps 2) /\ vehicle_at s1 car1 = Some v1 /\ vehicle_at s2 car1 = Some v2 /\
  get_vehicle_frozen s1 car1 = true /\ am_acc (v_acc v1) = full_braking /\ v_vel v1 = n0 /\ (forall dt, In dt (time_steps (ex_steps 2)) -> nleb n0 dt = true) /\
  neqb (v_pos v2) (v_pos v1) = true.
Proof.
  pose proof ex_freeze_ok as H. apply okb_ok in H. destruct H as (s & H0 & H). apply veh_b_ok in H. destruct H as (v & G & H). bsplit H.
  apply okb_ok in B. destruct B as (s1 & H1 & B). bsplit B. apply veh_b_ok in B0. destruct B0 as (v1 & G1 & B0). bsplit B0.
  apply okb_ok in B1. destruct B1 as (s2 & H2 & B1). apply veh_b_ok in B1. destruct B1 as (v2 & G2 & B1).
  exists s, s1, s2, v1, v2. split; [eapply run_history; exact H0|].
  assert (@reachable F64 s) as R by (eapply run_reachable; exact H0).
  assert (history s (ex_steps 1) s1) as Hh by (eapply run_history; exact H1).
  split. { pose proof (C15_get _ _ _ _ car1 R Hh) as K. rewrite B in K. cbn in K. symmetry. apply K; congruence. }
  split; [exact ex_due4|]. split; [apply run_step; exact H1|]. split; [eapply run_history; exact H2|]. split.
  { intros [Hi|[Hi|[]]]; discriminate Hi. } 
  split; [exact G1|]. split; [exact G2|]. split; [exact B|]. split.
  { apply neq_float; [vm_compute; reflexivity|exact B0]. }
  split. { apply zero_float; [apply negb_true_iff; exact B3|exact B2]. }
  split; [|exact B1]. intros dt [<-|[<-|[]]]; vm_compute; reflexivity.
Qed.
Lemma ex_add_ok : okb (run ex_env sim_new (firstn 9 ex_setup)) (fun s => okb (run ex_env s [OAddVehicle ex_car lane2]) (fun _ => true)) = true.
Proof. vm_compute. reflexivity. Qed.
Example C54_example : exists s s', @reachable F64 s /\ history s [OAddVehicle ex_car lane2] s'.
Proof.
  pose proof ex_add_ok as H. apply okb_ok in H. destruct H as (s & H0 & H). apply okb_ok in H. destruct H as (s' & H1 & _).
  exists s, s'. split; [eapply run_reachable; exact H0|eapply run_history; exact H1].
Qed.
