(** * The speed limit (C10), in exact arithmetic *)
From Coq Require Import List Bool ZArith NArith Arith Lia Reals Lra.
From Verif Require Import Arith F64 RealArith Base BaseProofs SlotMap Util Geom Light Accel Net Path Vehicle LinkOps Sim SpecLight SpecSim SpecMotion SlotMapProofs Safe NetInv SimInv StepSafe OpSafe Evo StepEvo SimProofs StepProofs Ord LogProofs Motion RFacts NetEvo P_Motion.
Import ListNotations.
Local Open Scope R_scope.

(** Calls that keep to one speed limit [L] and to time steps of at most [d] seconds: links have that
    limit, new vehicles have [4 max_acc (1/10 + d) <= L] (accelerations are refreshed at most
    [1/10 + d] seconds apart), and the factors of the vehicles are not randomised. *)
Definition one_limit (L d : R) (o : @op RA) : Prop :=
  match o with
  | OAddLink _ l => l = L
  | OAddVehicle a _ => 0 < a_max_acc a /\ 4 * a_max_acc a * (1 / 10 + d) <= L
  | ORandomise _ => False
  | OStep dt => 0 <= dt <= d
  | _ => True
  end.

(** A vehicle that keeps to its limit for the rest of the interval. *)
Definition tame (L d tau : R) (v : @vehicle RA) : Prop :=
  let V := (speed_factor v : R) * L in
  0 < (speed_factor v : R) /\ 0 < (max_acc v : R) /\ 4 * max_acc v * (1 / 10 + d) <= V /\ (v_vel v : R) <= V /\
  (tau < 1 / 10 -> (v_vel v : R) + Rmax (am_get (v_acc v)) 0 * (1 / 10 + d - tau) <= V).
Definition tame_sim (L d : R) (s : @sim RA) : Prop :=
  0 <= (s_acc_update s : R) /\ (forall k l, link_at s k = Some l -> lk_limit l = L) /\ forall k v, vehicle_at s k = Some v -> tame L d (s_acc_update s) v.

Lemma tenth_R : @lit RA 1 10 = 1 / 10. Proof. unfold lit. unR. lra. Qed.
Lemma quartic u : 0 <= u <= 1 -> u + (1 - (u * u) * (u * u)) / 4 <= 1.
Proof.
  intros H. assert (0 <= u * u <= 1) by nra. assert (0 <= (1 - u) * (3 - u - u * u - u * u * u)) as K.
  { apply Rmult_le_pos; [lra|]. assert (u * u * u <= 1) by nra. lra. }
  assert ((1 - u) * (3 - u - u * u - u * u * u) = 3 - 4 * u + u * u * (u * u)) as E by ring. lra.
Qed.
(** After a refresh. *)
Lemma refreshed L d (a am f v : R) : 0 < L -> 0 <= d -> 0 < f -> 0 < am -> 0 <= v <= f * L -> 4 * am * (1 / 10 + d) <= f * L ->
  a <= Rmax (am * (1 - (v / (f * L)) * (v / (f * L)) * ((v / (f * L)) * (v / (f * L))))) (-6) ->
  v + Rmax a 0 * (1 / 10 + d) <= f * L.
Proof.
  intros HL Hd Hf Ha Hv Hb H. set (V := f * L) in *. assert (0 < V) as HV by (apply Rmult_lt_0_compat; lra). set (u := v / V) in *.
  assert (v = u * V) as Eu by (unfold u; field; lra). assert (0 <= u <= 1) as Hu.
  { split; [apply Rmult_le_pos; [lra|left; apply Rinv_0_lt_compat; lra]|]. apply Rmult_le_reg_r with V; lra. }
  pose proof (quartic u Hu) as Q. set (w := 1 - u * u * (u * u)) in *. assert (0 <= w) as Hw.
  { unfold w. assert (0 <= u * u <= 1) by nra. assert (u * u * (u * u) <= 1) by nra. lra. }
  assert (0 <= am * w) by (apply Rmult_le_pos; lra).
  assert (Rmax a 0 <= am * w) as A0. { apply Rmax_lub; [|lra]. rewrite Rmax_left in H by lra. exact H. }
  assert (Rmax a 0 * (1 / 10 + d) <= am * w * (1 / 10 + d)) as A1 by (apply Rmult_le_compat_r; lra).
  assert (4 * am * (1 / 10 + d) * w <= V * w) as A2 by (apply Rmult_le_compat_r; lra).
  assert ((u + w / 4) * V <= 1 * V) as A3 by (apply Rmult_le_compat_r; lra).
  assert (am * w * (1 / 10 + d) = 4 * am * (1 / 10 + d) * w / 4) as E1 by field. assert ((u + w / 4) * V = u * V + V * w / 4) as E2 by field. lra.
Qed.
(** During a step. *)
Lemma moved L d (tau dt a f v : R) : 0 < L -> 0 <= d -> 0 < f -> 0 <= v -> 0 <= tau < 1 / 10 -> 0 <= dt <= d -> v + Rmax a 0 * (1 / 10 + d - tau) <= f * L ->
  Rmax (v + dt * a) 0 <= f * L /\ (tau + dt < 1 / 10 -> Rmax (v + dt * a) 0 + Rmax a 0 * (1 / 10 + d - (tau + dt)) <= f * L).
Proof.
  intros HL Hd Hf Hv0 Ht Hdt H. assert (0 <= f * L) by (apply Rmult_le_pos; lra). assert (0 <= Rmax a 0) as P by apply Rmax_r. assert (a <= Rmax a 0) as P1 by apply Rmax_l.
  assert (dt * a <= Rmax a 0 * dt) as Q. { rewrite (Rmult_comm dt). apply Rmult_le_compat_r; lra. }
  assert (0 <= Rmax a 0 * (1 / 10 + d - tau - dt)) as Q2 by (apply Rmult_le_pos; lra).
  assert (Rmax a 0 * (1 / 10 + d - tau) = Rmax a 0 * dt + Rmax a 0 * (1 / 10 + d - tau - dt)) as E by ring. 
  assert (Rmax a 0 * (1 / 10 + d - (tau + dt)) = Rmax a 0 * (1 / 10 + d - tau - dt)) as E' by ring.
  split; [apply Rmax_lub; lra|]. intros _. rewrite E'. unfold Rmax at 1. destruct (Rle_dec (v + dt * a) 0) as [Z|Z]; [|lra].
  destruct (Rle_dec a 0) as [N|N].
  - rewrite Rmax_right by lra. lra.
  - assert (0 <= dt * a) by (apply Rmult_le_pos; lra). lra.
Qed.

Lemma exec_tame L d e s o s' : 0 < L -> 0 <= d -> @reachable RA s -> exec e s o = Ok s' -> one_limit L d o -> tame_sim L d s -> tame_sim L d s'.
Proof.
  intros HL Hd Rs H Ho (T0 & Tl & Tv). pose proof (reachable_Inv _ Rs) as I.
  assert (forall k l, link_at s' k = Some l -> lk_limit l = L) as Tl'.
  { intros k l G. destruct (exec_built _ _ _ _ _ _ I H G) as [(l0 & G0 & E & _)|(c & lim & -> & -> & E)].
    - unfold geo in E. injection E as F1 F2 F3 F4. rewrite F3. exact (Tl _ _ G0).
    - unfold link_new in E. bok E lc Hlc. injection E as <-. exact Ho. }
  destruct (is_step o) eqn:Es.
  2:{ destruct (exec_timers _ _ _ _ I H Es) as (Et & _). split; [rewrite Et; exact T0|]. split; [exact Tl'|]. intros k v' G. rewrite Et.
      destruct (exec_body _ _ _ _ _ _ I H Es G) as [(v & Gv & Sp & Ev & Ea & Ej)|(a & l & -> & _ & Sp & Ev & Ea & Ej)].
      - specialize (Tv _ _ Gv). unfold spec_of in Sp. injection Sp as _ _ _ _ Em _. unfold tame, speed_factor, max_acc, am_get in *.
        destruct Ej as [Ej|(f & -> & _)]; [|destruct Ho]. rewrite Ej, Em, Ev, Ea. exact Tv.
      - cbn in Ho. destruct Ho as (Ho1 & Ho2). unfold spec_of, attr_spec in Sp. injection Sp as _ _ _ _ Em _. unfold tame, speed_factor, max_acc, am_get. rewrite Ej, Em, Ev, Ea, max_R. unfold MAX_DECEL, n1, n0. unR. rewrite Rmult_1_l.
        split; [lra|]. split; [exact Ho1|]. split; [exact Ho2|]. split; [lra|]. intros Ht.
        set (am := a_max_acc a) in *. rewrite (Rmax_left am) by lra. rewrite Rmax_left by lra.
        assert (0 <= am * s_acc_update s) by (apply Rmult_le_pos; [lra|exact T0]). assert (0 <= am * (1 / 10 + d)) by (apply Rmult_le_pos; lra).
        assert (am * (1 / 10 + d - s_acc_update s) = am * (1 / 10 + d) - am * s_acc_update s) as E by ring. lra. }
  destruct o; try discriminate Es. cbn in Ho. pose proof (exec_built e s (OStep dt)) as _.
  assert (s_acc_update s' = (if Rlt_dec (s_acc_update s) (1 / 10) then s_acc_update s else 0) + dt) as Et.
  { destruct (step_timers _ _ _ _ I H) as (Et & _). rewrite Et. unfold ACCELERATION_UPDATE_SEC. rewrite tenth_R. destruct (@nltb RA (s_acc_update s) (1 / 10)) eqn:E; [apply ltb_R in E|apply ltb_R_false in E]; destruct Rlt_dec; try lra; unR; reflexivity. }
  split; [rewrite Et; destruct Rlt_dec; lra|]. split; [exact Tl'|]. intros k v' G.
  destruct (step_motion _ _ _ _ _ _ I H G) as (v & s1 & s2 & v1 & v2 & G0 & H1 & H2 & G1 & G2 & B & Kp & Sp & Ea & Ej & Ev & St1 & _).
  specialize (Tv _ _ G0). destruct Tv as (Tf & Tm & Tb & Tw & Ti). unfold spec_of in Sp. injection Sp as _ _ _ _ Em _.
  assert (0 <= (v_vel v : R)) as V0 by (exact (C08_speed_exact _ _ _ Rs G0)).
  rewrite max_R in Ev. assert ((v_vel v' : R) = Rmax (v_vel v + dt * am_get (v_acc v')) 0) as Ev' by exact Ev.
  unfold tame, speed_factor, max_acc in *. rewrite Ej, Em, Ev'. clear Ev Ev'.
  assert (v_vel v + Rmax (am_get (v_acc v')) 0 * (1 / 10 + d - (if Rlt_dec (s_acc_update s) (1 / 10) then s_acc_update s else 0)) <= am_adj (v_acc v) * L) as K.
  { destruct (Rlt_dec (s_acc_update s) (1 / 10)) as [Lt|Nlt].
    - rewrite (step_no_refresh _ _ _ _ _ _ _ I H G0 G) by (unfold ACCELERATION_UPDATE_SEC; apply ltb_R; rewrite tenth_R; exact Lt). apply Ti. exact Lt.
    - rewrite Rminus_0_r. apply refreshed with (am := am_max (v_acc v)); auto; try lra.
      assert (nltb (s_acc_update s) ACCELERATION_UPDATE_SEC = false) as D by (unfold ACCELERATION_UPDATE_SEC; apply ltb_R_false; rewrite tenth_R; lra).
      pose proof (st_veh _ _ _ St1 _ _ G1) as Vb. destruct (v_link v1) as [lid|] eqn:Lk.
      2:{ exfalso. pose proof (vb_ent _ _ _ _ Vb) as En. unfold v_link in Lk. destruct (v_route v1); [simpl in En; lia|discriminate Lk]. }
      assert (valid (s_links s1) lid) as Vl. { pose proof (vb_chain _ _ _ _ Vb) as Ch. unfold v_link in Lk. destruct (v_route v1) as [|x r]; [discriminate Lk|]. injection Lk as ->. destruct Ch as (Ch & _). exact Ch. }
      unfold valid in Vl. apply sm_mem_get in Vl. destruct Vl as (l & Gl).
      assert (lk_limit l = L) as El.
      { destruct (step_phases _ _ _ _ I H) as (t1 & t2 & t3 & t4 & t5 & P). assert (t1 = s1) by (pose proof (ph1 _ _ _ _ _ _ _ _ _ P); congruence). subst t1.
        destruct (same_net_get _ _ _ _ (pn1 _ _ _ _ _ _ _ _ _ P) Gl) as (l0 & Gl0 & E). pose proof (Tl _ _ Gl0) as El0. unfold lk_static in E. injection E. congruence. }
      apply body_spec in B. destruct B as (_ & Bacc & Bv & _).
      assert (nleb (am_get (v_acc v')) (nmax (vx_current_speed_limit v1 (lk_limit l)) MAX_DECEL) = true) as Hb.
      { refine (refresh_bound RA_ord decel_nan_R e s dt s' k v v' _ I H G0 G D eq_refl _).
        intros t1 t2 links vs log1 log E1 P. assert (t1 = s1) by congruence. subst t1. refine (parts_limit _ _ _ _ _ _ _ _ _ _ _ P Gl _ G1).
        destruct (st_occ _ _ _ St1 _ _ Gl) as (_ & Oc). apply Oc. unfold at_of. rewrite G1. exact Lk. }
      apply leb_R in Hb. rewrite max_R in Hb. unfold vx_current_speed_limit, x_current_speed_limit in Hb. rewrite Bacc, Bv, El in Hb. unfold MAX_DECEL, powi4, powi2, n1 in Hb. unR. exact Hb. }
  destruct (moved L d (if Rlt_dec (s_acc_update s) (1 / 10) then s_acc_update s else 0) dt (am_get (v_acc v')) (am_adj (v_acc v)) (v_vel v) HL Hd Tf V0) as (M1 & M2); auto.
  { destruct Rlt_dec as [Lt|Nlt]; lra. }
  split; [exact Tf|]. split; [exact Tm|]. split; [exact Tb|]. split; [exact M1|]. rewrite Et. exact M2.
Qed.
Lemma history_tame L d s ops s' : 0 < L -> 0 <= d -> history s ops s' -> @reachable RA s -> Forall (one_limit L d) ops -> tame_sim L d s -> tame_sim L d s'.
Proof.
  intros HL Hd H. induction H as [s|e s o s1 ops s' H1 Hh IH]; intros Rs F T; [exact T|]. inversion F; subst. apply IH; auto.
  - exact (reach_call _ _ _ _ Rs H1).
  - eapply exec_tame; eauto.
Qed.

(** ** C10 *)
Lemma factor_one (L d : R) ops s k v : history (@sim_new RA) ops s -> Forall (one_limit L d) ops -> vehicle_at s k = Some v -> speed_factor v = 1.
Proof.
  intros Hh F G.
  revert k v G. assert (forall s0 ops0 s1, history s0 ops0 s1 -> @reachable RA s0 -> Forall (one_limit L d) ops0 ->
    (forall k v, vehicle_at s0 k = Some v -> speed_factor v = 1) -> forall k v, vehicle_at s1 k = Some v -> speed_factor v = 1) as K.
  { intros s0 ops0 s1 H0. induction H0 as [s0|e s0 o s1 ops0 s2 H1 Hh' IH]; intros Rs F' Hs; [exact Hs|]. inversion F' as [|? ? Fo Fr]; subst. apply IH; [exact (reach_call _ _ _ _ Rs H1)|exact Fr|].
    intros k v' G. destruct (is_step o) eqn:Es.
    - destruct o; try discriminate Es. destruct (step_motion _ _ _ _ _ _ (reachable_Inv _ Rs) H1 G) as (v & _ & _ & _ & _ & G0 & _ & _ & _ & _ & _ & _ & _ & _ & Ej & _). unfold speed_factor in *. rewrite Ej. exact (Hs _ _ G0).
    - destruct (exec_body _ _ _ _ _ _ (reachable_Inv _ Rs) H1 Es G) as [(v & Gv & _ & _ & _ & Ej)|(a & l & _ & _ & _ & _ & _ & Ej)]; [|exact Ej].
      destruct Ej as [Ej|(f & -> & _)]; [unfold speed_factor in *; rewrite Ej; exact (Hs _ _ Gv)|destruct Fo]. }
  refine (K _ _ _ Hh (reach_new) F _). intros k v G. unfold vehicle_at in G. simpl in G. rewrite sm_get_empty in G. discriminate G.
Qed.
Lemma new_tame (L d : R) ops s : 0 < L -> 0 <= d -> history (@sim_new RA) ops s -> Forall (one_limit L d) ops -> tame_sim L d s.
Proof.
  intros HL Hd Hh F. eapply history_tame; eauto; [constructor|]. split; [simpl; unR; lra|]. split; intros k0 x0 G0; unfold link_at, vehicle_at in G0; simpl in G0; rewrite sm_get_empty in G0; discriminate G0.
Qed.
(** No vehicle ever exceeds the limit. *)
Theorem C10_speed_limit :
  forall (L d : R) ops s k v, 0 < L -> 0 <= d -> history (@sim_new RA) ops s -> Forall (one_limit L d) ops ->
    vehicle_at s k = Some v -> (v_vel v : R) <= L.
Proof.
  intros L d ops s k v HL Hd Hh F G. destruct (new_tame L d ops s HL Hd Hh F) as (_ & _ & T).
  destruct (T _ _ G) as (_ & _ & _ & V & _). rewrite (factor_one L d ops s k v Hh F G) in V. lra.
Qed.
Print Assumptions C10_speed_limit.
(** With individual factors: once all vehicles are below their limits when an update is due, they stay
    below. *)
Theorem C10_factors :
  forall (L d : R) ops0 s ops s' k v', 0 < L -> 0 <= d -> history (@sim_new RA) ops0 s -> due (lit 1 10) ops0 = true ->
    (forall k l, link_at s k = Some l -> lk_limit l = L) ->
    (forall k v, vehicle_at s k = Some v -> 0 < (speed_factor v : R) /\ 0 < (max_acc v : R) /\ 4 * max_acc v * (1 / 10 + d) <= speed_factor v * L /\ (v_vel v : R) <= speed_factor v * L) ->
    history s ops s' -> Forall (one_limit L d) ops ->
    vehicle_at s' k = Some v' -> (v_vel v' : R) <= speed_factor v' * L.
Proof.
  intros L d ops0 s ops s' k v' HL Hd H0 D Hl Hv H F G'. pose proof (history_timers _ _ H0) as (T & _). pose proof (due_true _ _ _ T D) as D'. rewrite tenth_R in D'. apply ltb_R_false in D'.
  assert (@reachable RA s) as Rs by (eapply history_reachable; [exact H0|constructor]).
  assert (tame_sim L d s') as (_ & _ & Tv).
  { eapply history_tame; eauto. split; [lra|]. split; [exact Hl|]. intros k0 v0 G0. destruct (Hv _ _ G0) as (A1 & A2 & A3 & A4). unfold tame. repeat (split; [assumption|]). intros Lt. exfalso. lra. }
  apply (Tv _ _ G').
Qed.
Print Assumptions C10_factors.
