(** * C97: nobody gets anywhere faster than the speed limit allows *)
From Coq Require Import List Bool ZArith NArith Arith Lia Reals Lra.
From Verif Require Import Arith RealArith Base BaseProofs SlotMap Util Geom Light Accel Net Path Vehicle LinkOps Sim SpecSim SpecMotion SlotMapProofs Safe NetInv SimInv StepSafe OpSafe Evo StepEvo SimProofs StepProofs NetEvo Motion RFacts GapProofs SpecNet P_Net P_Lane P_Limit SpecGlide SpecWay RaExample P_RoadEx P_ShutEx.
Import ListNotations.
Local Open Scope R_scope.

Lemma way_net (m m' : @linkset RA) a b d : same_net m m' -> way m' a b d -> way m a b d.
Proof.
  intros Sn W. induction W as [a|a la c b d G Hc W IH]; [constructor|].
  destruct (same_net_get _ _ _ _ Sn G) as (l0 & G0 & Est).
  assert (lk_length la = lk_length l0 /\ lk_out la = lk_out l0) as (El & Eo). { unfold lk_static in Est. unfold lk_length. inversion Est. split; congruence. }
  rewrite El. rewrite Eo in Hc. econstructor; eauto.
Qed.
Lemma no_lanes_net (m m' : @linkset RA) : same_net m m' -> no_lanes m -> no_lanes m'.
Proof.
  intros Sn N a la G. destruct (same_net_get _ _ _ _ Sn G) as (l0 & G0 & Est). rewrite <- (N a l0 G0). unfold lk_static in Est. inversion Est. congruence.
Qed.

(** Where links have no lanes beside them: a vehicle that is there after some steps got there by driving along connected links, the distance from where
    it was to where it is, measured along those links, is not negative, and it is at most the speed limit times the time that has passed. *)
Theorem C97_distance :
  forall (L d : R) dts ops (s s' : @sim RA) k v', 0 < L -> 0 <= d -> history (@sim_new RA) ops s -> List.Forall (one_limit L d) ops -> no_lanes (s_links s) ->
    List.Forall (fun dt => 0 <= dt <= d) dts -> history s (map (@OStep RA) dts) s' -> vehicle_at s' k = Some v' ->
    exists v a b D, vehicle_at s k = Some v /\ v_link v = Some a /\ v_link v' = Some b /\ way (s_links s) a b D /\
      0 <= D + v_pos v' - v_pos v <= L * time_of dts /\ (0 <= v_pos v -> 0 <= v_pos v').
Proof.
  intros L d dts. induction dts as [|dt dts IH]; intros ops s s' k v' HL Hd Hh F N Fd H G'; cbn [map] in H.
  - inversion H; subst. assert (reachable s') as Re by (eapply history_reachable; [exact Hh|constructor]). pose proof (reachable_Inv _ Re) as I.
    destruct I as [[Nk W V O] _ _ _ _ _]. destruct (vbase_link _ _ _ _ (V _ _ G')) as (a & La & _). exists v', a, a, 0. cbn [time_of fold_right]. split; [exact G'|]. split; [exact La|]. split; [exact La|]. split; [constructor|]. split; [lra|auto].
  - inversion H as [|e ? ? s1 ? ? H1 H2]; subst. inversion Fd as [|? ? B Fd']; subst. assert (reachable s) as Re by (eapply history_reachable; [exact Hh|constructor]). pose proof (reachable_Inv _ Re) as I.
    assert (history (@sim_new RA) (ops ++ [@OStep RA dt]) s1) as Hh1 by (eapply history_app; [exact Hh|econstructor; [exact H1|constructor]]).
    assert (List.Forall (one_limit L d) (ops ++ [@OStep RA dt])) as F1 by (apply Forall_app; split; [exact F|constructor; [exact B|constructor]]).
    cbn [exec] in H1. pose proof (step_same_net _ _ _ _ I H1) as Sn.
    destruct (IH _ _ _ _ _ HL Hd Hh1 F1 (no_lanes_net _ _ Sn N) Fd' H2 G') as (v1 & a1 & b & D & G1 & L1 & Lb & W & B1 & Q1).
    destruct (step_motion _ _ _ _ _ _ I H1 G1) as (v & _ & _ & _ & _ & G & _).
    assert (reachable s1) as Re1 by (eapply history_reachable; [exact Hh1|constructor]).
    pose proof (vel0_R s k v Re G) as V0. pose proof (vel0_R s1 k v1 Re1 G1) as V1. pose proof (C10_speed_limit L d _ _ _ _ HL Hd Hh F G) as U0. pose proof (C10_speed_limit L d _ _ _ _ HL Hd Hh1 F1 G1) as U1.
    destruct (step_position _ _ _ _ _ _ _ I H1 G G1) as [(x & y & Lx & (lx & Gx & Cx) & _)|(p & a & la & La & Ga & Ep & C)]; [exfalso; rewrite (N _ _ Gx) in Cx; exact Cx|].
    assert (p = v_pos v + 1 / 2 * (v_vel v + v_vel v1) * dt) as Ep'. { rewrite Ep. unfold nhalf. cbn. lra. }
    assert (0 <= 1 / 2 * (v_vel v + v_vel v1) * dt <= L * dt) as Bp. { split; [apply Rmult_le_pos; lra|apply Rmult_le_compat_r; lra]. }
    cbn [time_of fold_right]. fold (time_of dts). rewrite Rmult_plus_distr_l. destruct C as [(_ & C1 & C2)|(Lt & C2 & c & C1 & (l0 & Gl & Hc))].
    + exists v, a, b, D. split; [exact G|]. split; [exact La|]. split; [exact Lb|]. assert (a1 = a) by congruence. subst a1. split; [exact (way_net _ _ _ _ _ Sn W)|]. change (v_pos v1 = p) in C2. rewrite C2, Ep' in B1. split; [lra|]. intros Q. apply Q1. rewrite C2, Ep'. lra.
    + exists v, a, b, (lk_length la + D). split; [exact G|]. split; [exact La|]. split; [exact Lb|]. assert (c = a1) by congruence. subst c. assert (l0 = la) by congruence. subst l0.
      split; [econstructor; [exact Ga|exact Hc|exact (way_net _ _ _ _ _ Sn W)]|]. change (v_pos v1 = p - lk_length la) in C2. apply ltb_R in Lt. split; [rewrite C2, Ep' in B1; lra|]. intros _. apply Q1. rewrite C2. lra.
Qed.
Print Assumptions C97_distance.

(** So a vehicle takes at least the length of the way over the speed limit to get from the start of a link to another link. *)
Theorem C97_time :
  forall (L d : R) dts ops (s s' : @sim RA) k v v' a b X, 0 < L -> 0 <= d -> history (@sim_new RA) ops s -> List.Forall (one_limit L d) ops -> no_lanes (s_links s) ->
    List.Forall (fun dt => 0 <= dt <= d) dts -> history s (map (@OStep RA) dts) s' -> vehicle_at s k = Some v -> vehicle_at s' k = Some v' ->
    v_link v = Some a -> v_pos v = 0 -> v_link v' = Some b -> (forall D, way (s_links s) a b D -> X <= D) ->
    X / L <= time_of dts.
Proof.
  intros L d dts ops s s' k v v' a b X HL Hd Hh F N Fd H G G' La P0 Lb HX.
  destruct (C97_distance L d dts ops s s' k v' HL Hd Hh F N Fd H G') as (w & a' & b' & D & Gw & La' & Lb' & W & B & Q).
  assert (w = v) by congruence. subst w. assert (a' = a) by congruence. subst a'. assert (b' = b) by congruence. subst b'. specialize (HX _ W).
  apply (Rmult_le_reg_l L); [exact HL|]. replace (L * (X / L)) with X by (field; lra). change (v_pos v = 0) in P0. assert (0 <= v_pos v') by (apply Q; lra). rewrite P0 in B. lra.
Qed.
Print Assumptions C97_time.

(** A car on its way to a stop sign, for any number of steps. *)
Example C97_case : exists (s : @sim RA) ops, history (@sim_new RA) ops s /\ List.Forall (one_limit 10 (1 / 10)) ops /\ no_lanes (s_links s) /\
  forall dts, List.Forall (fun dt => 0 <= dt <= 1 / 10) dts -> exists s' v', history s (map (@OStep RA) dts) s' /\ vehicle_at s' only_car = Some v'.
Proof.
  destruct (C82_case (e_pick ra_env)) as (s0 & s & e0 & l1 & Hh & Hd & _ & _ & _ & _ & Go). exists s, (shut_ops ++ [OSetDestination only_car part2]).
  assert (history (@sim_new RA) (shut_ops ++ [OSetDestination only_car part2]) s) as Hist by (eapply history_app; [exact Hh|econstructor; [exact Hd|constructor]]).
  split; [exact Hist|]. split; [repeat constructor; cbn; lra|]. split.
  - intros a la G. destruct (lk_changes la) as [|b r] eqn:E; [reflexivity|]. exfalso. assert (In b (lk_changes la)) as Hb by (rewrite E; left; reflexivity).
    apply (C26_lane_changes RA _ _ _ _ _ Hist G) in Hb. destruct Hb as (ids & mask & Hi & _). cbn in Hi. repeat (destruct Hi as [Hi|Hi]; [discriminate Hi|]). exact Hi.
  - intros dts Fd. destruct (Go dts Fd) as (n & s' & v' & Hs & Gv & _). exists s', v'. split; [eapply run_history; exact (Hs n (le_n _))|exact Gv].
Qed.
