(** * C69: a vehicle alone on open roads gets to its destination *)
From Coq Require Import List Bool ZArith NArith Arith Lia Reals Lra Relation_Operators Operators_Properties.
From Verif Require Import Arith RealArith Base BaseProofs SlotMap Util Geom Light Accel Net Path Vehicle LinkOps Sim SpecLight LightProofs SpecSim SlotMapProofs Safe NetInv SimInv AccSafe SimSafe StepSafe OpSafe Evo StepEvo SimProofs StepProofs Ord LogProofs SpecMotion Motion RFacts P_Motion SpecRoute PlanProofs RouteProofs RouteEvo P_Route P_Exit NetEvo P_Lane SpecEnter EnterProofs P_Enter SpecAhead P_Ahead SpecConf ConfProofs P_Conf SpecSide SpecReason P_Reason P_Alone QueueProofs ArriveKin SpecArrive ArriveProofs CrossProofs P_Limit WhereProofs LightTime SpecLamp LampProofs.
Import ListNotations.
Local Open Scope R_scope.

(** ** It gets there (C77) *)
(** A vehicle that is alone in the simulation, on roads without lanes beside each other, on which no way leads back to
    where it started or crosses or joins itself, and whose link leads to another link [d], leaves the simulation
    within a bounded time after it is sent to [d], whatever the lengths of the steps as long as none is longer than
    [dmax], if all links on ways to [d] are open, or have give-way or stop signs, or have traffic lights that show green from
    time to time, and where a light stands there is no choice of the way. *)
Theorem C77_alone_arrives :
  forall ops (s0 : @sim RA) k v a d e s1 (dmax limit : R), history (@sim_new RA) ops s0 -> groups_apart ops ->
    vehicle_at s0 k = Some v -> v_route v = [a] -> a <> d -> v_lane_change v = None -> leads (s_links s0) a d -> exec e s0 (OSetDestination k d) = Ok s1 ->
    alone s0 k -> get_vehicle_frozen s0 k = false -> single_lanes s0 -> no_conflict_along s0 -> no_way_back (s_links s0) ->
    sound_lights s0 -> (forall x, leads (s_links s0) x d -> opens s0 x) -> no_choice_at_lights s0 d ->
    at_least s0 (v_half_len v + 3) limit -> 0 < limit -> 0 <= v_half_len v -> 0 < max_acc v -> 0 < comf_dec v -> 0 < speed_factor v -> 0 <= dmax ->
    exists T, forall dts s, List.Forall (fun dt => 0 <= dt <= dmax) dts -> T <= total dts -> history s1 (map (@OStep RA) dts) s -> vehicle_at s k = None.
Proof.
  intros ops s0 k v a d e s1 dmax limit Hist Ap G R0 Nad Lc Ld H Al Fz Op Na Ac Sn Opn Nc Rm Li Hl Ma Cd Sf Dm.
  destruct (sent ops s0 k v a d e s1 dmax limit Hist Ap G R0 Nad Lc Ld H Al Fz Op Ac Rm Li Hl Ma Cd Sf Dm) as (m & vs & M & P0 & v1 & Clo & So & Sl & P0n & Mb & G1 & L1 & Go).
  destruct (dest_same _ _ _ _ _ _ _ H G G1) as (_ & _ & _ & _ & _ & E6 & _ & _ & _ & E10). assert (s_links s1 = s_links s0) as El by (destruct (dest_bound _ _ _ _ _ _ _ _ Hist Ap RA_cast H G G1) as (El & _); exact El).
  assert (alone s1 k) as Al1. { intros y w Gw. destruct (E10 _ _ Gw) as (w0 & Gw0). exact (Al _ _ Gw0). }
  assert (no_conflict_along s1) as Na1 by (unfold no_conflict_along, link_at in *; rewrite El; exact Na).
  destruct (leaves_lights k d (s_links s0) m v limit vs dmax M P0 (fun s => alone s k /\ no_conflict_along s) s1 (fun x => leads (s_links s0) x d) Ac Clo So Rm Hl Li Ma Cd Sf Sl Dm P0n Mb) as (Gd & Gd1 & _ & Q).
  - intros e2 s dt s' w (Qs & Qn) Gg _ Hs. pose proof (g_trip _ _ _ _ _ _ _ _ _ Gg) as Jt. exact (alone_all _ _ _ _ Ac e2 s dt s' w Qs Qn Jt Hs).
  - intros e2 s dt s' w w' (Qs & Qn) Gg _ Hs _. pose proof (trip_Inv _ _ _ _ _ _ (g_trip _ _ _ _ _ _ _ _ _ Gg)) as I2. split; [exact (alone_kept k e2 s dt s' Qs I2 Hs)|exact (along_kept e2 s dt s' I2 Hs Qn)].
  - unfold sound_lights in *. rewrite E6. exact Sn.
  - exact So.
  - intros x Hx. specialize (Opn x Hx). unfold opens, has_sign, gets_green, controlled, link_at in *. rewrite E6, El. exact Opn.
  - intros x b c Sb Sc Mb' Mc Cb. apply (Nc x b c Sb Sc (So b Mb') (So c Mc)). unfold controlled in *. rewrite E6 in Cb. exact Cb.
  - destruct (Q a) as (B & HB). exists B. intros dts s F T Hh. exact (HB s1 v1 Gd1 (conj Al1 Na1) Go L1 dts s Hh F T).
Qed.
Print Assumptions C77_alone_arrives.
(** Without conflicts (C75). *)
Theorem C75_alone_arrives :
  forall ops (s0 : @sim RA) k v a d e s1 (dmax limit : R), history (@sim_new RA) ops s0 -> groups_apart ops ->
    vehicle_at s0 k = Some v -> v_route v = [a] -> a <> d -> v_lane_change v = None -> leads (s_links s0) a d -> exec e s0 (OSetDestination k d) = Ok s1 ->
    alone s0 k -> get_vehicle_frozen s0 k = false -> plain_roads s0 -> no_way_back (s_links s0) ->
    sound_lights s0 -> (forall x, leads (s_links s0) x d -> opens s0 x) -> no_choice_at_lights s0 d ->
    at_least s0 (v_half_len v + 3) limit -> 0 < limit -> 0 <= v_half_len v -> 0 < max_acc v -> 0 < comf_dec v -> 0 < speed_factor v -> 0 <= dmax ->
    exists T, forall dts s, List.Forall (fun dt => 0 <= dt <= dmax) dts -> T <= total dts -> history s1 (map (@OStep RA) dts) s -> vehicle_at s k = None.
Proof.
  intros ops s0 k v a d e s1 dmax limit Hist Ap G R0 Nad Lc Ld H Al Fz Op Ac Sn Opn Nc Rm Li Hl Ma Cd Sf Dm.
  apply (C77_alone_arrives ops s0 k v a d e s1 dmax limit); auto; [apply plain_single; exact Op|apply plain_along; exact Op].
Qed.
Print Assumptions C75_alone_arrives.

(** ** C69 *)
(** The same on open roads without lights. *)
Theorem C69_arrives :
  forall ops (s0 : @sim RA) k v a d e s1 (dmax limit : R), history (@sim_new RA) ops s0 -> groups_apart ops ->
    vehicle_at s0 k = Some v -> v_route v = [a] -> a <> d -> v_lane_change v = None -> leads (s_links s0) a d -> exec e s0 (OSetDestination k d) = Ok s1 ->
    alone s0 k -> get_vehicle_frozen s0 k = false -> open_roads s0 -> no_lights s0 -> no_way_back (s_links s0) ->
    at_least s0 (v_half_len v + 3) limit -> 0 < limit -> 0 <= v_half_len v -> 0 < max_acc v -> 0 < comf_dec v -> 0 < speed_factor v -> 0 <= dmax ->
    exists T, forall dts s, List.Forall (fun dt => 0 <= dt <= dmax) dts -> T <= total dts -> history s1 (map (@OStep RA) dts) s -> vehicle_at s k = None.
Proof.
  intros ops s0 k v a d e s1 dmax limit Hist Ap G R0 Nad Lc Ld H Al Fz Op Nl Ac Rm Li Hl Ma Cd Sf Dm.
  apply (C75_alone_arrives ops s0 k v a d e s1 dmax limit); auto.
  - apply open_plain. exact Op.
  - apply no_lights_sound. exact Nl.
  - intros x Lx. assert (exists l, link_at s0 x = Some l) as (l & Gx); [|exact (open_opens s0 x l Op Nl Gx)].
    assert (valid (s_links s0) a) as Va by (pose proof (history_Inv _ _ _ Hist Inv_new) as I0; eapply (link_src _ _ _ _ I0 G); unfold v_link; rewrite R0; reflexivity).
    apply sm_mem_get. change (valid (s_links s0) x). assert (x = d \/ valid (s_links s0) x) as [->|Q]; [| |exact Q].
    { clear - Lx. apply clos_rt_rt1n in Lx. destruct Lx as [|y z [(l & G & _)|(l & G & _)] _]; [left; reflexivity|right; apply sm_mem_get; eauto|right; apply sm_mem_get; eauto]. }
    apply clos_rt_rtn1 in Ld. destruct Ld as [|y z [St|St] _]; [exact Va|apply (succ_valid ops s0 (s_links s0) Hist (same_net_refl _)) in St; apply St|apply (chg_valid ops s0 (s_links s0) Hist (same_net_refl _)) in St; apply St].
  - intros x b c _ _ _ _ (kl & l & i & Q & _). rewrite Nl in Q. discriminate Q.
Qed.
Print Assumptions C69_arrives.

(** ** And it leaves there, not elsewhere *)
(** If moreover all links have the limit [L], and no link is shorter than what a vehicle at that limit can cover until
    the next choice of paths is made, the vehicle is on its destination link when it leaves: it passes no end of a
    link before it knows how to go on. *)
Theorem C69_where :
  forall ops (s0 : @sim RA) k v a d e s1 (L dmax : R) la dts s v' e' dt s', history (@sim_new RA) ops s0 -> groups_apart ops ->
    vehicle_at s0 k = Some v -> v_route v = [a] -> a <> d -> v_lane_change v = None -> leads (s_links s0) a d -> exec e s0 (OSetDestination k d) = Ok s1 ->
    alone s0 k -> get_vehicle_frozen s0 k = false -> single_lanes s0 -> no_way_back (s_links s0) ->
    List.Forall (one_limit L dmax) ops -> 0 < L -> 0 <= dmax -> at_least s0 (5 / 4 * L * (3 / 10 + dmax)) L ->
    link_at s0 a = Some la -> v_pos v + 5 / 4 * L * (3 / 10 + dmax) <= lk_length la ->
    List.Forall (fun dt => 0 <= dt <= dmax) dts -> history s1 (map (@OStep RA) dts) s -> vehicle_at s k = Some v' ->
    0 <= dt <= dmax -> step e' s dt = Ok s' -> vehicle_at s' k = None -> v_link v' = Some d.
Proof.
  intros ops s0 k v a d e s1 L dmax la dts s v' e' dt s' Hist Ap G R0 Nad Lc Ld H Al Fz Op Ac Ol L0 Dm Le Gla Pa F Hh G' Hdt Hs Gn.
  destruct (sent_trip ops s0 k v a d e s1 Hist Ap G R0 Nad Lc Ld H Al Fz Op) as (v1 & m & G1 & Clo & So & J & L1 & E2 & _ & _ & _ & E9).
  assert (forall x l, sm_get (s_links s0) x = Some l -> 5 / 4 * L * (3 / 10 + dmax) <= lk_length l) as Rm by (intros x l Gx; apply (Le x l Gx)).
  pose proof (lc_nonneg _ _ _ _ Hist Ol) as T0.
  assert (calm k d (s_links s0) m L dmax s1 v1) as C1.
  { constructor; [exact J| |rewrite E9; exact T0|].
    - exists (ops ++ [OSetDestination k d]). split; [eapply history_app; [exact Hist|econstructor; [exact H|constructor]]|]. apply Forall_app. split; [exact Ol|]. constructor; [exact Logic.I|constructor].
    - intros b lb Lb Gb. assert (b = a) by congruence. subst b. unfold link_at in Gla. assert (lb = la) by congruence. subst lb. rewrite E2, E9.
      assert (0 <= 5 / 4 * L * s_lc_update s0) by (apply Rmult_le_pos; lra). assert (0 <= 5 / 4 * L * (3 / 10 + dmax)) by (apply Rmult_le_pos; lra). split; [lra|right; lra]. }
  pose proof (calm_history k d (s_links s0) m L dmax Ac Clo So L0 Dm Rm dts s1 v1 s v' C1 Hh F G') as C.
  exact (calm_gone k d (s_links s0) m L dmax Ac Clo So L0 Dm e' s dt s' v' C Hs Gn Hdt).
Qed.
Print Assumptions C69_where.

(** ** Links that no traffic light controls (C06) *)
Theorem C06_others :
  forall (A : Arith) e s dt s' lid, reachable s -> step e s dt = Ok s' -> (forall k l i, sm_get (s_lights s) k = Some l -> ~ controls l i lid) ->
    forall l', link_at s' lid = Some l' -> exists l, link_at s lid = Some l /\ lk_control l' = lk_control l.
Proof.
  intros A e s dt s' lid Rc H N l' G. pose proof (step_others e s dt s' lid (reachable_Inv _ Rc) H N) as E. unfold ctl, link_at in *. rewrite G in E.
  destruct (sm_get (s_links s) lid) as [l|]; [|discriminate E]. exists l. split; [reflexivity|]. cbn in E. congruence.
Qed.
Print Assumptions C06_others.
