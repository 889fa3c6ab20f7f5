(** * C95: while no time passes nothing moves *)
From Coq Require Import List Bool ZArith NArith Arith Lia Reals Lra.
From Verif Require Import Arith RealArith Base BaseProofs SlotMap Util Geom Light Accel Net Path Vehicle LinkOps Sim SpecSim SpecMotion SlotMapProofs Safe NetInv SimInv StepSafe OpSafe Evo StepEvo SimProofs StepProofs NetEvo Motion RFacts GapProofs SpecNet P_Net P_Lane SpecMap RoadMap SpecGlide GlideProofs SpecProg P_Prog RaExample P_RoadEx P_ShutEx.
Import ListNotations.
Local Open Scope R_scope.

(** A step of no duration changes no speed; a vehicle that is not past the end of its link stays where it is, unless it may change to another lane. *)
Theorem C95_step : forall e (s s' : @sim RA) k v v', reachable s -> step e s (0 : R) = Ok s' -> vehicle_at s k = Some v -> vehicle_at s' k = Some v' ->
  v_vel v' = v_vel v /\
  forall a l, v_link v = Some a -> link_at s a = Some l -> v_pos v <= lk_length l -> (forall b, chg_of (s_links s) a b -> b = a) -> v_link v' = Some a /\ v_pos v' = v_pos v.
Proof.
  intros e s s' k v v' Re H G G'. pose proof (reachable_Inv _ Re) as I. unfold vehicle_at, link_at in *.
  assert (v_vel v' = v_vel v) as Ev.
  { destruct (step_motion _ _ _ _ _ _ I H G') as (v0 & s1 & s2 & v1 & v2 & G0 & _ & _ & _ & _ & _ & _ & _ & _ & _ & E & _). assert (v0 = v) by congruence. subst v0. rewrite max_R in E.
    pose proof (vel0_R s k v Re G) as V. rewrite E. change (Rmax (v_vel v + 0 * am_get (v_acc v')) 0 = v_vel v). rewrite Rmult_0_l, Rplus_0_r. apply Rmax_left. exact V. }
  split; [exact Ev|]. intros a l L Ga Po No. destruct (step_position _ _ _ _ _ _ _ I H G G') as [(x & y & Lx & C & Ne)|(p & lid & l0 & Hl & Gl & Ep & C)].
  - exfalso. rewrite L in Lx. injection Lx as <-. apply Ne. symmetry. exact (No _ C).
  - rewrite L in Hl. injection Hl as <-. assert (l0 = l) by congruence. subst l0. assert (p = v_pos v) as E. { rewrite Ep. unR. match goal with |- ?x = ?y => change (@eq R x y) end. ring. }
    destruct C as [(_ & C1 & C2)|(C & _)]; [split; congruence|]. exfalso. apply ltb_R in C. rewrite E in C. lra.
Qed.
Print Assumptions C95_step.

(** And so it is for any number of steps of no duration. *)
Theorem C95_pause : forall n (s s' : @sim RA) k v', reachable s -> history s (repeat (@OStep RA 0) n) s' -> vehicle_at s' k = Some v' ->
  exists v, vehicle_at s k = Some v /\ v_vel v' = v_vel v /\
  forall a l, v_link v = Some a -> link_at s a = Some l -> v_pos v <= lk_length l -> (forall b, chg_of (s_links s) a b -> b = a) -> v_link v' = Some a /\ v_pos v' = v_pos v.
Proof.
  induction n as [|n IH]; intros s s' k v' Re H G'; cbn [repeat] in H.
  - inversion H; subst. exists v'. split; [exact G'|]. split; [reflexivity|]. auto.
  - inversion H as [|e ? ? s1 ? ? H1 H2]; subst. assert (reachable s1) as Re1 by (eapply reach_call; [exact Re|exact H1]). cbn [exec] in H1.
    destruct (IH _ _ _ _ Re1 H2 G') as (v1 & G1 & E1 & K1). pose proof (reachable_Inv _ Re) as I. destruct (step_motion _ _ _ _ _ _ I H1 G1) as (v & _ & _ & _ & _ & G & _).
    destruct (C95_step _ _ _ _ _ _ Re H1 G G1) as (E & K). exists v. split; [exact G|]. split; [congruence|]. intros a l L Ga Po No. destruct (K a l L Ga Po No) as (L1 & P1).
    pose proof (step_same_net _ _ _ _ I H1) as Sn. assert (exists l1, link_at s1 a = Some l1 /\ lk_static l1 = lk_static l) as (l1 & Gl1 & Est).
    { destruct (same_net_get' _ _ _ _ Sn Ga) as (l1 & X1 & X2). eauto. }
    assert (lk_length l1 = lk_length l /\ lk_changes l1 = lk_changes l) as (El & Ec). { unfold lk_static in Est. unfold lk_length. inversion Est. split; congruence. }
    destruct (K1 a l1 L1 Gl1) as (L' & P'); [rewrite P1, El; exact Po|intros b (l2 & G2 & Hb); apply No; exists l; split; [exact Ga|]; unfold link_at in Gl1; congruence|]. split; congruence.
Qed.
Print Assumptions C95_pause.

Lemma run_app {A : Arith} e ops1 ops2 s : run e s (ops1 ++ ops2) = bind (run e s ops1) (fun s => run e s ops2).
Proof. revert s. induction ops1 as [|o ops1 IH]; intros s; cbn [run app bind]; [reflexivity|]. destruct (exec e s o); cbn [bind]; auto. Qed.

(** A car that drives up to a stop sign, then two steps of no duration.  It is not past the end of its link, or it would not be on it after a further step. *)
Example C95_case : exists (s s' : @sim RA) v v' l, reachable s /\ history s (repeat (@OStep RA 0) 2) s' /\ vehicle_at s only_car = Some v /\ vehicle_at s' only_car = Some v' /\
  v_link v = Some part1 /\ link_at s part1 = Some l /\ v_pos v <= lk_length l /\ (forall b, chg_of (s_links s) part1 b -> b = part1) /\ v_vel v' = v_vel v /\ v_pos v' = v_pos v.
Proof.
  set (pick := e_pick ra_env). destruct (C82_case pick) as (s0 & sd & e0 & l1 & Hh & Hd & _ & _ & _ & _ & Go).
  destruct (Go [1 / 10; 1 / 10]) as (m0 & s & v & Hs & Gv & Lv); [repeat constructor; lra|]. destruct (Go [1 / 10; 1 / 10; 0]) as (m1 & t & w & Ht & Gw & Lw); [repeat constructor; lra|].
  destruct (Go [1 / 10; 1 / 10; 0; 0]) as (m2 & s' & v' & Hs' & Gv' & Lv'); [repeat constructor; lra|].
  set (f := Nat.max m0 (Nat.max m1 m2)). specialize (Hs f ltac:(lia)). specialize (Ht f ltac:(lia)). specialize (Hs' f ltac:(lia)).
  assert (history (@sim_new RA) (shut_ops ++ OSetDestination only_car part2 :: map (@OStep RA) [1 / 10; 1 / 10]) s) as Hist by (eapply history_app; [exact Hh|econstructor; [exact Hd|eapply run_history; exact Hs]]).
  assert (reachable s) as Re by (eapply history_reachable; [exact Hist|constructor]). pose proof (reachable_Inv _ Re) as I.
  change (map (@OStep RA) [1 / 10; 1 / 10; 0]) with (map (@OStep RA) [1 / 10; 1 / 10] ++ [@OStep RA 0]) in Ht. change (map (@OStep RA) [1 / 10; 1 / 10; 0; 0]) with (map (@OStep RA) [1 / 10; 1 / 10] ++ repeat (@OStep RA 0) 2) in Hs'.
  rewrite run_app, Hs in Ht, Hs'. cbn [bind] in Ht, Hs'. assert (history s (repeat (@OStep RA 0) 2) s') as H2 by (eapply run_history; exact Hs').
  cbn [run exec] in Ht. destruct (step (Env f pick) s 0) as [t0| |] eqn:St; cbn [bind] in Ht; try discriminate Ht. injection Ht as ->.
  assert (forall b, ~ chg_of (s_links s) part1 b) as No.
  { intros b (l & G & Hb). apply (C26_lane_changes RA _ _ _ _ _ Hist G) in Hb. destruct Hb as (ids & mask & Hi & _). cbn in Hi. repeat (destruct Hi as [Hi|Hi]; [discriminate Hi|]). exact Hi. }
  destruct (step_position _ _ _ _ _ _ _ I St Gv Gw) as [(x & y & Lx & C & Ne)|(p & lid & l & Hl & Gl & Ep & C)]; [exfalso; rewrite Lv in Lx; injection Lx as <-; exact (No _ C)|].
  rewrite Lv in Hl. injection Hl as <-. assert (p = v_pos v) as E. { rewrite Ep. unR. match goal with |- ?x = ?y => change (@eq R x y) end. ring. }
  assert (v_pos v <= lk_length l) as Po.
  { destruct C as [(C & _)|(_ & _ & lid' & L' & (l2 & G2 & Hb))]; [apply ltb_R_false in C; rewrite E in C; exact C|]. exfalso. rewrite Lw in L'. injection L' as <-.
    destruct (C55_connections RA _ _ _ _ Hist G2) as (Eo & _). rewrite Eo in Hb. cbn in Hb. destruct Hb as [Hb|[]]. discriminate Hb. }
  destruct (C95_pause 2 s s' only_car v' Re H2 Gv') as (v0 & G0 & Ev & K). assert (v0 = v) by congruence. subst v0. destruct (K part1 l Lv Gl Po) as (_ & Ep'); [intros b Hb; destruct (No _ Hb)|].
  exists s, s', v, v', l. split; [exact Re|]. split; [exact H2|]. split; [exact Gv|]. split; [exact Gv'|]. split; [exact Lv|]. split; [exact Gl|]. split; [exact Po|]. split; [intros b Hb; destruct (No _ Hb)|]. auto.
Qed.
