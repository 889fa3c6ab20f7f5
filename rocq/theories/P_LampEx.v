(** * A concrete case of C75: the two cars of C73's example, and a traffic light before the last link *)
From Coq Require Import List Bool ZArith NArith Arith Lia Reals Lra.
From Verif Require Import Arith RealArith Base SlotMap Util Geom Light Accel Net Path Vehicle LinkOps Sim SpecLight SpecSim SpecMotion SlotMapProofs SimInv StepEvo P_Limit SpecRoute SpecArrive SpecCheap SpecProg P_Prog SpecRoad SpecClear RoadLists P_Road P_RoadEx RoadClear SpecLamp P_Clear.
Import ListNotations.
Local Open Scope R_scope.

(** A light with two conflicting movements, the first of which controls the last link, and a phase of five seconds for each. *)
Definition lamp_calls : list (@lop RA) := [@LMovement RA 2 3 1 [part3]; @LMovement RA 1 3 1 []; @LPhase RA 1 5; @LPhase RA 2 5].
Definition lamp_ops : list (@op RA) := go_ops ++ [OAddLight lamp_calls].
Lemma lamp_made : exists l, made_by l lamp_calls /\ l_mlinks l = [(0%nat, part3)].
Proof. eexists. split; reflexivity. Qed.
Lemma lamp_exclusive : exclusive_phases lamp_calls.
Proof.
  assert (forall c n, has_bit (2 ^ N.of_nat c) n -> n = c) as B.
  { intros c n Hb. unfold has_bit in Hb. rewrite N.pow2_bits_eqb in Hb. apply N.eqb_eq in Hb. lia. }
  intros mask dur i j [E|[E|[]]] N Bi Bj _; injection E as <- <-; [apply (B 0%nat) in Bi, Bj|apply (B 1%nat) in Bi, Bj]; congruence.
Qed.

(** The light lets the first movement go from time to time, so both cars have left the simulation after some time, whatever
    the lengths of the time steps, up to 0.1 s. *)
Theorem C75_case : forall pick, exists (s : @sim RA) T, history (@sim_new RA) lamp_ops s /\ vehicle_at s ahead_car <> None /\ vehicle_at s behind_car <> None /\ controlled s part3 /\
  forall dts, List.Forall (fun dt => 0 <= dt <= 1 / 10) dts -> T <= total dts -> exists n s', (forall fuel, (n <= fuel)%nat -> run (Env fuel pick) s (map (@OStep RA) dts) = Ok s') /\
    vehicle_at s' ahead_car = None /\ vehicle_at s' behind_car = None.
Proof.
  intros pick. destruct (go_facts pick) as (s0 & Hh & Fo & Ap & Nl & Sr & Gt & Pr & Pg & Gl & Co & (w & On1) & (v & On2) & Ag & Op & No & Ac & Le).
  destruct lamp_made as (lt & Mk & Ml). set (s := fst (add_traffic_light s0 lt)). set (kl := sm_next_key (s_lights s0)). set (road := [part1; part2; part3]) in *.
  assert (exec (Env 0 pick) s0 (OAddLight lamp_calls) = Ok s) as Hx by (cbn [exec]; unfold made_by in Mk; rewrite Mk; reflexivity).
  assert (history (@sim_new RA) lamp_ops s) as Hs by (eapply history_app; [exact Hh|econstructor; [exact Hx|constructor]]).
  pose proof (i_lwf _ (history_Inv _ _ _ Hh Inv_new)) as Wf.
  assert (sm_get (s_lights s) kl = Some lt) as Gk by (unfold s, kl; cbn [s_lights add_traffic_light fst]; rewrite sm_get_insert by exact Wf; rewrite key_eqb_refl; reflexivity).
  assert (forall k l, sm_get (s_lights s) k = Some l -> k = kl /\ l = lt) as Only.
  { intros k l. unfold s, kl. cbn [s_lights add_traffic_light fst]. rewrite sm_get_insert by exact Wf. destruct (key_eqb_spec (sm_next_key (s_lights s0)) k) as [<-|]; [intros E; injection E as <-; auto|]. rewrite (No k). discriminate. }
  assert (forall k, sent_ahead go_ops s0 road k -> sent_ahead lamp_ops s road k) as Sa.
  { intros k (ops1 & e & t0 & t1 & ops2 & v0 & a & E & H1 & H & H2 & G0 & R0 & Ha & Na & Ho). exists ops1, e, t0, t1, (ops2 ++ [OAddLight lamp_calls]), v0, a. split; [unfold lamp_ops; rewrite E, <- app_assoc; reflexivity|].
    split; [exact H1|]. split; [exact H|]. split; [eapply history_app; [exact H2|econstructor; [exact Hx|constructor]]|]. do 4 (split; [assumption|]). intros o Hi. apply in_app_iff in Hi. destruct Hi as [Hi|[<-|[]]]; [exact (Ho o Hi)|auto]. }
  assert (all_go road lamp_ops s) as Ag' by (intros k x O; destruct (Ag k x O) as (Q1 & Q2); split; [exact Q1|exact (Sa k Q2)]).
  assert (good_traffic 10 (1 / 10) 20 2 road [ahead_car; behind_car] lamp_ops s) as Gt'.
  { destruct Gt as (T1 & T2 & T3). split; [exact T1|]. split; [|exact T3]. intros k x O. destruct (T2 k x O) as (Q1 & Q2 & Q3 & Q4). split; [exact Q1|]. split; [|split; [exact Q3|exact Q4]]. exact (sent_both _ _ _ _ (proj2 (Ag' k x O))). }
  assert (controlled s part3) as C3 by (exists kl, lt, 0%nat; split; [exact Gk|unfold controls; rewrite Ml; left; reflexivity]).
  assert (sound_lights s) as Sn. { intros k l G. destruct (Only k l G) as (_ & ->). exists lamp_calls. split; [exact Mk|]. split; [cbn; lia|exact lamp_exclusive]. }
  assert (forall x, In x road -> opens s x) as Opn.
  { assert (forall x, In x road -> x <> part3 -> opens s x) as Q.
    { intros x Hx3 Nx. left. pose proof (proj1 (proj2 Sr) x Hx3) as V. apply sm_mem_get in V. destruct V as (l & G). split; [left; exists l; split; [exact G|apply (Op x l G)]|].
      intros (k & l0 & i & G0 & Ci). destruct (Only k l0 G0) as (_ & ->). unfold controls in Ci. rewrite Ml in Ci. destruct Ci as [E|[]]. congruence. }
    intros x [<-|[<-|[<-|[]]]]; [apply Q; [left; reflexivity|discriminate]|apply Q; [right; left; reflexivity|discriminate]|].
    right. exists kl, lt, 0%nat, lamp_calls, 1%N, 5. split; [exact Gk|]. split; [unfold controls; rewrite Ml; left; reflexivity|]. split.
    - intros k2 l2 i2 G2 Ci. destruct (Only k2 l2 G2) as (-> & ->). unfold controls in Ci. rewrite Ml in Ci. destruct Ci as [E|[]]. injection E as <-. auto.
    - split; [exact Mk|]. split; [left; reflexivity|]. split; [reflexivity|lra]. }
  destruct (C75_road_clears 10 (1 / 10) 20 2 road [ahead_car; behind_car] lamp_ops s) as (T & HT); auto; try lra.
  { apply Forall_app. split; [exact Fo|]. constructor; [exact Logic.I|constructor]. }
  { intros x l G. destruct (Op x l G) as (_ & Q). exact Q. }
  exists s, T. split; [exact Hs|]. split; [change (vehicle_at s0 ahead_car <> None); rewrite (proj1 On2); discriminate|]. split; [change (vehicle_at s0 behind_car <> None); rewrite (proj1 On1); discriminate|]. split; [exact C3|]. intros dts Fd Tb.
  assert (good_lights s) as Gl'.
  { intros k l G. destruct (Only k l G) as (_ & ->). unfold made_by, lamp_calls in Mk. injection Mk as <-. cbn [l_phases l_movements l_mlinks]. split; [discriminate|]. split; [cbn; lia|]. intros lid [<-|[]].
    pose proof (proj1 (proj2 Sr) part3 ltac:(right; right; left; reflexivity)) as V. apply sm_mem_get in V. destruct V as (l & G3). unfold link_at. change (s_links s) with (s_links s0). cbn [snd]. rewrite G3. discriminate. }
  destruct (C65_goes_on dts s pick (history_reachable _ _ _ Hs (@reach_new RA)) Pr Pg Gl' Co) as (n & s' & H). exists n, s'. split; [exact H|].
  pose proof (HT dts s' Fd Tb (run_history _ _ _ _ (H n (le_n _)))) as X. split; eapply X; eauto.
Qed.
Print Assumptions C75_case.
