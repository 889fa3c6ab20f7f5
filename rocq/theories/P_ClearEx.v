(** * A concrete case of C74: the two cars of C73's example *)
From Coq Require Import List Bool ZArith NArith Arith Lia Reals Lra.
From Verif Require Import Arith RealArith Base SlotMap Util Geom Light Accel Net Path Vehicle LinkOps Sim SpecSim SpecMotion StepEvo SpecArrive SpecCheap SpecProg P_Prog SpecRoad SpecClear RoadLists P_Road P_RoadEx RoadClear P_Clear.
Import ListNotations.
Local Open Scope R_scope.

(** Sent to the end of the road, both cars have left the simulation after some time, whatever the lengths of the time
    steps, up to 0.1 s. *)
Theorem C74_case : forall pick, exists (s : @sim RA) T, history (@sim_new RA) go_ops s /\ vehicle_at s ahead_car <> None /\ vehicle_at s behind_car <> None /\
  forall dts, List.Forall (fun dt => 0 <= dt <= 1 / 10) dts -> T <= total dts -> exists n s', (forall fuel, (n <= fuel)%nat -> run (Env fuel pick) s (map (@OStep RA) dts) = Ok s') /\
    vehicle_at s' ahead_car = None /\ vehicle_at s' behind_car = None.
Proof.
  intros pick. destruct (go_facts pick) as (s & Hh & Fo & Ap & Nl & Sr & Gt & Pr & Pg & Gl & Co & (w & On1) & (v & On2) & Ag & Op & No & Ac & Le).
  destruct (C74_road_clears 10 (1 / 10) 20 2 [part1; part2; part3] [ahead_car; behind_car] go_ops s) as (T & HT); auto; try lra.
  exists s, T. split; [exact Hh|]. split; [rewrite (proj1 On2); discriminate|]. split; [rewrite (proj1 On1); discriminate|]. intros dts Fd Tb.
  destruct (C65_goes_on dts s pick (history_reachable _ _ _ Hh (@reach_new RA)) Pr Pg Gl Co) as (n & s' & H). exists n, s'. split; [exact H|].
  pose proof (HT dts s' Fd Tb (run_history _ _ _ _ (H n (le_n _)))) as X. split; eapply X; eauto.
Qed.
Print Assumptions C74_case.
