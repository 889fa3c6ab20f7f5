(** * The same calls give the same results (C86) *)
From Coq Require Import List Bool ZArith NArith Arith Lia Relation_Operators Operators_Properties.
From Verif Require Import Arith RealArith Base BaseProofs SlotMap SlotMapProofs Util Geom Light Accel Net Path Vehicle LinkOps Sim SpecSim Safe NetInv SimInv StepSafe SimSafe OpSafe Evo StepEvo SpecRoute PlanProofs RouteProofs F64 SimExample FuelProofs.
Import ListNotations.

Section Same.
  Context {A : Arith}.
  Lemma fle_eq {X} (a b : res X) : fle a b \/ fle b a -> a <> OutOfFuel -> b <> OutOfFuel -> a = b.
  Proof. intros [[E|E]|[E|E]] Na Nb; congruence. Qed.
  Lemma fle_run e1 e2 ops : e_fuel e1 <= e_fuel e2 -> forall s, Inv s ->
    same_picks e1 e2 \/ (forall v d, ~ In (OSetDestination v d) ops) /\ (forall k v, sm_get (s_vehicles s) k = Some v -> pf_dst (v_pathfind v) = null_key) -> fle (run e1 s ops) (run e2 s ops).
  Proof.
    intros L. induction ops as [|o ops IH]; intros s I Q; [apply fle_refl|]. cbn [run]. apply fle_bind_ok.
    - apply f_exec; [exact L|exact I| |].
      + intros k v G. destruct Q as [Q|(_ & Q)]; [left; exact Q|right; exact (Q _ _ G)].
      + destruct Q as [Q|(Q & _)]; [left; exact Q|right]. intros v d ->. apply (Q v d). left. reflexivity.
    - intros s1 H. apply IH; [exact (exec_Inv _ _ _ _ I H)|]. destruct Q as [Q|(Q & N)]; [left; exact Q|right]. split; [intros v d Hin; apply (Q v d); right; exact Hin|].
      assert (forall pf pf', pf_evo (s_links s) pf pf' -> pf_dst pf' = pf_dst pf) as K.
      { intros pf pf' E. induction E as [a b St|a|a b c _ IH1 _ IH2]; [|reflexivity|congruence]. destruct St as (e & links' & id & _ & _ & St). apply set_origin_dst in St. exact (proj1 St). }
      intros k v' G. destruct (exec_pf _ _ _ _ _ _ I H G) as [(v & Gv & E)|[(v & d & -> & _)|(a & l & _ & _ & E)]].
      + rewrite (K _ _ E). exact (N _ _ Gv).
      + exfalso. eapply Q. left. reflexivity.
      + destruct E as (e0 & links' & id & _ & _ & E). apply set_origin_dst in E. exact (proj1 E).
  Qed.
End Same.

(** A call that ends gives the same result, a state or a panic, whatever larger bound is put on the number of rounds of its loops. *)
Theorem C86_bound :
  forall (A : Arith) (e1 e2 : env) (s : sim) (o : op) (r : res sim), reachable s -> e_fuel e1 <= e_fuel e2 -> (forall links src dst n, e_pick e1 links src dst n = e_pick e2 links src dst n) ->
    exec e1 s o = r -> r <> OutOfFuel -> exec e2 s o = r.
Proof.
  intros A e1 e2 s o r R L Q H N. destruct (f_exec e1 e2 L s o (reachable_Inv _ R)) as [E|E]; [intros k v _; left; exact Q|left; exact Q|congruence|congruence].
Qed.

(** Two runs with the same calls, and with ties between routes broken the same way, end with the same panic or the same state. *)
Theorem C86_repeatable :
  forall (A : Arith) (e1 e2 : env) (ops : list op), (forall links src dst n, e_pick e1 links src dst n = e_pick e2 links src dst n) ->
    run e1 sim_new ops <> OutOfFuel -> run e2 sim_new ops <> OutOfFuel -> run e1 sim_new ops = run e2 sim_new ops.
Proof.
  intros A e1 e2 ops Q. pose proof (reachable_Inv _ reach_new) as I. apply fle_eq. destruct (Nat.le_ge_cases (e_fuel e1) (e_fuel e2)) as [L|L]; [left|right]; (apply fle_run; [exact L|exact I|left]); [exact Q|]. intros links src dst n. symmetry. apply Q.
Qed.

(** As long as no destination is set, ties do not matter either. *)
Theorem C86_no_destination :
  forall (A : Arith) (e1 e2 : env) (ops : list op), (forall v d, ~ In (OSetDestination v d) ops) ->
    run e1 sim_new ops <> OutOfFuel -> run e2 sim_new ops <> OutOfFuel -> run e1 sim_new ops = run e2 sim_new ops.
Proof.
  intros A e1 e2 ops Q. pose proof (reachable_Inv _ reach_new) as I.
  assert (forall k v, sm_get (s_vehicles (@sim_new A)) k = Some v -> pf_dst (v_pathfind v) = null_key) as N. { intros k v G. apply in_entries in G. destruct G. }
  apply fle_eq. destruct (Nat.le_ge_cases (e_fuel e1) (e_fuel e2)) as [L|L]; [left|right]; (apply fle_run; [exact L|exact I|right; split; [exact Q|exact N]]).
Qed.

(** The same for the list of all routes. *)
Theorem C86_routes :
  forall (A : Arith) (e1 e2 : env) (s : sim), all_routes e1 s <> OutOfFuel -> all_routes e2 s <> OutOfFuel -> all_routes e1 s = all_routes e2 s.
Proof. intros A e1 e2 s. apply fle_eq. destruct (Nat.le_ge_cases (e_fuel e1) (e_fuel e2)) as [L|L]; [left|right]; apply f_routes; exact L. Qed.

(** Ties can matter: two ways of the same cost lead to the destination; how the tie is broken decides which one the vehicle plans to take. *)
Definition two_ways : list (@op F64) :=
  [ OAddLink (ex_line 0 0 10 0) (fz 10); OAddLink (ex_line 10 0 20 0) (fz 10); OAddLink (ex_line 10 0 20 0) (fz 10); OAddLink (ex_line 20 0 30 0) (fz 10);
    OAddConnection (nth_id 0) (nth_id 1); OAddConnection (nth_id 0) (nth_id 2); OAddConnection (nth_id 1) (nth_id 3); OAddConnection (nth_id 2) (nth_id 3);
    OAddVehicle ex_car (nth_id 0); OSetDestination (nth_id 0) (nth_id 3); OStep (fz 1); OStep (fz 1) ].
Definition plans (s : @sim F64) (k : key) (r : list key) : bool :=
  match sm_get (s_vehicles s) k with Some v => forallb (fun p => key_eqb (fst p) (snd p)) (combine (v_route v) r) && Nat.eqb (length (v_route v)) (length r) | None => false end.
Lemma two_ways_ok :
  okb (run (Env 100 (fun _ _ _ _ => 0)) sim_new two_ways) (fun s => plans s (nth_id 0) [nth_id 0; nth_id 1; nth_id 3]) &&
  okb (run (Env 100 (fun _ _ _ _ => 1)) sim_new two_ways) (fun s => plans s (nth_id 0) [nth_id 0; nth_id 2; nth_id 3]) = true.
Proof. vm_compute. reflexivity. Qed.
Theorem C86_ties_refuted :
  exists (e1 e2 : @env F64) (ops : list (@op F64)) (s1 s2 : @sim F64), e_fuel e1 = e_fuel e2 /\ run e1 sim_new ops = Ok s1 /\ run e2 sim_new ops = Ok s2 /\ s1 <> s2.
Proof.
  pose proof two_ways_ok as H. apply andb_true_iff in H. destruct H as (H1 & H2). apply okb_ok in H1. apply okb_ok in H2. destruct H1 as (s1 & R1 & P1). destruct H2 as (s2 & R2 & P2).
  exists (Env 100 (fun _ _ _ _ => 0)), (Env 100 (fun _ _ _ _ => 1)), two_ways, s1, s2. split; [reflexivity|]. split; [exact R1|]. split; [exact R2|]. intros <-.
  unfold plans in *. destruct (sm_get (s_vehicles s1) (nth_id 0)) as [v|]; [|discriminate P1]. apply andb_true_iff in P1. apply andb_true_iff in P2. destruct P1 as (P1 & Q1). destruct P2 as (P2 & _). apply Nat.eqb_eq in Q1.
  destruct (v_route v) as [|a [|b l]]; try discriminate Q1. cbn [combine forallb fst snd] in P1, P2. apply andb_true_iff in P1. destruct P1 as (_ & P1). apply andb_true_iff in P1. destruct P1 as (P1 & _). apply andb_true_iff in P2. destruct P2 as (_ & P2). apply andb_true_iff in P2. destruct P2 as (P2 & _).
  apply key_eqb_eq in P1. apply key_eqb_eq in P2. rewrite P1 in P2. discriminate P2.
Qed.

(** The simulation of SimExample.v without destinations ends, also after some steps, so that the hypotheses of [C86_no_destination] are met. *)
Definition no_aims : list (@op F64) := filter (fun o => match o with OSetDestination _ _ => false | _ => true end) ex_setup ++ ex_steps 3.
Lemma no_aims_ok : okb (run ex_env sim_new no_aims) (fun _ => true) = true.
Proof. vm_compute. reflexivity. Qed.
Example C86_example :
  (forall v d, ~ In (OSetDestination v d) no_aims) /\ run ex_env sim_new no_aims <> OutOfFuel /\ forall pick m, 200 <= m -> run (Env m pick) sim_new no_aims = run ex_env sim_new no_aims.
Proof.
  assert (forall v d, ~ In (OSetDestination v d) no_aims) as Q. { intros v d H. unfold no_aims in H. apply in_app_or in H. destruct H as [H|H]; [apply filter_In in H; destruct H as (_ & H); discriminate H|apply repeat_spec in H; discriminate H]. }
  assert (run ex_env sim_new no_aims <> OutOfFuel) as N. { pose proof no_aims_ok as H. intros E. rewrite E in H. discriminate H. }
  split; [exact Q|]. split; [exact N|]. intros pick m L. pose proof (reachable_Inv _ (@reach_new F64)) as I.
  destruct (fle_run ex_env (Env m pick) no_aims L sim_new I) as [E|E]; [|contradiction|symmetry; exact E]. right. split; [exact Q|]. intros k v G. apply in_entries in G. destruct G.
Qed.

Print Assumptions C86_bound.
Print Assumptions C86_repeatable.
Print Assumptions C86_no_destination.
Print Assumptions C86_routes.
Print Assumptions C86_ties_refuted.
Print Assumptions C86_example.
