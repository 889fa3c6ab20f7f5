(** * C91: traffic acts on a vehicle through its acceleration only *)
From Coq Require Import List Bool ZArith NArith Arith Lia.
From Verif Require Import Arith F64 Base BaseProofs SlotMap SlotMapProofs Util Geom Light Accel Net Path Vehicle LinkOps Sim SimExample SpecSim SpecMotion SpecMap SpecOwn Safe SimInv OpSafe SimProofs Evo StepEvo StepProofs RoadMap OwnProofs P_Motion P_Map P_Alone.
Import ListNotations.

Section P_Own.
  Context {A : Arith}.

  Record quiet (k : key) (s s0 : sim) : Prop := {
    qu_inv : Inv s0;
    qu_map : same_map (s_links s) (s_links s0);
    qu_time : s_lc_update s0 = s_lc_update s;
    qu_at : forall v, sm_get (s_vehicles s) k = Some v -> exists v0, sm_get (s_vehicles s0) k = Some v0 /\ same_motion v v0 }.
  Lemma quiet_refl k s : Inv s -> quiet k s s.
  Proof. intros I. constructor; [exact I|apply same_map_refl|reflexivity|]. intros v G. exists v. split; [exact G|apply so_refl]. Qed.
  Lemma quiet_call e k s o s1 s0 : Inv s -> aside k o -> exec e s o = Ok s1 -> (Inv s1 -> quiet k s1 s0) -> quiet k s s0.
  Proof.
    intros I As H Q. assert (Inv s1) as I1 by (eapply exec_Inv; eauto). destruct (Q I1) as [Q1 Q2 Q3 Q4]. destruct (aside_map _ _ As) as (Km & Ns). constructor; [exact Q1| | |].
    - exact (same_map_trans _ _ _ (map_kept _ _ _ _ I Km H) Q2).
    - rewrite Q3. apply (exec_timers _ _ _ _ I H Ns).
    - intros v G. destruct (aside_own _ _ _ _ _ _ I As H G) as (v1 & G1 & M1). destruct (Q4 _ G1) as (v0 & G0 & M0). exists v0. split; [exact G0|exact (so_trans _ _ _ M1 M0)].
  Qed.
  Lemma driven_parts e k s l s' : driven e k s l s' -> Inv s ->
    match l with
    | [] => quiet k s s'
    | (dt, a) :: l => exists s0 s1 v, quiet k s s0 /\ step e s0 dt = Ok s1 /\ sm_get (s_vehicles s1) k = Some v /\ acceleration v = a /\ driven e k s1 l s'
    end.
  Proof.
    intros D. induction D as [s|s o s1 l s' As H D IH|s dt s1 v l s' H G D IH]; intros I.
    - apply quiet_refl. exact I.
    - destruct l as [|(dt, a) l]; [exact (quiet_call _ _ _ _ _ _ I As H IH)|]. assert (Inv s1) as I1 by (eapply exec_Inv; eauto). destruct (IH I1) as (s0 & s2 & v & Q & Q2). exists s0, s2, v. split; [exact (quiet_call _ _ _ _ _ _ I As H (fun _ => Q))|exact Q2].
    - exists s, s1, v. split; [apply quiet_refl; exact I|]. auto.
  Qed.

  Lemma drive_own e1 e2 k : ties_by_map e1 e2 -> forall l s t s' t' v w v' w', Inv s -> Inv t -> same_map (s_links s) (s_links t) -> s_lc_update s = s_lc_update t ->
    sm_get (s_vehicles s) k = Some v -> sm_get (s_vehicles t) k = Some w -> same_motion v w -> driven e1 k s l s' -> driven e2 k t l t' ->
    sm_get (s_vehicles s') k = Some v' -> sm_get (s_vehicles t') k = Some w' -> same_motion v' w'.
  Proof.
    intros Ti. induction l as [|(dt, a) l IH]; intros s t s' t' v w v' w' Is It M Tm Gv Gw Sm D1 D2 Gv' Gw'; apply driven_parts in D1; auto; apply driven_parts in D2; auto.
    - destruct (qu_at _ _ _ D1 _ Gv) as (x & Gx & Mx). destruct (qu_at _ _ _ D2 _ Gw) as (y & Gy & My). rewrite Gv' in Gx. injection Gx as <-. rewrite Gw' in Gy. injection Gy as <-. exact (so_trans _ _ _ (so_sym _ _ Mx) (so_trans _ _ _ Sm My)).
    - destruct D1 as (s0 & s1 & x & Q & H & Gx & Ax & D1). destruct D2 as (t0 & t1 & y & Qt & Ht & Gy & Ay & D2).
      destruct (qu_at _ _ _ Q _ Gv) as (v0 & Gv0 & Mv0). destruct (qu_at _ _ _ Qt _ Gw) as (w0 & Gw0 & Mw0).
      assert (same_map (s_links s0) (s_links t0)) as M0 by (exact (same_map_trans _ _ _ (same_map_sym _ _ (qu_map _ _ _ Q)) (same_map_trans _ _ _ M (qu_map _ _ _ Qt)))).
      assert (s_lc_update s0 = s_lc_update t0) as Tm0 by (rewrite (qu_time _ _ _ Q), (qu_time _ _ _ Qt); exact Tm).
      pose proof (qu_inv _ _ _ Q) as I0. pose proof (qu_inv _ _ _ Qt) as J0.
      assert (same_motion x y) as Mxy.
      { apply (step_own e1 e2 s0 t0 dt s1 t1 k v0 w0); auto; [rewrite Tm0; reflexivity| |unfold acceleration in *; congruence]. exact (so_trans _ _ _ (so_sym _ _ Mv0) (so_trans _ _ _ Sm Mw0)). }
      assert (exec e1 s0 (OStep dt) = Ok s1) as X1 by exact H. assert (exec e2 t0 (OStep dt) = Ok t1) as X2 by exact Ht.
      apply (IH s1 t1 s' t' x y); auto.
      + eapply exec_Inv; [exact I0|exact X1].
      + eapply exec_Inv; [exact J0|exact X2].
      + exact (same_map_trans _ _ _ (same_map_sym _ _ (map_kept e1 s0 (OStep dt) s1 I0 Logic.I X1)) (same_map_trans _ _ _ M0 (map_kept e2 t0 (OStep dt) t1 J0 Logic.I X2))).
      + rewrite (proj2 (step_timers _ _ _ _ I0 H)), (proj2 (step_timers _ _ _ _ J0 Ht)), Tm0. reflexivity.
  Qed.

  (** In two simulations with the same map a vehicle is in the same motion.  Everything else may differ: the other vehicles, the controls and lights, the
      crossings, whether the vehicle has been let in or waits.  Both are stepped, with any other calls in between.  If the vehicle accelerates the same
      in each step, it is in the same motion at the end: at the same place, equally fast, on the same route, changing lanes at the same time.
      The steps that reconsider lanes must be the same ones: the clocks of lane changes agree at the start. *)
  Theorem C91_drive e1 e2 ops1 ops2 s t k l s' t' v w v' w' : history sim_new ops1 s -> history sim_new ops2 t -> ties_by_map e1 e2 -> same_map (s_links s) (s_links t) ->
    clock (lit 3 10) n0 (time_steps ops1) = clock (lit 3 10) n0 (time_steps ops2) ->
    vehicle_at s k = Some v -> vehicle_at t k = Some w -> same_motion v w ->
    driven e1 k s l s' -> driven e2 k t l t' -> vehicle_at s' k = Some v' -> vehicle_at t' k = Some w' -> same_motion v' w'.
  Proof.
    intros H1 H2 Ti M Ck Gv Gw Sm D1 D2 Gv' Gw'. pose proof (history_timers _ _ H1) as (_ & T1). pose proof (history_timers _ _ H2) as (_ & T2).
    refine (drive_own e1 e2 k Ti l s t s' t' v w v' w' (history_Inv _ _ _ H1 Inv_new) (history_Inv _ _ _ H2 Inv_new) M _ Gv Gw Sm D1 D2 Gv' Gw'). rewrite T1, T2. exact Ck.
  Qed.

  (** One step. *)
  Theorem C91_step e1 e2 ops1 ops2 s t k dt s' t' v w v' w' : history sim_new ops1 s -> history sim_new ops2 t -> ties_by_map e1 e2 -> same_map (s_links s) (s_links t) ->
    due (lit 3 10) ops1 = due (lit 3 10) ops2 ->
    vehicle_at s k = Some v -> vehicle_at t k = Some w -> same_motion v w ->
    step e1 s dt = Ok s' -> step e2 t dt = Ok t' -> vehicle_at s' k = Some v' -> vehicle_at t' k = Some w' -> acceleration v' = acceleration w' -> same_motion v' w'.
  Proof.
    intros H1 H2 Ti M Du Gv Gw Sm D1 D2 Gv' Gw' Ea. pose proof (history_timers _ _ H1) as (_ & T1). pose proof (history_timers _ _ H2) as (_ & T2).
    refine (step_own e1 e2 s t dt s' t' k v w v' w' Ti (history_Inv _ _ _ H1 Inv_new) (history_Inv _ _ _ H2 Inv_new) M _ D1 D2 Gv Gw Sm Gv' Gw' Ea). rewrite T1, T2. unfold due in Du. destruct (nltb _ _), (nltb _ _); auto; discriminate Du.
  Qed.
End P_Own.
Print Assumptions C91_drive.
Print Assumptions C91_step.

(** The same car drives along the same roads.  In one simulation it is alone.  In the other the road beside its way is closed and has another car on it,
    which is frozen after the first of two steps. *)
Definition own_roads : list (@op F64) := map_roads ++ [ OSetDestination car1 (nth_id 3); OStep (fz 1) ].
Definition own_traffic : list (@op F64) := [ OAddVehicle ex_car (nth_id 2); OSetControl (nth_id 2) CClosed ].
Definition acc_b (s t : @sim F64) : bool :=
  match sm_get (s_vehicles s) car1, sm_get (s_vehicles t) car1 with Some v, Some w => same_f (acceleration v) (acceleration w) | _, _ => false end.
Definition fast_b (s : @sim F64) : bool := match sm_get (s_vehicles s) car1 with Some v => nltb (fz 1) (v_vel v) | None => false end.
Lemma own_ok : okb (run ex_env sim_new own_roads) (fun s => match sm_get (s_vehicles s) car1 with Some _ => true | None => false end && okb (run ex_env s own_traffic) (fun t =>
  okb (step ex_env s (fz 1)) (fun s1 => okb (step ex_env t (fz 1)) (fun t1 => acc_b s1 t1 &&
  okb (exec ex_env t1 (OSetFrozen (nth_id 1) true)) (fun t2 =>
  okb (step ex_env s1 (fz 1)) (fun s2 => okb (step ex_env t2 (fz 1)) (fun t3 => acc_b s2 t3 && fast_b s2 && Nat.eqb (length (sm_values (s_vehicles s2))) 1 && Nat.eqb (length (sm_values (s_vehicles t3))) 2))))))) = true.
Proof. vm_compute. reflexivity. Qed.
Example C91_example : exists (ops1 ops2 : list (@op F64)) s t l s' t' v w v' w', history sim_new ops1 s /\ history sim_new ops2 t /\ ties_by_map ex_env ex_env /\ same_map (s_links s) (s_links t) /\
  clock (lit 3 10) n0 (time_steps ops1) = clock (lit 3 10) n0 (time_steps ops2) /\
  vehicle_at s car1 = Some v /\ vehicle_at t car1 = Some w /\ same_motion v w /\ driven ex_env car1 s l s' /\ driven ex_env car1 t l t' /\ vehicle_at s' car1 = Some v' /\ vehicle_at t' car1 = Some w' /\
  length l = 2 /\ nltb (fz 1) (v_vel v') = true /\ length (sm_values (s_vehicles s')) = 1 /\ length (sm_values (s_vehicles t')) = 2.
Proof.
  pose proof own_ok as H. apply okb_ok in H. destruct H as (s & Hs & H). apply andb_prop in H. destruct H as (Hv & H). apply okb_ok in H. destruct H as (t & Ht & H). apply okb_ok in H. destruct H as (s1 & Hs1 & H). apply okb_ok in H. destruct H as (t1 & Ht1 & H).
  apply andb_prop in H. destruct H as (Ha & H). apply okb_ok in H. destruct H as (t2 & Ht2 & H). apply okb_ok in H. destruct H as (s2 & Hs2 & H). apply okb_ok in H. destruct H as (t3 & Ht3 & H).
  apply andb_prop in H. destruct H as (H & N2). apply andb_prop in H. destruct H as (H & N1). apply andb_prop in H. destruct H as (Hb & Hf). apply Nat.eqb_eq in N1. apply Nat.eqb_eq in N2.
  destruct (sm_get (s_vehicles s) car1) as [v|] eqn:Gv; [|discriminate Hv]. clear Hv.
  unfold acc_b in Ha, Hb. destruct (sm_get (s_vehicles s1) car1) as [v1|] eqn:G1; [|discriminate Ha]. destruct (sm_get (s_vehicles t1) car1) as [w1|] eqn:J1; [|discriminate Ha]. apply same_f_ok in Ha.
  destruct (sm_get (s_vehicles s2) car1) as [v2|] eqn:G2; [|discriminate Hb]. destruct (sm_get (s_vehicles t3) car1) as [w3|] eqn:J3; [|discriminate Hb]. apply same_f_ok in Hb. unfold fast_b in Hf. rewrite G2 in Hf.
  pose proof (run_history _ _ _ _ Hs) as Hh. pose proof (run_history _ _ _ _ Ht) as Hh2. pose proof (history_Inv _ _ _ Hh Inv_new) as I0.
  assert (quiet car1 s t) as Q.
  { unfold own_traffic in Ht. cbn [run] in Ht. destruct (exec ex_env s (OAddVehicle ex_car (nth_id 2))) as [s0| |] eqn:E0; [|discriminate Ht..]. cbn [bind] in Ht. destruct (exec ex_env s0 (OSetControl (nth_id 2) CClosed)) as [s3| |] eqn:E1; [|discriminate Ht..]. cbn [bind] in Ht. injection Ht as <-.
    refine (quiet_call _ _ _ _ _ _ I0 _ E0 (fun J0 => quiet_call _ _ _ _ _ _ J0 _ E1 (quiet_refl _ _))); exact Logic.I. }
  destruct (qu_at _ _ _ Q _ Gv) as (w & Gw & Mw).
  exists own_roads, (own_roads ++ own_traffic), s, t, [(fz 1, acceleration v1); (fz 1, acceleration v2)], s2, t3, v, w, v2, w3.
  split; [exact Hh|]. split; [exact (history_app _ _ _ _ _ Hh Hh2)|]. split; [split; reflexivity|]. split; [exact (qu_map _ _ _ Q)|]. split; [reflexivity|]. split; [exact Gv|]. split; [exact Gw|]. split; [exact Mw|].
  split. { eapply dr_step; [exact Hs1|exact G1|]. eapply dr_step; [exact Hs2|exact G2|]. apply dr_done. }
  split. { rewrite Ha, Hb. eapply dr_step; [exact Ht1|exact J1|]. eapply dr_call; [|exact Ht2|]; [exact Logic.I|]. eapply dr_step; [exact Ht3|exact J3|]. apply dr_done. }
  split; [exact G2|]. split; [exact J3|]. split; [reflexivity|]. auto.
Qed.
Print Assumptions C91_example.
