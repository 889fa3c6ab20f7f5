(** * Junctions with signs do not lock up (C80) *)
From Coq Require Import List Bool ZArith NArith Arith Lia Reals.
From Verif Require Import Arith F64 Base BaseProofs SlotMap Util Geom Light Accel Net Path Vehicle LinkOps Sim SpecSim SlotMapProofs Safe NetInv SimInv OpSafe Evo StepEvo SimProofs StepProofs SpecMotion Motion SpecEnter EnterProofs SimExample P_Sim P_Motion P_Step P_Enter P_Give SpecJunction JunctionProofs.
Import ListNotations.

(** A vehicle that is first at the end of its link and waits for the next one is let in at the next
    acceleration update, or there is somebody who is the cause that it is not: a vehicle that does not give way
    to it and may get to a conflict too soon.  [s1] is the simulation after the lane changes at the start of the step. *)
Theorem C80_reason_to_wait :
  forall (A : Arith) e ops s dt s1 s' lid l k v x lx dist must_stop prio since, history sim_new ops s -> lengths_add_up s -> step e s dt = Ok s' -> due (lit 1 10) ops = true ->
    calculate_lane_changes e s = Ok s1 -> link_at s1 lid = Some l -> first_at_line s1 l k v ->
    next_link v = Some x -> link_at s1 x = Some lx -> lk_control lx = CYield dist must_stop prio -> v_queued v = Some since ->
    (exists v', vehicle_at s' k = Some v' /\ In x (entered_links v')) \/ exists kw, held_up_by s1 v l lx prio since kw.
Proof.
  intros A e ops s dt s1 s' lid l k v x lx d m p since Hh Add H D. pose proof (history_timers _ _ Hh) as (T & _). pose proof (due_true _ _ _ T D) as D'.
  refine (reason_to_wait e s dt s1 s' lid l k v x lx d m p since (history_reachable _ _ _ Hh reach_new) Add H D').
Qed.
Print Assumptions C80_reason_to_wait.

(** If vehicles wait at a junction and nobody is in it, then one of them is let in at the next acceleration
    update: of those at the signs of the highest priority, the one that has waited longest. *)
Theorem C80_no_lock_up :
  forall (A : Arith) e ops s dt s1 s' J, history sim_new ops s -> lengths_add_up s -> step e s dt = Ok s' -> due (lit 1 10) ops = true ->
    calculate_lane_changes e s = Ok s1 -> junction s1 J -> nobody_in s1 J -> all_first s1 J -> none_with_priority_comes s1 J ->
    (exists k x prio since, In x J /\ waits_for s1 k x prio since) ->
    exists k x prio since v', In x J /\ waits_for s1 k x prio since /\
      (forall k2 x2 prio2 since2, In x2 J -> waits_for s1 k2 x2 prio2 since2 -> k2 = k \/ (prio2 < prio)%Z \/ prio2 = prio /\ since < since2) /\
      vehicle_at s' k = Some v' /\ In x (entered_links v').
Proof.
  intros A e ops s dt s1 s' J Hh Add H D. pose proof (history_timers _ _ Hh) as (T & _). pose proof (due_true _ _ _ T D) as D'.
  refine (somebody_goes e s dt s1 s' J (history_reachable _ _ _ Hh reach_new) Add H D').
Qed.
Print Assumptions C80_no_lock_up.

(** ** A concrete case *)
(** Two roads that cross, each with a stop sign of the same priority.  A car waits at each. *)
Notation south := (nth_id 0).
Notation over1 := (nth_id 1).
Notation west := (nth_id 2).
Notation over2 := (nth_id 3).
Definition ex_stop : list (@op F64) :=
  [ OAddLink (ex_line 0 (-23) 0 (-3)) (fz 5); OAddLink (ex_line 0 (-3) 0 5) (fz 5); OAddLink (ex_line (-23) 0 (-3) 0) (fz 5); OAddLink (ex_line (-3) 0 5 0) (fz 5);
    OAddConnection south over1; OAddConnection west over2; OAddConvergence over1 over2;
    OSetControl over1 (CYield (fz 10) false 0); OSetControl over2 (CYield (fz 10) false 0);
    OAddVehicle ex_car south; OSetDestination car1 over1; OAddVehicle ex_car west; OSetDestination car2 over2;
    OStep (fz 1); OStep (fz 1); OStep (fz 1); OStep (fz 1); OStep (fz 1)].
Fixpoint keys_eqb (a b : list key) : bool :=
  match a, b with [], [] => true | x :: a, y :: b => key_eqb x y && keys_eqb a b | _, _ => false end.
Lemma keys_eqb_ok a b : keys_eqb a b = true -> a = b.
Proof.
  revert b. induction a as [|x a IH]; intros [|y b] H; try discriminate H; [reflexivity|]. cbn in H. apply andb_true_iff in H. destruct H as (H1 & H2). apply key_eqb_eq in H1. subst. f_equal. auto.
Qed.
(** Vehicle [k] is alone on link [a], near its end, and waits for link [x] since it was given number [n]. *)
Definition waiting_b (s : @sim F64) (k a x : key) (n : nat) : bool :=
  match vehicle_at s k, link_at s a with
  | Some v, Some l => keys_eqb (v_route v) [a; x] && Nat.eqb (v_entered v) 1 && match v_queued v with Some q => Nat.eqb q n | None => false end &&
      keys_eqb (lk_vehicles l) [k] && negb (nltb (pos_front v) (nsub (lk_length l) (nmul (nofZ 5) (lk_limit l))))
  | _, _ => false end.
Definition sign_b (s : @sim F64) (x y : key) : bool :=
  match link_at s x with
  | Some l => match lk_control l with CYield _ _ p => Z.eqb p 0 | _ => false end && keys_eqb (map cf_link (lk_conflicts l)) [y]
  | None => false end.
Lemma waiting_ok s k a x n : waiting_b s k a x n = true -> exists v l, vehicle_at s k = Some v /\ link_at s a = Some l /\ v_route v = [a; x] /\ v_entered v = 1 /\ v_queued v = Some n /\ first_at_line s l k v.
Proof.
  unfold waiting_b. destruct (vehicle_at s k) as [v|] eqn:G; [|discriminate]. destruct (link_at s a) as [l|] eqn:Gl; [|discriminate]. intros H. bands.
  destruct (v_queued v) as [q|] eqn:Q; [|discriminate]. repeat match goal with H : Nat.eqb _ _ = true |- _ => apply Nat.eqb_eq in H end. apply keys_eqb_ok in H. apply keys_eqb_ok in B0. subst q.
  exists v, l. repeat (split; [auto|]). exists [], []. split; [exact B0|]. split; [intros ? []|]. split; [exact G|]. split; [assumption|]. unfold near_end. apply negb_true_iff. assumption.
Qed.
Lemma sign_ok s x y : sign_b s x y = true -> exists l c d m, link_at s x = Some l /\ lk_control l = CYield d m 0 /\ lk_conflicts l = [c] /\ cf_link c = y.
Proof.
  unfold sign_b. destruct (link_at s x) as [l|] eqn:Gl; [|discriminate]. intros H. bands. destruct (lk_control l) as [|d m p|] eqn:Co; try discriminate H. apply Z.eqb_eq in H. subst p.
  apply keys_eqb_ok in B. destruct (lk_conflicts l) as [|c [|? ?]] eqn:Ec; try discriminate B. injection B as B. exists l, c, d, m. auto.
Qed.
Lemma ex_stop_ok : due (@lit F64 1 10) ex_stop && okb (run ex_env sim_new ex_stop) (fun s => lengths_b s && okb (step ex_env s (fz 1)) (fun _ => true) && okb (calculate_lane_changes ex_env s) (fun s1 =>
  keys_eqb (sm_keys (s_vehicles s1)) [car1; car2] && waiting_b s1 car1 south over1 1 && waiting_b s1 car2 west over2 2 && sign_b s1 over1 over2 && sign_b s1 over2 over1)) = true.
Proof. vm_compute. reflexivity. Qed.
(** All hypotheses of [C80_no_lock_up] hold, and it is the first car that goes. *)
Example C80_example : exists s s1 s' v', history (@sim_new F64) ex_stop s /\ lengths_add_up s /\ step ex_env s (fz 1) = Ok s' /\ due (lit 1 10) ex_stop = true /\
  calculate_lane_changes ex_env s = Ok s1 /\ junction s1 [over1; over2] /\ nobody_in s1 [over1; over2] /\ all_first s1 [over1; over2] /\ none_with_priority_comes s1 [over1; over2] /\
  waits_for s1 car1 over1 0 1 /\ waits_for s1 car2 over2 0 2 /\ vehicle_at s' car1 = Some v' /\ In over1 (entered_links v').
Proof.
  pose proof ex_stop_ok as H. apply andb_true_iff in H. destruct H as (D & H). apply okb_ok in H. destruct H as (s & Hr & H). bands. rename B0 into B1. apply okb_ok in B1. destruct B1 as (s' & Hs & _).
  apply okb_ok in B. destruct B as (s1 & Hc & B). bands. apply lengths_b_ok in H. apply keys_eqb_ok in B.
  destruct (waiting_ok _ _ _ _ _ B3) as (v1 & l1 & G1 & Gl1 & R1 & E1 & Q1 & F1). destruct (waiting_ok _ _ _ _ _ B2) as (v2 & l2 & G2 & Gl2 & R2 & E2 & Q2 & F2).
  destruct (sign_ok _ _ _ B1) as (o1 & c1 & d1 & m1 & Go1 & Co1 & Ec1 & Ek1). destruct (sign_ok _ _ _ B0) as (o2 & c2 & d2' & m2 & Go2 & Co2 & Ec2 & Ek2).
  assert (forall k v, vehicle_at s1 k = Some v -> k = car1 /\ v = v1 \/ k = car2 /\ v = v2) as Two.
  { intros k v G. assert (In k (sm_keys (s_vehicles s1))) as Hk by (apply in_keys, sm_mem_get; eauto). rewrite B in Hk. destruct Hk as [<-|[<-|[]]]; [left|right]; split; congruence. }
  assert (forall x, In x [over1; over2] -> forall p, sign_at s1 x p -> p = 0%Z) as Prio.
  { intros x [<-|[<-|[]]] p (l & d & m & G & C); congruence. }
  assert (junction s1 [over1; over2]) as Ju.
  { intros x [<-|[<-|[]]].
    - split; [exists 0%Z, o1, d1, m1; auto|]. intros y c (l & G & Hc' & <-). assert (l = o1) by congruence. subst l. rewrite Ec1 in Hc'. destruct Hc' as [<-|[]]. rewrite Ek1. split; [simpl; auto|]. vm_compute. discriminate.
    - split; [exists 0%Z, o2, d2', m2; auto|]. intros y c (l & G & Hc' & <-). assert (l = o2) by congruence. subst l. rewrite Ec2 in Hc'. destruct Hc' as [<-|[]]. rewrite Ek2. split; [simpl; auto|]. vm_compute. discriminate. }
  assert (nobody_in s1 [over1; over2]) as No.
  { intros k v i y G Hy Hh Li. exfalso. destruct (Two _ _ G) as [(-> & ->)|(-> & ->)]; unfold heads_to in Hh; [rewrite E1 in Li; rewrite R1 in Hh|rewrite E2 in Li; rewrite R2 in Hh]; assert (i = 0) as -> by lia; cbn in Hh; injection Hh as <-;
      destruct Hy as [Q|[Q|[]]]; discriminate Q. }
  assert (all_first s1 [over1; over2]) as Fi.
  { intros k x p n Hx (v & G & _). destruct (Two _ _ G) as [(-> & ->)|(-> & ->)]; [exists v1, south, l1; unfold v_link; rewrite R1|exists v2, west, l2; unfold v_link; rewrite R2]; auto. }
  assert (none_with_priority_comes s1 [over1; over2]) as Np.
  { intros k x p n Hx (v & _ & _ & _ & Sx) k2 w y i p2 _ Hy _ _ Sy. rewrite (Prio _ Hx _ Sx), (Prio _ Hy _ Sy). lia. }
  assert (waits_for s1 car1 over1 0 1) as W1. { exists v1. split; [exact G1|]. unfold next_link. rewrite R1, E1. split; [reflexivity|]. split; [exact Q1|]. exists o1, d1, m1. auto. }
  assert (waits_for s1 car2 over2 0 2) as W2. { exists v2. split; [exact G2|]. unfold next_link. rewrite R2, E2. split; [reflexivity|]. split; [exact Q2|]. exists o2, d2', m2. auto. }
  pose proof (run_history _ _ _ _ Hr) as Hh.
  destruct (C80_no_lock_up F64 ex_env ex_stop s (fz 1) s1 s' _ Hh H Hs D Hc Ju No Fi Np) as (k & x & p & n & v' & Hx & W & Be & G' & En); [exists car1, over1, 0%Z, 1; simpl; auto|].
  assert (k = car1 /\ x = over1) as (-> & ->).
  { destruct (Be car1 over1 0%Z 1 ltac:(simpl; auto) W1) as [<-|Q].
    - split; [reflexivity|]. destruct W as (v & G & Nx & _). assert (v = v1) by congruence. subst v. unfold next_link in Nx. rewrite R1, E1 in Nx. cbn in Nx. congruence.
    - exfalso. destruct W as (v & G & Nx & Qn & Sx). pose proof (Prio _ Hx _ Sx). subst p. destruct (Two _ _ G) as [(-> & ->)|(-> & ->)]; [rewrite Q1 in Qn|rewrite Q2 in Qn]; injection Qn as <-; lia. }
  exists s, s1, s', v'. auto 15.
Qed.
Print Assumptions C80_example.
