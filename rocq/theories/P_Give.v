(** * Giving way (C49) *)
From Coq Require Import List Bool ZArith NArith Arith Lia Reals Lra.
From Verif Require Import Arith F64 RealArith Base BaseProofs SlotMap Util Geom Light Accel Net Path Vehicle LinkOps Sim SpecLight SpecSim SpecMotion SpecKin SpecEnter SlotMapProofs Safe NetInv SimInv StepSafe OpSafe Evo StepEvo SimProofs StepProofs Ord FloatLaws LogProofs Motion RFacts EnterProofs SimExample P_Sim P_Motion P_Accel P_Enter.
Import ListNotations.

(** A vehicle that enters a yield link from the link it is on was waiting for it, and each conflict
    had a sufficient gap. *)
Theorem C49_only_with_gaps :
  forall (A : Arith) e s dt s1 s' k v v1 v' lid l x lx dist must_stop prio, reachable s -> lengths_add_up s -> step e s dt = Ok s' ->
    calculate_lane_changes e s = Ok s1 -> vehicle_at s k = Some v -> vehicle_at s1 k = Some v1 -> vehicle_at s' k = Some v' ->
    v_link v1 = Some lid -> link_at s1 lid = Some l -> v_entered v1 = 1 -> link_at s1 x = Some lx -> lk_control lx = CYield dist must_stop prio ->
    x <> lid -> ~ In x (entered_links v) -> v_link v' <> Some x -> In x (entered_links v') ->
    exists since, v_queued v1 = Some since /\ next_link v1 = Some x /\ all_gaps s1 v1 l lx prio since.
Proof.
  intros A e s dt s1 s' k v v1 v' lid l x lx dist must_stop prio R Add H H1 G G1 G' Ll Gl E1 Gx Co Nl Nv Nv' Hx.
  destruct (C23_entered A e s dt s' k v' x R Add H G' Hx) as (t1 & w & w1 & Gw & Ht1 & Gw1 & C). assert (t1 = s1) by congruence. subst t1. assert (w = v) by congruence. assert (w1 = v1) by congruence. subst w w1.
  destruct C as [C|[C|[C|(Nx & l' & Gl' & [C|(d & m & p & since & self & ls & pos & Co' & Q & La & Gs & _ & Po & F)])]]]; try congruence; try contradiction.
  assert (l' = lx) by congruence. subst l'. rewrite Co in Co'. injection Co' as <- <- <-. exists since. split; [exact Q|]. split; [exact Nx|].
  unfold last_entered in La. rewrite E1 in La. cbn in La. assert (self = lid) as -> by (unfold v_link in Ll; destruct (v_route v1); cbn in *; congruence). assert (ls = l) by congruence. subst ls.
  rewrite (Po E1) in F. exact F.
Qed.
Print Assumptions C49_only_with_gaps.
(** And if the gaps are sufficient, it is let in. *)
Theorem C49_sufficient :
  forall (A : Arith) e ops s dt s1 s' lid l k v v' x lx dist must_stop prio since, history sim_new ops s -> lengths_add_up s -> step e s dt = Ok s' -> due (lit 1 10) ops = true ->
    calculate_lane_changes e s = Ok s1 -> link_at s1 lid = Some l -> first_at_line s1 l k v -> vehicle_at s' k = Some v' ->
    next_link v = Some x -> link_at s1 x = Some lx -> lk_control lx = CYield dist must_stop prio -> v_queued v = Some since ->
    all_gaps s1 v l lx prio since -> In x (entered_links v').
Proof.
  intros A e ops s dt s1 s' lid l k v v' x lx dist must_stop prio since Hh Add H D H1 Gl Fl G' Nx Gx Co Q Ga.
  refine (C23_let_in A e ops s dt s1 s' lid l k v v' x lx Hh Add H D H1 Gl Fl G' Nx Gx _). right. exists dist, must_stop, prio, since. auto.
Qed.
Print Assumptions C49_sufficient.

(** What precedence means: no vehicle on its way over an open link, or over a yield link of higher
    priority, gives way; every vehicle that has not been let into a closed link or one of lower
    priority does, unless it waits at the end of its approach with number 0 (numbers start at 1);
    between equals, those that do not wait yet or wait with a later number do; vehicles that have
    entered never do. *)
Theorem C49_precedence :
  forall (A : Arith) own since other (w : vehicle) idx,
    gives_way (precedence own since other) w idx <->
    v_entered w <= idx /\
    match other with
    | COpen => False
    | CClosed => forall a, waits_since w idx a -> 0 < a
    | CYield _ _ p => (p < own)%Z /\ (forall a, waits_since w idx a -> 0 < a) \/ (p = own)%Z /\ (forall a, waits_since w idx a -> since < a)
    end.
Proof.
  intros A own since other w idx.
  assert (forall q, gives_way (Ignore_later q) w idx <-> v_entered w <= idx /\ forall a, waits_since w idx a -> q < a) as K.
  { intros q. unfold gives_way, not_there_yet, waits_since. split.
    - intros (z & Ez & C). injection Ez as ->. destruct C as [[D|(D & Qn)]|(a & (D & Qa) & L)]; (split; [lia|]); intros b (Eb & Qb); try lia; congruence || (assert (a = b) by congruence; lia).
    - intros (L & F). exists q. split; [reflexivity|]. destruct (Nat.eq_dec (v_entered w) idx) as [E|E]; [|left; left; lia]. destruct (v_queued w) as [a|] eqn:Q; [|left; right; auto].
      right. exists a. auto. }
  assert (~ gives_way Ignore_none w idx) as K0 by (intros (z & Ez & _); discriminate Ez).
  unfold precedence. destruct other as [|d m p|]; [tauto| |apply K].
  destruct (Z.ltb_spec own p); [|destruct (Z.eqb_spec own p)].
  - split; [tauto|]. intros (_ & [(C & _)|(C & _)]); lia.
  - rewrite K. split; [intros (L & F); split; [exact L|right; auto]|]. intros (L & [(C & _)|(_ & F)]); [lia|auto].
  - rewrite K. split; [intros (L & F); split; [exact L|left; split; [lia|exact F]]|]. intros (L & [(_ & F)|(C & _)]); [auto|lia].
Qed.
Print Assumptions C49_precedence.

(** ** What a clear way means in exact arithmetic *)
Section Real.
  Local Open Scope R_scope.
  (** The vehicle that was found cannot bring its centre to the zone within the time, even if it
      accelerates all it can up to the highest limit on its way. *)
  Theorem C49_cannot_arrive :
    forall (w : vehR) (p0 vmax time : R), 0 < max_acc w -> 0 <= v_vel w <= vmax -> 0 < vmax -> 0 <= time ->
      @nltb RA time (min_reach_time w p0 vmax) = true -> v_pos w + covered (max_acc w) (v_vel w) vmax time < p0.
  Proof.
    intros w p0 V t A Hv HV Ht H. apply ltb_R in H. destruct (C11_reach_time w p0 V A Hv HV) as (_ & C & _).
    pose proof (covered_mono _ _ _ _ _ A Hv HV (conj Ht H)) as M. rewrite C in M. unfold ahead in M.
    assert (0 <= covered (max_acc w) (v_vel w) V t) as P.
    { destruct (Rle_lt_or_eq_dec 0 t Ht) as [L| <-].
      - pose proof (covered_mono (max_acc w) (v_vel w) V 0 t A Hv HV (conj (Rle_refl 0) L)) as M0. unfold covered at 1 in M0. destruct Rle_dec as [_|Nle]; [lra|].
        exfalso. apply Nle. apply Rmult_le_pos; [lra|left; apply Rinv_0_lt_compat; lra].
      - unfold covered. destruct Rle_dec as [_|Nle]; [lra|]. exfalso. apply Nle. apply Rmult_le_pos; [lra|left; apply Rinv_0_lt_compat; lra]. }
    unfold Rmax in M. destruct Rle_dec in M; lra.
  Qed.
  (** Nothing behind the start of the links searched can, either. *)
  Theorem C49_too_far :
    forall (p0 vmax time : R), 0 < vmax -> @nltb RA time (@ndiv RA p0 vmax) = true -> vmax * time < p0.
  Proof.
    intros p0 V t HV H. apply ltb_R in H. unR. apply Rmult_lt_compat_l with (r := V) in H; [|exact HV]. replace (V * (p0 / V)) with p0 in H by (field; lra). exact H.
  Qed.

  (** A way that is clear for some time is clear for any shorter time. *)
  Section ClearInd.
    Variable s : @sim RA.
    Lemma clear_shorter t t' r tgt : t' <= t -> forall idx l p0 p1 vmax, clear s t r tgt idx l p0 p1 vmax -> clear s t' r tgt idx l p0 p1 vmax.
    Proof.
      intros Ht. fix IH 6. intros idx l p0 p1 vmax [idx0 l0 p00 p10 vm past others k behind w H1 H2 H3 H4 H5|idx0 l0 p00 p10 vm past others H1 H2 H3|idx0 l0 p00 p10 vm past others H1 H2 H3].
      - eapply clear_vehicle; eauto. destruct H5 as [H5|H5]; [left; exact H5|right]. apply ltb_R in H5. apply ltb_R. unR. lra.
      - eapply clear_far; eauto. apply ltb_R in H3. apply ltb_R. unR. lra.
      - eapply clear_before; eauto. intros k' Hk. destruct (H3 k' Hk) as (l' & Gl & C). exists l'. split; [exact Gl|]. apply IH. exact C.
    Qed.
  End ClearInd.

  (** Counting the length of the approach twice is conservative: if the vehicle is let in, the gaps are
      sufficient for the time it really needs. *)
  Theorem C49_conservative :
    forall (s : @sim RA) (v : vehR) (l lx : @link RA) prio since, 0 < max_acc v -> 0 <= v_vel v <= (lk_limit lx : R) -> 0 < (lk_limit lx : R) -> 0 <= (lk_length l : R) ->
      all_gaps s v l lx prio since -> Forall (sufficient_gap s v (lk_length l) lx prio since) (lk_conflicts lx).
  Proof.
    intros s v l lx prio since A Hv HV Hl F. unfold all_gaps in F. eapply Forall_impl; [|exact F]. intros c (l2 & Gl & C). exists l2. split; [exact Gl|].
    refine (clear_shorter s _ _ _ _ _ _ _ _ _ _ C). pose proof (C11_monotone v (lk_length l + cf_own_max c) (lk_length l + lk_length l + cf_own_max c) (lk_limit lx) A Hv HV) as M. unR. lra.
  Qed.
End Real.
Print Assumptions C49_cannot_arrive.
Print Assumptions C49_too_far.
Print Assumptions C49_conservative.

(** ** A concrete case *)
(** A main road with its approach; a side road, from which a yield link crosses the main road.  A car
    waits at the line after five steps. *)
Notation main := (nth_id 0).
Notation minor := (nth_id 1).
Notation cross := (nth_id 2).
Notation main0 := (nth_id 3).
Definition ex_cross : list (@op F64) :=
  [ OAddLink (ex_line (-20) 0 4 0) (fz 5); OAddLink (ex_line 0 (-23) 0 (-3)) (fz 5); OAddLink (ex_line 0 (-3) 0 5) (fz 5); OAddLink (ex_line (-36) 0 (-20) 0) (fz 5);
    OAddConnection main0 main; OAddConnection minor cross; OAddConvergence main cross;
    OSetControl cross (CYield (fz 10) false 0);
    OAddVehicle ex_car minor; OSetDestination car1 cross;
    OStep (fz 1); OStep (fz 1); OStep (fz 1); OStep (fz 1); OStep (fz 1)].
(** Another car at the start of the approach to the main road, or of the main road. *)
Definition ex_far : list (@op F64) := [OAddVehicle ex_car main0; OSetDestination car2 main].
Definition ex_near : list (@op F64) := [OAddVehicle ex_car main; OSetDestination car2 main].

Definition gap_time (v : vehicle) (pos : @num F64) (lx : link) (c : link_conflict) : @num F64 := nadd (min_reach_time v (nadd pos (cf_own_max c)) (lk_limit lx)) nhalf.
Definition gap_b (s : @sim F64) (v : vehicle) (pos : num) (lx : link) (prio : Z) (since : nat) (want : bool) (c : link_conflict) : bool :=
  match link_at s (cf_link c) with
  | Some l2 => okb (check_gap 50 (s_links s) (sm_map v_reset (s_vehicles s)) l2 (cf_min c, cf_max c) (gap_time v pos lx c) (conflict_queued (lk_control l2) prio since) (0, cf_link c) n0) (fun b => Bool.eqb b want)
  | None => false
  end.
Lemma active_self (l : @link F64) : l = set_lk_active l (lk_active l). Proof. destruct l; reflexivity. Qed.
Lemma gap_b_ok s v pos lx prio since want c : gap_b s v pos lx prio since want c = true ->
  if want then sufficient_gap s v pos lx prio since c else ~ sufficient_gap s v pos lx prio since c.
Proof.
  unfold gap_b. destruct (link_at s (cf_link c)) as [l2|] eqn:Gl; [|discriminate]. intros H. destruct (check_gap _ _ _ _ _ _ _ _ _) as [b| |] eqn:Hc; cbn [okb] in H; try discriminate H.
  apply eqb_prop in H. subst b. rewrite (active_self l2) in Hc.
  assert (forall k l, sm_get (s_links s) k = Some l -> exists l0, link_at s k = Some l0 /\ exists b, l = set_lk_active l0 b) as HL by (intros k l G; exists l; split; [exact G|]; exists (lk_active l); apply active_self).
  assert (forall k, sm_get (sm_map v_reset (s_vehicles s)) k = option_map v_reset (vehicle_at s k)) as HV by (intros k; apply sm_get_map).
  change (lk_control (set_lk_active l2 (lk_active l2))) with (lk_control l2) in Hc. unfold sufficient_gap. fold (gap_time v pos lx c).
  destruct want.
  - exists l2. split; [exact Gl|]. apply (check_gap_clear s _ _ HL HV) in Hc. rewrite rule_of_queued in Hc. exact Hc.
  - intros (l' & G' & C). assert (l' = l2) by congruence. subst l'. apply (check_gap_refuse s _ _ HL HV) in Hc. rewrite rule_of_queued in Hc. exact (Hc C).
Qed.
Definition at_line_b (s : @sim F64) (lid k x : key) (since : nat) (f : vehicle -> link -> link -> bool) : bool :=
  match link_at s lid, vehicle_at s k, link_at s x with
  | Some l, Some v, Some lx =>
      match lk_vehicles l, lk_control lx, lk_conflicts lx with
      | [k'], CYield _ _ 0%Z, [c] =>
        key_eqb k' k && Nat.eqb (v_entered v) 1 && negb (nltb (pos_front v) (nsub (lk_length l) (nmul (nofZ 5) (lk_limit l)))) &&
        match next_link v, v_queued v, v_link v with Some y, Some q, Some z => key_eqb y x && Nat.eqb q since && key_eqb z lid | _, _, _ => false end && f v l lx
      | _, _, _ => false
      end
  | _, _, _ => false
  end.
Ltac bands := repeat match goal with H : _ && _ = true |- _ => apply andb_true_iff in H; let H2 := fresh "B" in destruct H as [H H2] end.
Lemma at_line_b_ok s lid k x since f : at_line_b s lid k x since f = true -> exists l v lx d m c, link_at s lid = Some l /\ link_at s x = Some lx /\ first_at_line s l k v /\
  v_link v = Some lid /\ next_link v = Some x /\ v_queued v = Some since /\ lk_control lx = CYield d m 0 /\ lk_conflicts lx = [c] /\ f v l lx = true.
Proof.
  unfold at_line_b. destruct (link_at s lid) as [l|] eqn:Gl; [|discriminate]. destruct (vehicle_at s k) as [v|] eqn:Gv; [|discriminate]. destruct (link_at s x) as [lx|] eqn:Gx; [|discriminate].
  destruct (lk_vehicles l) as [|k' [|? ?]] eqn:Ev; try discriminate. destruct (lk_control lx) as [|d m p|] eqn:Co; try discriminate. destruct p; try discriminate. destruct (lk_conflicts lx) as [|c [|? ?]] eqn:Ec; try discriminate.
  intros H. bands. destruct (next_link v) as [y|] eqn:Nx; [|discriminate]. destruct (v_queued v) as [q|] eqn:Q; [|discriminate]. destruct (v_link v) as [z|] eqn:Lv; [|discriminate]. bands.
  repeat match goal with H : key_eqb _ _ = true |- _ => apply key_eqb_eq in H end. repeat match goal with H : Nat.eqb _ _ = true |- _ => apply Nat.eqb_eq in H end. subst.
  exists l, v, lx, d, m, c. split; [reflexivity|]. split; [reflexivity|]. split; [|auto 10]. exists (@nil key), (@nil key). split; [exact Ev|]. split; [intros ? []|]. split; [exact Gv|]. split; [assumption|]. unfold near_end. apply negb_true_iff. assumption.
Qed.
Definition lengths_b (s : @sim F64) : bool := forallb (fun l => nleb (lit 1 1000) (lk_length l) && nleb (lk_length l) (nofZ 1000000000)) (sm_values (s_links s)).
Lemma lengths_b_ok s : lengths_b s = true -> lengths_add_up s.
Proof.
  intros H. apply C23_lengths. intros k l G. unfold lengths_b in H. rewrite forallb_forall in H. specialize (H l). apply andb_true_iff, H. apply in_values. exists k. exact G.
Qed.
Definition entered_b (s : @sim F64) (k x : key) : bool := match vehicle_at s k with Some v => existsb (key_eqb x) (entered_links v) | None => false end.

Definition acc_b (s : @sim F64) (k : key) (y : @num F64) : bool := match vehicle_at s k with Some v => nleb (acceleration v) y && negb (existsb (key_eqb cross) (entered_links v)) | None => false end.
Definition stop_acc (v : vehicle) (l : link) : @num F64 := driver_model v (nsub (nadd (lk_length l) n0) (pos_front v)) n0.
Lemma ex_cross_ok :
  okb (run ex_env sim_new ex_cross) (fun s0 =>
    okb (run ex_env s0 ex_far) (fun s => lengths_b s && okb (calculate_lane_changes ex_env s) (fun s1 =>
      at_line_b s1 minor car1 cross 1 (fun v l lx => forallb (gap_b s1 v (nadd (lk_length l) (lk_length l)) lx 0 1 true) (lk_conflicts lx)) &&
      okb (step ex_env s (fz 1)) (fun s' => entered_b s' car1 cross))) &&
    okb (run ex_env s0 ex_near) (fun s => lengths_b s && okb (calculate_lane_changes ex_env s) (fun s1 =>
      okb (step ex_env s (fz 1)) (fun s' =>
      at_line_b s1 minor car1 cross 1 (fun v l lx => forallb (gap_b s1 v (nadd (lk_length l) (lk_length l)) lx 0 1 false) (lk_conflicts lx) && forallb (gap_b s1 v (lk_length l) lx 0 1 true) (lk_conflicts lx) &&
         negb (nnan (stop_acc v l)) && acc_b s' car1 (nmax (stop_acc v l) full_braking)))))) = true.
Proof. vm_compute. reflexivity. Qed.
Lemma ex_due2 : due (@lit F64 1 10) (ex_cross ++ ex_far) && due (@lit F64 1 10) (ex_cross ++ ex_near) = true.
Proof. vm_compute. reflexivity. Qed.
Lemma in_existsb x l : existsb (key_eqb x) l = true <-> In x l.
Proof. rewrite existsb_exists. split; [intros (y & Hy & E); apply key_eqb_eq in E; subst; exact Hy|]. intros H. exists x. split; [exact H|apply key_eqb_refl]. Qed.
Lemma forallb_Forall {X} (f : X -> bool) (P : X -> Prop) l : (forall x, f x = true -> P x) -> forallb f l = true -> Forall P l.
Proof. intros K H. rewrite forallb_forall in H. apply Forall_forall. auto. Qed.
Example C49_example : exists s s1 s' l v lx d m c v', history (@sim_new F64) (ex_cross ++ ex_far) s /\ lengths_add_up s /\ step ex_env s (fz 1) = Ok s' /\ due (lit 1 10) (ex_cross ++ ex_far) = true /\
  calculate_lane_changes ex_env s = Ok s1 /\ link_at s1 minor = Some l /\ first_at_line s1 l car1 v /\ vehicle_at s' car1 = Some v' /\ next_link v = Some cross /\ link_at s1 cross = Some lx /\
  lk_control lx = CYield d m 0 /\ v_queued v = Some 1 /\ lk_conflicts lx = [c] /\ all_gaps s1 v l lx 0 1 /\ In cross (entered_links v').
Proof.
  pose proof ex_cross_ok as H. apply okb_ok in H. destruct H as (s0 & H0 & H). bsplit H. apply okb_ok in H. destruct H as (s & H1 & H). bsplit H. apply okb_ok in B0. destruct B0 as (s1 & Hc & B0). bsplit B0.
  apply okb_ok in B1. destruct B1 as (s' & Hs & B1). apply at_line_b_ok in B0. destruct B0 as (l & v & lx & d & m & c & Gl & Gx & Fl & Lv & Nx & Q & Co & Ec & Hg).
  unfold entered_b in B1. destruct (vehicle_at s' car1) as [v'|] eqn:G'; [|discriminate B1]. pose proof ex_due2 as D. apply andb_true_iff in D. destruct D as (D & _).
  exists s, s1, s', l, v, lx, d, m, c, v'. split; [eapply history_app; [eapply run_history; exact H0|eapply run_history; exact H1]|]. split; [apply lengths_b_ok; exact H|]. repeat (split; [assumption|]).
  split; [|apply in_existsb; exact B1]. eapply forallb_Forall; [|exact Hg]. intros c0 Hc0. exact (gap_b_ok _ _ _ _ _ _ true _ Hc0).
Qed.
(** The gap is sufficient for the distance the waiting car has to cover, but the code counts the
    length of its approach twice and holds the car. *)
Theorem C49_every_gap_taken_refuted : exists s s1 s' l v lx d m c v', history (@sim_new F64) (ex_cross ++ ex_near) s /\ lengths_add_up s /\ step ex_env s (fz 1) = Ok s' /\ due (lit 1 10) (ex_cross ++ ex_near) = true /\
  calculate_lane_changes ex_env s = Ok s1 /\ link_at s1 minor = Some l /\ first_at_line s1 l car1 v /\ vehicle_at s' car1 = Some v' /\ next_link v = Some cross /\ link_at s1 cross = Some lx /\
  lk_control lx = CYield d m 0 /\ v_queued v = Some 1 /\ lk_conflicts lx = [c] /\
  Forall (sufficient_gap s1 v (lk_length l) lx 0 1) (lk_conflicts lx) /\
  must_wait s1 v l lx /\ nnan (stop_acc v l) = false /\ nleb (acceleration v') (nmax (stop_acc v l) full_braking) = true /\ ~ In cross (entered_links v').
Proof.
  pose proof ex_cross_ok as H. apply okb_ok in H. destruct H as (s0 & H0 & H). bsplit H. clear H. rename B into H. apply okb_ok in H. destruct H as (s & H1 & H). bsplit H. apply okb_ok in B. destruct B as (s1 & Hc & B).
  apply okb_ok in B. destruct B as (s' & Hs & B). apply at_line_b_ok in B. destruct B as (l & v & lx & d & m & c & Gl & Gx & Fl & Lv & Nx & Q & Co & Ec & Hg). bsplit Hg.
  unfold acc_b in B. destruct (vehicle_at s' car1) as [v'|] eqn:G'; [|discriminate B]. bsplit B. pose proof ex_due2 as D. apply andb_true_iff in D. destruct D as (_ & D).
  exists s, s1, s', l, v, lx, d, m, c, v'. split; [eapply history_app; [eapply run_history; exact H0|eapply run_history; exact H1]|]. split; [apply lengths_b_ok; exact H|]. repeat (split; [assumption|]).
  split; [eapply forallb_Forall; [|exact B1]; intros c0 Hc0; exact (gap_b_ok _ _ _ _ _ _ true _ Hc0)|].
  split. { right. exists d, m, 0%Z. split; [exact Co|]. right. exists 1. split; [exact Q|]. intros F. rewrite Ec in Hg. cbn [forallb] in Hg. apply andb_true_iff in Hg. destruct Hg as (Hg & _). apply (gap_b_ok _ _ _ _ _ _ false) in Hg. apply Hg.
    unfold all_gaps in F. rewrite Ec in F. inversion F; assumption. }
  split; [apply negb_true_iff; assumption|]. split; [assumption|]. intros Hin. apply in_existsb in Hin. match goal with B : negb _ = true |- _ => rewrite Hin in B; discriminate B end.
Qed.
Print Assumptions C49_every_gap_taken_refuted.
