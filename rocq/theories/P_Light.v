(** * Properties C01-C05: traffic lights *)
From Coq Require Import List Arith ZArith NArith Bool Lia Reals.
From Verif Require Import Arith F64 RealArith Base BaseProofs SlotMap Light SpecLight LightProofs LightLive.
Import ListNotations.

(** ** C01: conflicting signals are never green or amber together.
    For every arithmetic [A], in particular binary64, and every history of calls of the API of a
    light (movements and phases may even be added between steps). *)
Theorem C01_conflicting_signals_exclusive :
  forall (A : Arith) (ops : list lop) (l : light) (i j : nat),
    lrun ops = Ok l ->
    symmetric_conflicts ops -> exclusive_phases ops ->
    i <> j -> names ops i j ->
    ~ (lit_up (signal l i) /\ lit_up (signal l j)).
Proof. intros A ops l i j H S E Hne Hn (Hi & Hj). exact (excl_run ops l H S E i j Hne Hn Hi Hj). Qed.
Print Assumptions C01_conflicting_signals_exclusive.

(** A crossing of two roads with a phase each, in binary64: amber 2 s, clearance 1 s, phases of
    3 s, steps of 0.5 s. *)
Definition ex_cfg : list (@lop F64) :=
  [ @LMovement F64 2 (@nofZ F64 2) (@nofZ F64 1) []; @LMovement F64 1 (@nofZ F64 2) (@nofZ F64 1) [];
    @LPhase F64 1 (@nofZ F64 3); @LPhase F64 2 (@nofZ F64 3) ].
Definition ex_light (n : nat) : list (@lop F64) := ex_cfg ++ repeat (@LStep F64 (@lit F64 1 2)) n.

Definition ls_list_eqb (a b : list light_state) : bool :=
  forallb (fun xy => ls_eqb (fst xy) (snd xy)) (combine a b) && Nat.eqb (length a) (length b).
Definition shows (ops : list (@lop F64)) (states : list light_state) : bool :=
  match lrun ops with Ok l => ls_list_eqb (light_states l) states | _ => false end.

(** The light goes through all states. *)
Example ex_light_runs :
  shows (ex_light 4) [Green; Red] = true /\ shows (ex_light 10) [Amber; Red] = true /\
  shows (ex_light 17) [Red; Green] = true /\ shows (ex_light 23) [Red; Amber] = true.
Proof. repeat split; vm_compute; reflexivity. Qed.

Lemma ex_light_movements n : movements_of (ex_light n) = movements_of ex_cfg.
Proof.
  unfold ex_light. rewrite movements_of_app.
  replace (movements_of (repeat (@LStep F64 (@lit F64 1 2)) n)) with (@nil (N * @num F64 * @num F64)).
  - apply app_nil_r.
  - generalize (@lit F64 1 2). intros d. induction n; simpl; auto.
Qed.
Lemma ex_light_phases n : phases_of (ex_light n) = phases_of ex_cfg.
Proof.
  unfold ex_light. rewrite phases_of_app.
  replace (phases_of (repeat (@LStep F64 (@lit F64 1 2)) n)) with (@nil (N * @num F64)).
  - apply app_nil_r.
  - generalize (@lit F64 1 2). intros d. induction n; simpl; auto.
Qed.
Lemma has_bit_small m j n : (m < 2 ^ N.of_nat n)%N -> has_bit m j -> j < n.
Proof.
  intros H B. destruct (Nat.lt_ge_cases j n) as [|Hge]; auto. exfalso. unfold has_bit in B.
  rewrite N.testbit_eqb, N.div_small in B; [discriminate|].
  eapply N.lt_le_trans; [exact H|]. apply N.pow_le_mono_r; lia.
Qed.
Ltac small_bits H := apply (has_bit_small _ _ 2) in H as ?; [|reflexivity].
Lemma ex_cfg_conflicts : symmetric_conflicts ex_cfg /\ exclusive_phases ex_cfg.
Proof.
  split.
  - intros i j Hi Hj (c & a & r & H & B). simpl in Hi, Hj.
    destruct i as [|[|]], j as [|[|]]; try lia; inversion H; subst; try (vm_compute in B; discriminate);
      unfold names; simpl; repeat eexists; reflexivity.
  - intros m d i j [H|[H|[]]] Hne Hi Hj (c & a & r & Hn & B); inversion H; subst m d;
      small_bits Hi; small_bits Hj; destruct i as [|[|]], j as [|[|]]; try lia;
      vm_compute in Hi, Hj; discriminate.
Qed.
Example C01_example n : names (ex_light n) 0 1 /\ symmetric_conflicts (ex_light n) /\ exclusive_phases (ex_light n).
Proof.
  unfold symmetric_conflicts, exclusive_phases, names. rewrite ex_light_movements, ex_light_phases.
  split; [|exact ex_cfg_conflicts]. simpl. repeat eexists; reflexivity.
Qed.

(** Without the condition on the phases, two conflicting signals do show green together. *)
Theorem C01_overlapping_phase_refuted :
  exists (ops : list (@lop F64)) l, lrun ops = Ok l /\ symmetric_conflicts ops /\ names ops 0 1 /\
    signal l 0 = Some Green /\ signal l 1 = Some Green.
Proof.
  pose (ops := [ @LMovement F64 2 (@nofZ F64 2) (@nofZ F64 0) []; @LMovement F64 1 (@nofZ F64 2) (@nofZ F64 0) [];
    @LPhase F64 3 (@nofZ F64 3); @LStep F64 (@nofZ F64 1); @LStep F64 (@nofZ F64 1) ]).
  assert (shows ops [Green; Green] = true) as H by (vm_compute; reflexivity).
  unfold shows in H. destruct (lrun ops) as [l| |] eqn:E; try discriminate.
  exists ops, l. split; auto. split; [|split].
  - intros i j Hi Hj (c & a & r & Hn & B). simpl in Hi, Hj.
    destruct i as [|[|]], j as [|[|]]; try lia; inversion Hn; subst; try (vm_compute in B; discriminate);
      unfold names; simpl; repeat eexists; reflexivity.
  - unfold names; simpl; repeat eexists; reflexivity.
  - unfold signal. destruct (light_states l) as [|[] [|[] [|]]]; try discriminate; auto.
Qed.
Print Assumptions C01_overlapping_phase_refuted.

(** Without symmetry the exclusion fails as well, even with one movement per phase. *)
Theorem C01_asymmetric_conflict_refuted :
  exists (ops : list (@lop F64)) l, lrun ops = Ok l /\ exclusive_phases ops /\ names ops 0 1 /\
    lit_up (signal l 0) /\ lit_up (signal l 1).
Proof.
  pose (ops := [ @LMovement F64 2 (@nofZ F64 2) (@nofZ F64 0) []; @LMovement F64 0 (@nofZ F64 9) (@nofZ F64 0) [];
    @LPhase F64 2 (@nofZ F64 0); @LPhase F64 1 (@nofZ F64 3);
    @LStep F64 (@nofZ F64 1); @LStep F64 (@nofZ F64 1); @LStep F64 (@nofZ F64 1); @LStep F64 (@nofZ F64 1) ]).
  assert (shows ops [Green; Amber] = true) as H by (vm_compute; reflexivity).
  unfold shows in H. destruct (lrun ops) as [l| |] eqn:E; try discriminate.
  exists ops, l. split; auto. split; [|split].
  - intros m d i j [Hp|[Hp|[]]] Hne Hi Hj _; inversion Hp; subst m d;
      small_bits Hi; small_bits Hj; destruct i as [|[|]], j as [|[|]]; try lia;
      vm_compute in Hi, Hj; discriminate.
  - unfold names; simpl; repeat eexists; reflexivity.
  - unfold signal, lit_up. destruct (light_states l) as [|[] [|[] [|]]]; try discriminate; auto.
Qed.
Print Assumptions C01_asymmetric_conflict_refuted.

(** ** C02: in one step a signal stays or makes one of four transitions. *)
Theorem C02_signal_transitions :
  forall (A : Arith) (l : light) (dt : num) (l' : light) (i : nat) (s : light_state),
    light_step l dt = Ok l' -> signal l i = Some s ->
    exists s', signal l' i = Some s' /\
      (s' = s \/ (s, s') = (Red, Green) \/ (s, s') = (Green, Amber) \/ (s, s') = (Amber, Red) \/ (s, s') = (Amber, Green)).
Proof.
  intros A l dt l' i s H Hs. destruct (step_transition l dt l' i s H Hs) as (s' & H1 & H2).
  exists s'. split; [exact H1|]. intuition congruence.
Qed.
Print Assumptions C02_signal_transitions.

(** All four transitions and all three stays occur; for instance amber to green: *)
Example C02_example :
  let ops := [ @LMovement F64 0 (@nofZ F64 5) (@nofZ F64 0) []; @LPhase F64 1 (@nofZ F64 0); @LPhase F64 0 (@nofZ F64 0);
               @LStep F64 (@nofZ F64 1); @LStep F64 (@nofZ F64 1) ] in
  shows ops [Amber] = true /\ shows (ops ++ [@LStep F64 (@nofZ F64 1)]) [Green] = true.
Proof. split; vm_compute; reflexivity. Qed.

(** ** C03: amber times and clearance times, measured by a stopwatch on the reported states. *)
Theorem C03_amber_time :
  forall (A : Arith) (ops : list lop) (l : light) (w : list num) (dt : num) (l' : light) i c amber red x,
    watch ops = Ok (l, w) -> light_step l dt = Ok l' ->
    nth_error (movements_of ops) i = Some (c, amber, red) -> nth_error w i = Some x ->
    signal l i = Some Amber -> signal l' i = Some Red ->
    nleb amber x = true.
Proof. intros A ops l w dt l' i c a r x. exact (amber_min ops l w dt l' i c a r x). Qed.
Print Assumptions C03_amber_time.

Theorem C03_clearance_time :
  forall (A : Arith) (ops : list lop) (l : light) (w : list num) (dt : num) (l' : light) i j c amber red x,
    watch ops = Ok (l, w) -> light_step l dt = Ok l' ->
    signal l i = Some Red -> signal l' i = Some Green ->
    nth_error (movements_of ops) j = Some (c, amber, red) -> has_bit c i -> nth_error w j = Some x ->
    signal l j = Some Red /\ nltb red x = true.
Proof. intros A ops l w dt l' i j c a r x. exact (clearance_min ops l w dt l' i j c a r x). Qed.
Print Assumptions C03_clearance_time.

(** The stopwatch is defined on every history that does not panic, with one entry per movement. *)
Theorem C03_stopwatch_total :
  forall (A : Arith) (ops : list lop) (l : light),
    lrun ops = Ok l -> exists w, watch ops = Ok (l, w) /\ length w = length (movements_of ops).
Proof.
  intros A ops l H. exists (map m_since (l_movements l)). split; [exact (watch_total ops l H)|].
  rewrite map_length. symmetry. exact (cfg_length l ops (lrun_cfg ops l H)).
Qed.
Print Assumptions C03_stopwatch_total.

(** Both transitions occur in the crossing example. *)
Example C03_example :
  shows (ex_light 13) [Amber; Red] = true /\ shows (ex_light 14) [Red; Red] = true /\
  shows (ex_light 16) [Red; Red] = true /\ shows (ex_light 17) [Red; Green] = true.
Proof. repeat split; vm_compute; reflexivity. Qed.

(** ** C04: phases.  [l_phase] is the index of the current phase. *)
Theorem C04_step_total :
  forall (A : Arith) (ops : list lop) (l : light) (dt : num),
    lrun ops = Ok l ->
    (phases_of ops <> [] /\ length (movements_of ops) <= 64 <-> exists l', light_step l dt = Ok l') /\
    (phases_of ops = [] -> light_step l dt = Panic PNoPhase).
Proof.
  intros A ops l dt H. pose proof (lrun_cfg _ _ H) as C. rewrite (cfg_length _ _ C). destruct C as (_ & <-).
  split; [split|].
  - intros (H1 & H2). apply light_step_total; auto. { eapply phase_ok_run; eauto. } intros E. rewrite E in H1. contradiction.
  - intros (l' & Hl'). destruct (light_step_cases l dt) as (P1 & P2).
    destruct (l_phases l) as [|p ps] eqn:E; [rewrite P1 in Hl' by auto; discriminate|]. split; [discriminate|].
    destruct (Nat.le_gt_cases (length (l_movements l)) 64); auto. rewrite P2 in Hl' by (congruence || lia). discriminate.
  - intros E. apply (light_step_cases l dt). destruct (l_phases l); auto; discriminate.
Qed.
Print Assumptions C04_step_total.

Theorem C04_phase_valid :
  forall (A : Arith) (ops : list lop) (l : light),
    lrun ops = Ok l -> phases_of ops <> [] -> l_phase l < length (phases_of ops).
Proof.
  intros A ops l H Hp. pose proof (lrun_cfg _ _ H) as (_ & C). rewrite <- C in *. rewrite map_length.
  destruct (phase_ok_run _ _ H) as [(E & _)|]; auto. rewrite E in Hp. contradiction.
Qed.
Print Assumptions C04_phase_valid.

(** A step keeps the phase or moves to the cyclically next one; it moves iff each movement of the
    phase showed green for at least the phase's duration. *)
Theorem C04_phase_advance :
  forall (A : Arith) (ops : list lop) (l : light) (w : list num) (dt : num) (l' : light) mask dur,
    watch ops = Ok (l, w) -> light_step l dt = Ok l' ->
    nth_error (phases_of ops) (l_phase l) = Some (mask, dur) ->
    let complete := forall i x, nth_error w i = Some x -> has_bit mask i ->
                                signal l i = Some Green /\ nleb dur x = true in
    (complete -> l_phase l' = (l_phase l + 1) mod length (phases_of ops)) /\
    (~ complete -> l_phase l' = l_phase l).
Proof.
  intros A ops l w dt l' mask dur Hw Hs Hp complete. apply watch_since in Hw. destruct Hw as (H & ->).
  pose proof (lrun_cfg _ _ H) as (_ & C). apply light_step_ok in Hs. destruct Hs as (p0 & p & H0 & _ & H2 & _).
  rewrite <- C, nth_error_map, H0 in Hp. simpl in Hp. inversion Hp; subst mask dur.
  assert (complete <-> phase_complete (l_movements l) p0 = true) as E.
  { rewrite phase_complete_true. unfold complete. split.
    - intros K i m Hm Hb. destruct (K i (m_since m)) as (K1 & K2); auto.
      + rewrite nth_error_map, Hm. auto.
      + split; auto. apply signal_nth in K1. destruct K1 as (m' & Hm' & K1). congruence.
    - intros K i x Hx Hb. rewrite nth_error_map in Hx. destruct (nth_error (l_movements l) i) as [m|] eqn:Em; inversion Hx; subst.
      destruct (K i m Em Hb) as (K1 & K2). split; auto. apply signal_nth. eauto. }
  rewrite <- C, map_length. rewrite H2. split.
  - intros K. apply E in K. rewrite K. auto.
  - intros K. destruct (phase_complete (l_movements l) p0) eqn:Ec; auto. exfalso. tauto.
Qed.
Print Assumptions C04_phase_advance.

Definition phase_is (ops : list (@lop F64)) (p : nat) : bool :=
  match lrun ops with Ok l => Nat.eqb (l_phase l) p | _ => false end.
Example C04_example :
  phase_is (ex_light 9) 0 = true /\ phase_is (ex_light 10) 1 = true /\ phase_is (ex_light 23) 0 = true /\
  phases_of (ex_light 9) <> [] /\ length (movements_of (ex_light 9)) <= 64.
Proof.
  split; [vm_compute; reflexivity|]. split; [vm_compute; reflexivity|]. split; [vm_compute; reflexivity|].
  rewrite ex_light_movements, ex_light_phases. split; [discriminate|simpl; lia].
Qed.

(** ** C05: every phase is served, again and again (exact arithmetic, constant positive step). *)
Theorem C05_every_phase_served :
  forall (ops : list (@lop RA)) (l : light) (dt : R) (q : nat) (mask : N) (dur : R) (k0 : nat),
    lrun ops = Ok l -> length (movements_of ops) <= 64 -> exclusive_phases ops -> (0 < dt)%R ->
    nth_error (phases_of ops) q = Some (mask, dur) ->
    exists n l' w, k0 <= n /\ watch (ops ++ repeat (@LStep RA dt) n) = Ok (l', w) /\ l_phase l' = q /\
      forall i, i < length (movements_of ops) -> has_bit mask i ->
        signal l' i = Some Green /\ exists x, nth_error w i = Some x /\ (dur <= x)%R.
Proof. exact served. Qed.
Print Assumptions C05_every_phase_served.

Theorem C05_phase_moves_on :
  forall (ops : list (@lop RA)) (l : light) (dt : R),
    lrun ops = Ok l -> phases_of ops <> [] -> length (movements_of ops) <= 64 ->
    exclusive_phases ops -> (0 < dt)%R ->
    exists n l', steps (S n) (dt : @num RA) l = Ok l' /\ l_phase l' = (l_phase l + 1) mod length (phases_of ops).
Proof. exact moves_on. Qed.
Print Assumptions C05_phase_moves_on.

(** The crossing above, over the reals, in its initial state meets the hypotheses. *)
Definition ex_cfg_R : list (@lop RA) :=
  [ @LMovement RA 2 2%R 1%R []; @LMovement RA 1 2%R 1%R []; @LPhase RA 1 3%R; @LPhase RA 2 3%R ].
Example C05_example :
  (exists l, lrun ex_cfg_R = Ok l) /\ length (movements_of ex_cfg_R) <= 64 /\ exclusive_phases ex_cfg_R /\
  phases_of ex_cfg_R <> [].
Proof.
  split; [eexists; reflexivity|]. split; [simpl; lia|]. split; [|discriminate].
  intros m d i j [H|[H|[]]] Hne Hi Hj (c & a & r & Hn & B); inversion H; subst m d;
    small_bits Hi; small_bits Hj; destruct i as [|[|]], j as [|[|]]; try lia;
    vm_compute in Hi, Hj; discriminate.
Qed.
