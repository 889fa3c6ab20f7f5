(** * Liveness of traffic lights in exact arithmetic *)
From Coq Require Import List Arith ZArith NArith Bool Lia Reals Lra Classical.
From Flocq Require Import Core.Raux.
From Verif Require Import Arith RealArith Base BaseProofs SlotMap Light SpecLight LightProofs.
Import ListNotations.

(** From some moment on. *)
Definition EA (P : nat -> Prop) : Prop := exists N, forall n, N <= n -> P n.

Lemma EA_and P Q : EA P -> EA Q -> EA (fun n => P n /\ Q n).
Proof. intros (a & Ha) (b & Hb). exists (Nat.max a b). intros n Hn. split; [apply Ha|apply Hb]; lia. Qed.
Lemma EA_mono (P Q : nat -> Prop) : (forall n, P n -> Q n) -> EA P -> EA Q.
Proof. intros H (a & Ha). exists a. auto. Qed.
Lemma EA_forall_lt (P : nat -> nat -> Prop) k :
  (forall i, i < k -> EA (P i)) -> EA (fun n => forall i, i < k -> P i n).
Proof.
  induction k; intros H.
  - exists 0. intros; lia.
  - destruct IHk as (a & Ha); [auto|]. destruct (H k) as (b & Hb); [lia|].
    exists (Nat.max a b). intros n Hn i Hi. destruct (Nat.eq_dec i k).
    + subst. apply Hb. lia.
    + apply Ha; lia.
Qed.

Section Live.
  Local Existing Instance RA.
  Implicit Types (l : @light RA).
  Variable ops : list (@lop RA).
  Variable dt : @num RA.
  Hypothesis Hdt : (0 < dt)%R.

  Definition good l : Prop :=
    cfg l ops /\ phase_ok l /\ l_phases l <> [] /\ length (l_movements l) <= 64.

  Definition next l : light := match light_step l dt with Ok l' => l' | _ => l end.

  Lemma next_ok l : good l -> light_step l dt = Ok (next l) /\ good (next l).
  Proof.
    intros (C & P & N & M). destruct (light_step_total l dt P N M) as (l' & H).
    unfold next. rewrite H. split; auto. pose proof H as H'.
    apply light_step_ok in H. destruct H as (p0 & p & H0 & _ & H2 & H3 & H4 & _ & H6).
    split; [eapply cfg_step; eauto|]. split; [|split].
    - right. rewrite H4. apply nth_error_Some. congruence.
    - congruence.
    - rewrite H6, step_movements_length, map_length, enumerate_length. auto.
  Qed.

  Fixpoint it (n : nat) l : light := match n with O => l | S n => next (it n l) end.

  Lemma it_good n l : good l -> good (it n l).
  Proof. intros H. induction n; simpl; auto. apply next_ok; auto. Qed.
  Lemma it_step n l : good l -> light_step (it n l) dt = Ok (it (S n) l).
  Proof. intros H. simpl. apply next_ok. apply it_good; auto. Qed.
  Lemma it_add n k l : it (n + k) l = it n (it k l).
  Proof. induction n; simpl; auto. rewrite IHn. auto. Qed.
  Lemma it_phases n l : good l -> l_phases (it n l) = l_phases l.
  Proof.
    intros H. induction n; auto. rewrite <- IHn. pose proof (it_step n l H) as E.
    apply light_step_ok in E. destruct E as (p0 & p & _ & _ & _ & _ & H4 & _). auto.
  Qed.
  Lemma it_len n l : good l -> length (l_movements (it n l)) = length (l_movements l).
  Proof.
    intros H. induction n; auto. rewrite <- IHn. pose proof (it_step n l H) as E.
    apply light_step_ok in E. destruct E as (p0 & p & _ & _ & _ & _ & _ & _ & H6).
    rewrite H6, step_movements_length, map_length, enumerate_length. auto.
  Qed.

  Lemma it_steps n l : good l -> steps n dt l = Ok (it n l).
  Proof.
    revert l; induction n; intros l H; auto. simpl.
    destruct (next_ok l H) as (-> & H'). simpl. rewrite IHn by auto. f_equal.
    clear. induction n; simpl; auto. rewrite IHn. auto.
  Qed.

  Section NoProgress.
    Variable l0 : light.
    Hypothesis G : good l0.
    Variable p : phase.
    Hypothesis Hp : nth_error (l_phases l0) (l_phase l0) = Some p.
    Hypothesis E : exclusive_phases ops.
    (** The phase never completes. *)
    Hypothesis never : forall n, (forall k, k <= n -> l_phase (it k l0) = l_phase l0) ->
                                 phase_complete (l_movements (it n l0)) p = false.

    Lemma stay n : forall k, k <= n -> l_phase (it k l0) = l_phase l0.
    Proof.
      induction n; intros k Hk.
      - replace k with 0 by lia. auto.
      - destruct (Nat.eq_dec k (S n)); [subst|apply IHn; lia].
        pose proof (it_step n l0 G) as H. apply light_step_ok in H.
        destruct H as (p0 & p' & H0 & _ & H2 & _). rewrite (IHn n) in * by lia.
        rewrite it_phases in H0 by auto. rewrite Hp in H0. inversion H0; subst p0.
        rewrite never in H2 by auto. auto.
    Qed.

    Notation b i := (bit (p_mask p) i).
    Notation len := (length (l_movements l0)).
    Notation ms n := (map (fun im => set_active (snd im) (b (fst im))) (enumerate (l_movements (it n l0)))).

    Lemma evolve n i m : nth_error (l_movements (it n l0)) i = Some m ->
      nth_error (l_movements (it (S n) l0)) i =
      Some (movement_step dt (next_state (ms n) i (set_active m (b i))) (set_active m (b i))).
    Proof.
      intros H. destruct (light_step_nth _ _ _ (it_step n l0 G)) as (p' & H1 & H2).
      rewrite it_phases in H1 by auto. rewrite (stay (S n) (S n)) in H1 by lia.
      rewrite Hp in H1. inversion H1; subst p'. rewrite H2, H. auto.
    Qed.

    Definition dflt : movement := Mv Red false 0%R 0%R 0%R 0%N.
    Definition mv i n : movement := nth i (l_movements (it n l0)) dflt.

    Lemma mv_nth i n : i < len -> nth_error (l_movements (it n l0)) i = Some (mv i n).
    Proof. intros H. apply nth_error_nth'. rewrite it_len; auto. Qed.

    Lemma mv_S i n : i < len ->
      mv i (S n) = movement_step dt (next_state (ms n) i (set_active (mv i n) (b i))) (set_active (mv i n) (b i)).
    Proof.
      intros H. pose proof (evolve n i _ (mv_nth i n H)) as H1. rewrite (mv_nth i (S n) H) in H1.
      injection H1 as H1. auto.
    Qed.

    Lemma mv_cfg i n : i < len ->
      m_conflict (mv i n) = m_conflict (mv i 0) /\ m_amber (mv i n) = m_amber (mv i 0) /\ m_red (mv i n) = m_red (mv i 0).
    Proof.
      intros H. induction n; auto. rewrite mv_S by auto.
      destruct (movement_step_cfg dt (next_state (ms n) i (set_active (mv i n) (b i))) (set_active (mv i n) (b i))) as (-> & -> & -> & _).
      auto.
    Qed.

    (** A signal that keeps its state accumulates any amount of time. *)
    Lemma stable_grows i s N T : i < len -> (forall n, N <= n -> m_state (mv i n) = s) ->
      EA (fun n => (T < m_since (mv i n))%R).
    Proof.
      intros Hi Hs.
      assert (forall k, m_since (mv i (N + k)) = (m_since (mv i N) + INR k * dt)%R) as K.
      { induction k.
        - rewrite Nat.add_0_r. simpl. lra.
        - rewrite Nat.add_succ_r, mv_S by auto.
          pose proof (Hs (S (N + k))) as H1. rewrite mv_S, movement_step_state in H1 by (auto; lia).
          rewrite H1 by lia. unfold movement_step. simpl m_state. rewrite (Hs (N + k)) by lia.
          replace (ls_eqb s s) with true by (symmetry; apply ls_eqb_eq; auto).
          cbn [m_since set_active]. rewrite IHk, S_INR. change (@nadd RA) with Rplus. lra. }
      destruct (archimed ((T - m_since (mv i N)) / dt)) as (Ha & _).
      set (z := up ((T - m_since (mv i N)) / dt)) in *.
      exists (N + Z.to_nat z). intros n Hn. replace n with (N + (n - N)) by lia. rewrite K.
      assert (IZR z <= INR (n - N))%R as Hz.
      { rewrite INR_IZR_INZ. apply IZR_le. lia. }
      assert (T - m_since (mv i N) < INR (n - N) * dt)%R; [|lra].
      apply Rlt_le_trans with (IZR z * dt)%R.
      - apply (Rmult_lt_compat_r dt) in Ha; auto. unfold Rdiv in Ha. rewrite Rmult_assoc, Rinv_l, Rmult_1_r in Ha by lra. auto.
      - apply Rmult_le_compat_r; lra.
    Qed.

    Lemma inactive_red i : i < len -> b i = false ->
      EA (fun n => m_state (mv i n) = Red).
    Proof.
      intros Hi Hb.
      assert (forall n, m_state (mv i n) = Red -> m_state (mv i (S n)) = Red) as Kr.
      { intros n Hr. rewrite mv_S, movement_step_state by auto. unfold next_state. simpl. rewrite Hb, Hr. auto. }
      assert (forall n, m_state (mv i n) = Red -> EA (fun n => m_state (mv i n) = Red)) as Ke.
      { intros n Hn. exists n. intros k Hk. induction Hk; auto. }
      assert (forall n, m_state (mv i n) = Green -> m_state (mv i (S n)) = Amber) as Kg.
      { intros n Hr. rewrite mv_S, movement_step_state by auto. unfold next_state. simpl. rewrite Hb, Hr. auto. }
      assert (forall n, m_state (mv i n) = Amber -> EA (fun n => m_state (mv i n) = Red)) as Ka.
      { intros N HN. destruct (classic (exists n, N <= n /\ m_state (mv i n) <> Amber)) as [(n & Hn & Hs)|Hno].
        - assert (forall k, m_state (mv i (N + k)) = Amber \/ EA (fun n => m_state (mv i n) = Red)) as K.
          { induction k as [|k IHk]; [rewrite Nat.add_0_r; auto|]. destruct IHk as [IHk|]; auto.
            rewrite Nat.add_succ_r.
            destruct (m_state (mv i (S (N + k)))) eqn:Es; auto.
            - right. eapply Ke; eauto.
            - exfalso. rewrite mv_S, movement_step_state in Es by auto. unfold next_state in Es. simpl in Es.
              rewrite Hb, IHk in Es. destruct (Rle_bool _ _) in Es; discriminate. }
          destruct (K (n - N)) as [K'|]; auto. replace (N + (n - N)) with n in K' by lia. congruence.
        - assert (forall n, N <= n -> m_state (mv i n) = Amber) as Hs.
          { intros n Hn. destruct (m_state (mv i n)) eqn:Es; auto; exfalso; apply Hno; exists n; split; auto; congruence. }
          destruct (stable_grows i Amber N (m_amber (mv i 0)) Hi Hs) as (M & HM).
          exfalso. pose proof (Hs (S (Nat.max N M))) as H1. rewrite mv_S, movement_step_state in H1 by auto.
          unfold next_state in H1. simpl in H1. rewrite Hb, Hs in H1 by lia.
          rewrite Rle_bool_true in H1. { specialize (H1 ltac:(lia)). discriminate. }
          destruct (mv_cfg i (Nat.max N M) Hi) as (_ & -> & _). apply Rlt_le. apply HM. lia. }
      destruct (m_state (mv i 0)) eqn:E0; eauto.
    Qed.

    Lemma inactive_cleared i : i < len -> b i = false ->
      EA (fun n => m_state (mv i n) = Red /\ (m_red (mv i n) < m_since (mv i n))%R).
    Proof.
      intros Hi Hb. pose proof (inactive_red i Hi Hb) as H. apply EA_and; auto.
      destruct H as (N & HN). destruct (stable_grows i Red N (m_red (mv i 0)) Hi HN) as (M & HM).
      exists M. intros n Hn. destruct (mv_cfg i n Hi) as (_ & _ & ->). auto.
    Qed.

    Lemma active_green i : i < len -> b i = true -> EA (fun n => m_state (mv i n) = Green).
    Proof.
      intros Hi Hb.
      assert (forall n, m_state (mv i n) <> Red -> m_state (mv i (S n)) = Green) as Kg.
      { intros n Hr. rewrite mv_S, movement_step_state by auto. unfold next_state. simpl. rewrite Hb.
        destruct (m_state (mv i n)); auto; contradiction. }
      destruct (classic (exists n, m_state (mv i n) <> Red)) as [(n & Hn)|Hno].
      - exists (S n). intros k Hk. assert (forall j, m_state (mv i (S n + j)) = Green) as K.
        { induction j; [rewrite Nat.add_0_r; auto|]. rewrite Nat.add_succ_r. apply Kg. congruence. }
        specialize (K (k - S n)). replace (S n + (k - S n)) with k in K by lia. auto.
      - assert (forall n, 0 <= n -> m_state (mv i n) = Red) as Hr.
        { intros n _. destruct (m_state (mv i n)) eqn:Es; auto; exfalso; apply Hno; exists n; congruence. }
        exfalso.
        assert (EA (fun n => forall j, j < len -> bit (m_conflict (mv j n)) i = true ->
                  m_state (mv j n) = Red /\ (m_red (mv j n) < m_since (mv j n))%R)) as (N & HN).
        { apply (EA_forall_lt (fun j n => bit (m_conflict (mv j n)) i = true ->
                  m_state (mv j n) = Red /\ (m_red (mv j n) < m_since (mv j n))%R)). intros j Hj.
          destruct (Nat.eq_dec j i) as [->|Hne].
          - destruct (stable_grows i Red 0 (m_red (mv i 0)) Hi Hr) as (M & HM).
            exists M. intros n Hn _. split; [apply Hr; lia|]. destruct (mv_cfg i n Hi) as (_ & _ & ->). auto.
          - destruct (bit (m_conflict (mv j 0)) i) eqn:Ec.
            + destruct (b j) eqn:Ebj.
              * exfalso. destruct G as (C & _). apply (E (p_mask p) (p_duration p) j i); auto.
                -- eapply cfg_phase; eauto.
                -- apply (cfg_names l0 ops j i (mv j 0)); auto. apply (mv_nth j 0); auto.
              * eapply EA_mono; [|apply (inactive_cleared j Hj Ebj)]. auto.
            + exists 0. intros n _ H. destruct (mv_cfg j n Hj) as (Hc & _). rewrite Hc in H. congruence. }
        pose proof (Hr (S N) ltac:(lia)) as H1. rewrite mv_S, movement_step_state in H1 by auto.
        unfold next_state in H1. simpl in H1. rewrite Hb, Hr in H1 by lia.
        assert (can_turn_green (ms N) i = true) as Hc.
        { apply can_turn_green_true. intros j o Ho Hbit. rewrite active_movements_nth in Ho.
          assert (j < len) as Hj.
          { rewrite <- (it_len N l0 G). apply nth_error_Some. destruct (nth_error (l_movements (it N l0)) j); [discriminate|].
            simpl in Ho. discriminate. }
          rewrite (mv_nth j N Hj) in Ho. simpl in Ho. inversion Ho; subst. simpl in *.
          destruct (HN N (le_n _) j Hj Hbit) as (A1 & A2). split; auto. apply Rlt_bool_true. auto. }
        rewrite Hc in H1. discriminate.
    Qed.

    Lemma no_progress : False.
    Proof.
      assert (EA (fun n => forall i, i < len -> b i = true ->
                m_state (mv i n) = Green /\ (p_duration p <= m_since (mv i n))%R)) as (N & HN).
      { apply (EA_forall_lt (fun i n => b i = true ->
                m_state (mv i n) = Green /\ (p_duration p <= m_since (mv i n))%R)). intros i Hi.
        destruct (b i) eqn:Eb.
        - pose proof (active_green i Hi Eb) as H. destruct H as (N & HN).
          destruct (stable_grows i Green N (p_duration p) Hi HN) as (M & HM).
          exists (Nat.max N M). intros n Hn _. split; [apply HN; lia|]. apply Rlt_le. apply HM. lia.
        - exists 0. intros; discriminate. }
      pose proof (never N (stay N)) as H.
      assert (phase_complete (l_movements (it N l0)) p = true); [|congruence].
      apply phase_complete_true. intros i m Hm Hb.
      assert (i < len) as Hi. { rewrite <- (it_len N l0 G). apply nth_error_Some. congruence. }
      rewrite (mv_nth i N Hi) in Hm. inversion Hm; subst.
      destruct (HN N (le_n _) i Hi Hb) as (A1 & A2). split; auto. apply Rle_bool_true. auto.
    Qed.
  End NoProgress.

  (** The current phase completes. *)
  Lemma phase_completes l0 p :
    good l0 -> exclusive_phases ops -> nth_error (l_phases l0) (l_phase l0) = Some p ->
    exists n, (forall k, k <= n -> l_phase (it k l0) = l_phase l0) /\
              phase_complete (l_movements (it n l0)) p = true /\
              l_phase (it (S n) l0) = (l_phase l0 + 1) mod length (l_phases l0).
  Proof.
    intros G E Hp.
    destruct (classic (exists n, (forall k, k <= n -> l_phase (it k l0) = l_phase l0) /\
              phase_complete (l_movements (it n l0)) p = true)) as [(n & H1 & H2)|H].
    - exists n. split; auto. split; auto. pose proof (it_step n l0 G) as H. apply light_step_ok in H.
      destruct H as (p0 & p' & H0 & _ & H3 & _). rewrite (H1 n (le_n n)) in H0, H3. rewrite it_phases in H0, H3 by auto.
      rewrite Hp in H0. inversion H0; subst p0. rewrite H2 in H3. auto.
    - exfalso. apply (no_progress l0 G p Hp E). intros n Hn.
      destruct (phase_complete _ p) eqn:Ec; auto. exfalso. apply H. eauto.
  Qed.

  (** Every phase is reached and completes, again and again. *)
  Lemma every_phase l0 q :
    good l0 -> exclusive_phases ops -> q < length (l_phases l0) ->
    exists n, l_phase (it n l0) = q.
  Proof.
    intros G E Hq.
    assert (forall k, exists n, l_phase (it n l0) = (l_phase l0 + k) mod length (l_phases l0)) as K.
    { induction k as [|k (n & IH)].
      - exists 0. simpl. rewrite Nat.add_0_r, Nat.mod_small; auto.
        destruct G as (_ & [(H & _)|H] & _); auto. rewrite H in Hq. simpl in Hq. lia.
      - pose proof (it_good n l0 G) as Gn.
        destruct (nth_error (l_phases (it n l0)) (l_phase (it n l0))) as [p|] eqn:Ep.
        2: { apply nth_error_None in Ep. rewrite it_phases, IH in Ep by auto.
             pose proof (Nat.mod_upper_bound (l_phase l0 + k) (length (l_phases l0)) ltac:(lia)) as Hmb.
             apply Nat.lt_nge in Hmb. contradiction. }
        destruct (phase_completes _ p Gn E Ep) as (m & _ & _ & Hm).
        exists (S m + n). rewrite it_add, Hm, it_phases, IH by exact G.
        rewrite Nat.add_mod_idemp_l by lia. f_equal. lia. }
    destruct (K (length (l_phases l0) - l_phase l0 + q)) as (n & Hn). exists n. rewrite Hn.
    assert (l_phase l0 < length (l_phases l0)).
    { destruct G as (_ & [(H & _)|H] & _); auto. rewrite H in Hq. simpl in Hq. lia. }
    replace (l_phase l0 + (length (l_phases l0) - l_phase l0 + q)) with (q + 1 * length (l_phases l0)) by lia.
    rewrite Nat.mod_add by lia. apply Nat.mod_small. auto.
  Qed.
End Live.

Section LiveRun.
  Local Existing Instance RA.

  Lemma run_good (ops : list (@lop RA)) l :
    lrun ops = Ok l -> phases_of ops <> [] -> length (movements_of ops) <= 64 -> good ops l.
  Proof.
    intros H Hp Hm. pose proof (lrun_cfg _ _ H) as C. split; auto. split; [eapply phase_ok_run; eauto|].
    split.
    - intros E. destruct C as (_ & C). rewrite E in C. simpl in C. apply Hp; symmetry; exact C.
    - rewrite <- (cfg_length _ _ C). auto.
  Qed.

  Lemma run_steps (ops : list (@lop RA)) (dt : @num RA) l n l' :
    lrun ops = Ok l -> steps n dt l = Ok l' -> lrun (ops ++ repeat (LStep dt) n) = Ok l'.
  Proof.
    revert ops l. induction n; intros ops l H Hs; simpl in *.
    - inv_bind. rewrite app_nil_r. auto.
    - inv_bind. replace (ops ++ @LStep RA dt :: repeat (@LStep RA dt) n) with ((ops ++ [@LStep RA dt]) ++ repeat (@LStep RA dt) n)
        by (rewrite <- app_assoc; auto).
      eapply IHn; eauto. rewrite lrun_snoc, H. auto.
  Qed.

  (** A light moves to its next phase after finitely many steps. *)
  Lemma moves_on (ops : list (@lop RA)) l (dt : @num RA) :
    lrun ops = Ok l -> phases_of ops <> [] -> length (movements_of ops) <= 64 ->
    exclusive_phases ops -> (0 < dt)%R ->
    exists n l', steps (S n) dt l = Ok l' /\ l_phase l' = (l_phase l + 1) mod length (phases_of ops).
  Proof.
    intros H Hp Hm He Hdt. pose proof (run_good _ _ H Hp Hm) as G.
    assert (l_phase l < length (l_phases l)) as Hl.
    { destruct G as (_ & [(E & _)|E] & N & _); auto; contradiction. }
    destruct (nth_error (l_phases l) (l_phase l)) as [p|] eqn:Ep.
    2: { apply nth_error_None in Ep. lia. }
    destruct (phase_completes ops dt Hdt l p G He Ep) as (n & _ & _ & H3).
    exists n, (it dt (S n) l). split; [eapply it_steps; eauto|]. rewrite H3. f_equal.
    destruct (lrun_cfg _ _ H) as (_ & <-). rewrite map_length. auto.
  Qed.

  (** Every phase gets all its movements green for its whole duration, again and again. *)
  Lemma served (ops : list (@lop RA)) l (dt : @num RA) q mask dur k0 :
    lrun ops = Ok l -> length (movements_of ops) <= 64 ->
    exclusive_phases ops -> (0 < dt)%R ->
    nth_error (phases_of ops) q = Some (mask, dur) ->
    exists n l' w, k0 <= n /\ watch (ops ++ repeat (LStep dt) n) = Ok (l', w) /\ l_phase l' = q /\
      forall i, i < length (movements_of ops) -> has_bit mask i ->
        signal l' i = Some Green /\ exists x, nth_error w i = Some x /\ (dur <= x)%R.
  Proof.
    intros H Hm He Hdt Hq.
    assert (phases_of ops <> []) as Hp. { intros E. rewrite E in Hq. destruct q; discriminate. }
    pose proof (run_good _ _ H Hp Hm) as G.
    pose proof (it_good ops dt k0 l G) as G0.
    destruct (lrun_cfg _ _ H) as (_ & Cp). rewrite <- Cp, nth_error_map in Hq.
    destruct (nth_error (l_phases l) q) as [p|] eqn:Ep; simpl in Hq; inversion Hq; subst mask dur. clear Hq.
    assert (q < length (l_phases (it dt k0 l))) as Hq.
    { rewrite (it_phases ops) by auto. apply nth_error_Some. congruence. }
    destruct (every_phase ops dt Hdt _ q G0 He Hq) as (n1 & H1).
    pose proof (it_good ops dt n1 _ G0) as G1.
    destruct (phase_completes ops dt Hdt (it dt n1 (it dt k0 l)) p G1 He) as (n2 & H2 & H3 & _).
    { rewrite H1, !(it_phases ops) by auto. auto. }
    rewrite <- !it_add in *. specialize (H2 n2 (le_n _)). rewrite <- it_add in H2. 
    set (n := n2 + (n1 + k0)) in *.
    exists n, (it dt n l), (map m_since (l_movements (it dt n l))).
    split; [lia|]. split.
    { apply watch_total. eapply run_steps; eauto. apply (it_steps ops); auto. }
    split. { rewrite H2. auto. }
    intros i Hi Hb. rewrite <- Nat.add_assoc in H3. fold n in H3. rewrite phase_complete_true in H3.
    destruct (nth_error (l_movements (it dt n l)) i) as [m|] eqn:Em.
    2: { apply nth_error_None in Em. rewrite (it_len ops) in Em by auto. rewrite (cfg_length _ _ (lrun_cfg _ _ H)) in Hi. lia. }
    destruct (H3 i m Em) as (A1 & A2); auto. split.
    - apply signal_nth. eauto.
    - exists (m_since m). rewrite nth_error_map, Em. split; auto.
      simpl in A2. destruct (Rle_bool_spec (p_duration p) (m_since m)); auto. discriminate.
  Qed.
End LiveRun.
