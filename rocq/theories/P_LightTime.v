(** * C05 for steps of any lengths *)
From Coq Require Import List Bool ZArith NArith Arith Lia Reals Lra.
From Verif Require Import Arith RealArith Base BaseProofs SlotMap Light SpecLight LightProofs LightLive RFacts SpecArrive LightTime P_Light.
Import ListNotations.
Local Open Scope R_scope.

Lemma exclusive_of ops (l : @light RA) : lrun ops = Ok l -> exclusive_phases ops -> exclusive l.
Proof.
  intros H Ex p i j m Ip Nij Bi Bj E. pose proof (lrun_cfg _ _ H) as C. destruct (bit (m_conflict m) i) eqn:B; [|reflexivity]. exfalso.
  apply (Ex (p_mask p) (p_duration p) j i); [|congruence|exact Bj|exact Bi|].
  - destruct C as (_ & <-). apply in_map_iff. exists p. auto.
  - unfold names. exists (m_conflict m), (m_amber m), (m_red m). destruct (lrun_cfg _ _ H) as (<- & _). rewrite nth_error_map, E. auto.
Qed.
Fixpoint steps_of (dts : list R) (l : @light RA) : res light :=
  match dts with [] => Ok l | dt :: dts => bind (light_step l dt) (steps_of dts) end.
Lemma steps_run ops (l : @light RA) dts l' : lrun ops = Ok l -> steps_of dts l = Ok l' -> lrun (ops ++ map (@LStep RA) dts) = Ok l'.
Proof.
  revert ops l. induction dts as [|dt dts IH]; intros ops l H Hs; cbn [steps_of map] in *; [injection Hs as <-; rewrite app_nil_r; exact H|].
  apply bind_ok in Hs. destruct Hs as (l1 & H1 & Hs). change (ops ++ @LStep RA dt :: map (@LStep RA) dts) with (ops ++ [@LStep RA dt] ++ map (@LStep RA) dts). rewrite app_assoc. apply (IH _ l1); [|exact Hs]. rewrite lrun_snoc, H. exact H1.
Qed.
Section Serve.
  Variables (d Ka Kr Kd K0 : R).
  Hypothesis D0 : 0 <= d.
  Hypothesis Ka0 : 0 <= Ka.
  Hypothesis Kr0 : 0 <= Kr.
  Hypothesis Kd0 : 0 <= Kd.
  Hypothesis K00 : 0 <= K0.
  Let timed := timed d Ka Kr Kd K0.
  Let K5 := K5 d Ka Kr Kd K0.
  Lemma step_goes l t dt : timed l t -> (l_phase l < length (l_phases l))%nat -> (length (l_movements l) <= 64)%nat -> exists l', light_step l dt = Ok l' /\ (l_phase l' < length (l_phases l'))%nat /\ length (l_movements l') = length (l_movements l).
  Proof.
    intros T P M. destruct (light_step_total l dt) as (l' & H); [right; exact P|destruct (l_phases l); [cbn in P; lia|discriminate]|exact M|]. exists l'. split; [exact H|].
    pose proof (proj1 (light_step_ok _ _ _) H) as (p0 & p & _ & _ & _ & Ep & Hps & _ & Hms). split; [rewrite Hps; apply nth_error_Some; congruence|rewrite Hms, step_movements_length, map_length, enumerate_length; reflexivity].
  Qed.
  Lemma timed_steps dts : forall l t, timed l t -> (l_phase l < length (l_phases l))%nat -> (length (l_movements l) <= 64)%nat -> Forall (fun dt => 0 <= dt <= d) dts ->
    exists l' t', steps_of dts l = Ok l' /\ timed l' t' /\ (l_phase l' < length (l_phases l'))%nat /\ (length (l_movements l') <= 64)%nat /\ l_phases l' = l_phases l.
  Proof.
    induction dts as [|dt dts IH]; intros l t T P M F; [exists l, t; auto|]. inversion F; subst. destruct (step_goes l t dt T P M) as (l1 & H & P1 & M1). cbn [steps_of]. rewrite H. cbn [bind].
    destruct (nth_error (l_phases l) (l_phase l)) as [p0|] eqn:E0; [|apply nth_error_None in E0; lia].
    destruct (timed_step d Ka Kr Kd K0 D0 Ka0 Kr0 Kd0 K00 l dt l1 t p0 T) as (Ps & Q); auto.
    assert (exists t1, timed l1 t1) as (t1 & T1) by (destruct Q as [(_ & _ & Q)|(_ & _ & Q)]; eexists; exact Q).
    destruct (IH l1 t1 T1 P1) as (l' & t' & Q1 & Q2 & Q3 & Q4 & Q5); [lia|assumption|]. exists l', t'. rewrite <- Ps. auto.
  Qed.
  Lemma serve q p dts : forall l t U, timed l t -> (l_phase l < length (l_phases l))%nat -> (length (l_movements l) <= 64)%nat -> nth_error (l_phases l) q = Some p -> Forall (fun dt => 0 <= dt <= d) dts ->
    U <= INR (since_phase (length (l_phases l)) q (l_phase l)) * K5 + t -> INR (length (l_phases l)) * K5 < U + total dts ->
    exists d1 d2 l', dts = d1 ++ d2 /\ steps_of d1 l = Ok l' /\ l_phase l' = q /\ phase_complete (l_movements l') p = true.
  Proof.
    assert (0 <= K5) as K50. { unfold K5, LightTime.K5, K3, K2, K1. lra. }
    induction dts as [|dt dts IH]; intros l t U T P M Eq F Ub Tb.
    - exfalso. assert (q < length (l_phases l))%nat as Hq by (apply nth_error_Some; congruence). pose proof (since_less _ _ _ P Hq) as Q. apply le_INR in Q. rewrite S_INR in Q. cbn [total fold_right] in Tb. destruct (td_low _ _ _ _ _ _ _ T) as (_ & T5). fold K5 in T5.
      assert ((INR (since_phase (length (l_phases l)) q (l_phase l)) + 1) * K5 <= INR (length (l_phases l)) * K5) by (apply Rmult_le_compat_r; assumption). lra.
    - assert (q < length (l_phases l))%nat as Hq by (apply nth_error_Some; congruence). inversion F; subst. destruct (nth_error (l_phases l) (l_phase l)) as [p0|] eqn:E0; [|apply nth_error_None in E0; lia].
      destruct (step_goes l t dt T P M) as (l1 & H & P1 & M1). destruct (timed_step d Ka Kr Kd K0 D0 Ka0 Kr0 Kd0 K00 l dt l1 t p0 T) as (Ps & Q); auto. change (total (dt :: dts)) with (dt + total dts) in Tb.
      destruct Q as [(Qc & Qp & T1)|(Qc & Qp & T1)].
      + destruct (IH l1 (t + dt) (U + dt)) as (d1 & d2 & l' & E & Q1 & Q2 & Q3); [exact T1|exact P1|lia|congruence|assumption|rewrite Ps, Qp; lra|rewrite Ps; lra|]. exists (dt :: d1), d2, l'. subst dts. cbn [steps_of app]. rewrite H. auto.
      + destruct (Nat.eq_dec (l_phase l) q) as [<-|Nq]; [exists [], (dt :: dts), l; assert (p0 = p) by congruence; subst p0; auto|].
        destruct (IH l1 dt (U + dt)) as (d1 & d2 & l' & E & Q1 & Q2 & Q3); [exact T1|exact P1|lia|congruence|assumption| |rewrite Ps; lra|].
        * rewrite Ps, Qp, since_next by auto. rewrite S_INR. destruct (td_low _ _ _ _ _ _ _ T) as (_ & T5). fold K5 in T5. lra.
        * exists (dt :: d1), d2, l'. subst dts. cbn [steps_of app]. rewrite H. auto.
  Qed.
End Serve.

(** There is a time [T] such that each phase is served at least once in every period of [T] seconds, whatever the
    lengths of the steps: all movements of the phase show green together, and have done so for the phase's duration. *)
Theorem C05_served_in_time :
  forall (ops : list (@lop RA)) (l : light) (d : R), lrun ops = Ok l -> (length (movements_of ops) <= 64)%nat -> exclusive_phases ops -> 0 <= d ->
    exists T, forall before dts q mask dur, Forall (fun dt => 0 <= dt <= d) before -> Forall (fun dt => 0 <= dt <= d) dts -> T <= total dts ->
      nth_error (phases_of ops) q = Some (mask, dur) ->
      exists d1 d2 l' w, dts = d1 ++ d2 /\ watch (ops ++ map (@LStep RA) (before ++ d1)) = Ok (l', w) /\ l_phase l' = q /\
        forall i, (i < length (movements_of ops))%nat -> has_bit mask i -> signal l' i = Some Green /\ exists x, nth_error w i = Some x /\ dur <= x.
Proof.
  intros ops l d H M Ex D0. destruct (timed_exists l d D0 (exclusive_of _ _ H Ex)) as (Ka & Kr & Kd & K0 & A0 & B0 & C0 & S0 & T0). set (K := K5 d Ka Kr Kd K0).
  pose proof (lrun_cfg _ _ H) as Cf. pose proof (cfg_length _ _ Cf) as Lm. exists (INR (length (l_phases l)) * K + 1). intros before dts q mask dur Fb Fd Tb Eq.
  destruct Cf as (_ & Cp). rewrite <- Cp, nth_error_map in Eq. destruct (nth_error (l_phases l) q) as [p|] eqn:Ep; [|discriminate Eq]. cbn [option_map] in Eq. injection Eq as <- <-.
  assert (l_phase l < length (l_phases l))%nat as P0. { destruct (phase_ok_run _ _ H) as [(Q & _)|Q]; [rewrite Q in Ep; destruct q; discriminate Ep|exact Q]. }
  destruct (timed_steps d Ka Kr Kd K0 D0 A0 B0 C0 S0 before l 0 T0 P0) as (l1 & t1 & S1 & T1 & P1 & M1 & Ps1); [lia|exact Fb|].
  destruct (serve d Ka Kr Kd K0 D0 A0 B0 C0 S0 q p dts l1 t1 0 T1 P1 M1) as (d1 & d2 & l' & E & S2 & Q1 & Q2); [congruence|exact Fd| |rewrite Ps1; fold K; lra|].
  { destruct (td_low _ _ _ _ _ _ _ T1) as (T1' & T5). fold K. assert (0 <= K) by (unfold K, K5, K3, K2, K1; lra). pose proof (pos_INR (since_phase (length (l_phases l1)) q (l_phase l1))) as Q. assert (0 <= INR (since_phase (length (l_phases l1)) q (l_phase l1)) * K) by (apply Rmult_le_pos; assumption). lra. }
  assert (lrun (ops ++ map (@LStep RA) (before ++ d1)) = Ok l') as Hr. { rewrite map_app, app_assoc. eapply steps_run; [|exact S2]. eapply steps_run; [exact H|exact S1]. }
  exists d1, d2, l', (map m_since (l_movements l')). split; [exact E|]. split; [apply watch_total; exact Hr|]. split; [exact Q1|]. intros i Hi Hb.
  pose proof (cfg_length _ _ (lrun_cfg _ _ Hr)) as Lm2. rewrite movements_of_app in Lm2. assert (movements_of (map (@LStep RA) (before ++ d1)) = []) as Z by (clear; induction (before ++ d1) as [|x r IH]; [reflexivity|exact IH]). rewrite Z, app_nil_r in Lm2.
  destruct (nth_error (l_movements l') i) as [m|] eqn:Em; [|apply nth_error_None in Em; lia]. rewrite phase_complete_true in Q2. destruct (Q2 i m Em Hb) as (X1 & X2). split; [apply signal_nth; eauto|].
  exists (m_since m). rewrite nth_error_map, Em. split; [reflexivity|apply leb_R; exact X2].
Qed.
Print Assumptions C05_served_in_time.

(** The crossing of C05_example: both phases are served in every period of some length. *)
Example C05_served_in_time_example : exists T, forall dts, Forall (fun dt => 0 <= dt <= 1 / 2) dts -> T <= total dts ->
  forall i, (i < 2)%nat -> exists d1 d2 l' w, dts = d1 ++ d2 /\ watch (ex_cfg_R ++ map (@LStep RA) d1) = Ok (l', w) /\ signal l' i = Some Green.
Proof.
  destruct C05_example as ((l & H) & M & Ex & _). destruct (C05_served_in_time ex_cfg_R l (1 / 2) H M Ex) as (T & HT); [lra|]. exists T. intros dts F Tb i Hi.
  destruct i as [|[|i]]; [|destruct (HT [] dts 1%nat 2%N 3%R) as (d1 & d2 & l' & w & E & W & _ & S); auto|exfalso; lia].
  - destruct (HT [] dts 0%nat 1%N 3%R) as (d1 & d2 & l' & w & E & W & _ & S); auto. exists d1, d2, l', w. split; [exact E|]. split; [exact W|]. apply S; [cbn; lia|reflexivity].
  - exists d1, d2, l', w. split; [exact E|]. split; [exact W|]. apply S; [cbn; lia|reflexivity].
Qed.
