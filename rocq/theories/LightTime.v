(** * How long a traffic light takes, for steps of any lengths (exact arithmetic) *)
From Coq Require Import List Bool ZArith NArith Arith Lia Reals Lra.
From Verif Require Import Arith RealArith Base BaseProofs SlotMap Light SpecLight LightProofs RFacts.
Import ListNotations.
Local Open Scope R_scope.

(** No phase lets two different movements go of which one names the other. *)
Definition exclusive (l : @light RA) : Prop :=
  forall p i j m, In p (l_phases l) -> i <> j -> bit (p_mask p) i = true -> bit (p_mask p) j = true -> nth_error (l_movements l) j = Some m -> bit (m_conflict m) i = false.

Section Timed.
  Variables (d Ka Kr Kd K0 : R).
  Hypothesis D0 : 0 <= d.
  Hypothesis Ka0 : 0 <= Ka.
  Hypothesis Kr0 : 0 <= Kr.
  Hypothesis Kd0 : 0 <= Kd.
  Hypothesis K00 : 0 <= K0.
  Definition K1 : R := K0 + Ka + d.
  Definition K2 : R := K0 + K1.
  Definition K3 : R := K0 + K1 + K2 + Kr + d.
  Definition K5 : R := Kd + K3 + d.
  (** What the light was given: times and masks. *)
  Record given (l : @light RA) : Prop := {
    gv_amber : forall i m, nth_error (l_movements l) i = Some m -> m_amber m <= Ka /\ m_red m <= Kr;
    gv_dur : forall p, In p (l_phases l) -> p_duration p <= Kd;
    gv_excl : exclusive l }.
  (** A movement that the current phase stops or lets go, [t] seconds after the phase began. *)
  Definition waits (t : R) (m : @movement RA) : Prop :=
    match m_state m with Green => t <= K0 | Amber => t <= m_since m + K0 /\ m_since m <= K1 | Red => t <= m_since m + K2 end.
  Definition goes (t : R) (m : @movement RA) : Prop :=
    match m_state m with Green => t <= m_since m + K3 | Amber => t <= K3 | Red => t <= K3 /\ t <= m_since m + K2 end.
  Record timed (l : @light RA) (t : R) : Prop := {
    td_given : given l;
    td_low : 0 <= t <= K5;
    td_since : forall i m, nth_error (l_movements l) i = Some m -> - K0 <= m_since m;
    td_move : forall p i m, nth_error (l_phases l) (l_phase l) = Some p -> nth_error (l_movements l) i = Some m ->
      if bit (p_mask p) i then goes t m else waits t m }.

  Lemma given_step (l : @light RA) dt l' : given l -> light_step l dt = Ok l' -> given l'.
  Proof.
    intros [G1 G2 G3] H. pose proof (light_step_nth _ _ _ H) as (p & Hp & Hn). apply light_step_ok in H. destruct H as (p0 & p' & _ & _ & _ & _ & H4 & _).
    assert (forall i m', nth_error (l_movements l') i = Some m' -> exists m, nth_error (l_movements l) i = Some m /\ m_conflict m' = m_conflict m /\ m_amber m' = m_amber m /\ m_red m' = m_red m) as Old.
    { intros i m' E. rewrite Hn in E. destruct (nth_error (l_movements l) i) as [m|]; [|discriminate E]. cbn [option_map] in E. injection E as <-. exists m. split; [reflexivity|].
      destruct (movement_step_cfg dt (next_state (map (fun im => set_active (snd im) (bit (p_mask p) (fst im))) (enumerate (l_movements l))) i (set_active m (bit (p_mask p) i))) (set_active m (bit (p_mask p) i))) as (-> & -> & -> & _). auto. }
    constructor.
    - intros i m' E. destruct (Old i m' E) as (m & Em & _ & -> & ->). exact (G1 i m Em).
    - rewrite H4. exact G2.
    - intros q i j m' Iq Nij Bi Bj E. rewrite H4 in Iq. destruct (Old j m' E) as (m & Em & -> & _). exact (G3 q i j m Iq Nij Bi Bj Em).
  Qed.

  (** One step, movement by movement. *)
  Lemma one_step (l : @light RA) (dt : R) l' p i (m m' : @movement RA) : light_step l dt = Ok l' -> nth_error (l_phases l) (l_phase l') = Some p -> nth_error (l_movements l) i = Some m -> nth_error (l_movements l') i = Some m' ->
    (m_state m' = m_state m /\ m_since m' = m_since m + dt \/ m_state m' <> m_state m /\ m_since m' = dt) /\
    (if bit (p_mask p) i
     then match m_state m with
          | Green => m_state m' = Green
          | Amber => m_state m' = Green
          | Red => m_state m' = Green \/ m_state m' = Red /\ exists j o, nth_error (l_movements l) j = Some o /\ bit (m_conflict o) i = true /\ (m_state o <> Red \/ m_since o <= m_red o)
          end
     else match m_state m with
          | Green => m_state m' = Amber
          | Amber => m_state m' = Red \/ m_state m' = Amber /\ m_since m < m_amber m
          | Red => m_state m' = Red
          end).
  Proof.
    intros H Hp Em Em'. destruct (light_step_nth _ _ _ H) as (p' & Hp' & Hn). assert (p' = p) by congruence. subst p'. clear Hp'. rewrite Hn, Em in Em'. cbn [option_map] in Em'. injection Em' as <-.
    set (ms := map _ (enumerate (l_movements l))). set (nx := next_state ms i (set_active m (bit (p_mask p) i))). rewrite movement_step_state. split.
    - unfold movement_step. destruct (ls_eqb nx (m_state (set_active m (bit (p_mask p) i)))) eqn:E.
      + apply ls_eqb_eq in E. left. split; [exact E|reflexivity].
      + right. split; [|reflexivity]. intros Q. assert (ls_eqb nx (m_state (set_active m (bit (p_mask p) i))) = true) by (apply ls_eqb_eq; exact Q). congruence.
    - unfold nx, next_state. cbn [m_active m_state m_since m_amber set_active]. destruct (bit (p_mask p) i), (m_state m); try reflexivity; cbn -[nleb can_turn_green].
      + destruct (can_turn_green ms i) eqn:E; [left; reflexivity|right]. split; [reflexivity|].
        unfold can_turn_green in E.
        assert (exists o, In o ms /\ bit (m_conflict o) i = true /\ ls_eqb (m_state o) Red && nltb (m_red o) (m_since o) = false) as (o & Io & Bo & Eo).
        { clear -E. induction ms as [|o ms IH]; [discriminate E|]. cbn [filter] in E. destruct (bit (m_conflict o) i) eqn:B; [cbn [forallb] in E; destruct (ls_eqb (m_state o) Red && nltb (m_red o) (m_since o)) eqn:Q; [cbn [andb] in E|]|].
          - destruct (IH E) as (o' & I1 & I2). exists o'. split; [right; exact I1|exact I2].
          - exists o. split; [left; reflexivity|auto].
          - destruct (IH E) as (o' & I1 & I2). exists o'. split; [right; exact I1|exact I2]. }
        apply In_nth_error in Io. destruct Io as (j & Ej). unfold ms in Ej. rewrite active_movements_nth in Ej. destruct (nth_error (l_movements l) j) as [o0|] eqn:Eo0; [|discriminate Ej]. cbn [option_map] in Ej. injection Ej as <-.
        exists j, o0. split; [exact Eo0|]. split; [exact Bo|]. cbn [m_state m_red m_since set_active] in Eo. apply andb_false_iff in Eo. destruct Eo as [Q|Q]; [left; intros Z; rewrite Z in Q; discriminate Q|right; apply ltb_R_false; exact Q].
      + destruct (nleb (m_amber m) (m_since m)) eqn:E; [left; reflexivity|right; split; [reflexivity|apply leb_R_false; exact E]].
  Qed.

  Lemma timed_start l : given l -> (forall i m, nth_error (l_movements l) i = Some m -> Rabs (m_since m) <= K0) -> timed l 0.
  Proof.
    intros G A. assert (0 <= K1) by (unfold K1; lra). assert (0 <= K2) by (unfold K2; lra). assert (0 <= K3) by (unfold K3; lra). assert (K0 <= K2) by (unfold K2; lra). assert (K0 <= K1) by (unfold K1; lra). assert (K2 <= K3) by (unfold K3; lra).
    assert (forall i m, nth_error (l_movements l) i = Some m -> - K0 <= m_since m <= K0) as B. { intros i m E. specialize (A i m E). revert A. unfold Rabs. destruct (Rcase_abs (m_since m)); lra. }
    constructor; [exact G|unfold K5; lra|intros i m E; apply (B i m E)|]. intros p i m _ E. destruct (B i m E). unfold goes, waits. destruct (bit (p_mask p) i), (m_state m); repeat split; lra.
  Qed.

  Lemma timed_step (l : @light RA) (dt : R) l' t p0 : timed l t -> 0 <= dt <= d -> light_step l dt = Ok l' -> nth_error (l_phases l) (l_phase l) = Some p0 ->
    l_phases l' = l_phases l /\
    (phase_complete (l_movements l) p0 = false /\ l_phase l' = l_phase l /\ timed l' (t + dt) \/
     phase_complete (l_movements l) p0 = true /\ l_phase l' = ((l_phase l + 1) mod length (l_phases l))%nat /\ timed l' dt).
  Proof.
    intros [Tg (Tl & Tu) Ts Tm] Hdt H E0. pose proof (given_step _ _ _ Tg H) as Tg'.
    assert (0 <= K1) by (unfold K1; lra). assert (0 <= K2) by (unfold K2; lra). assert (0 <= K3) by (unfold K3; lra). assert (K0 <= K2) by (unfold K2; lra). assert (K0 + Ka + d <= K1) by (unfold K1; lra). assert (K2 <= K3) by (unfold K3; lra). assert (K0 + K1 <= K2) by (unfold K2; lra).
    assert (K0 + K1 + d <= K3) by (unfold K3; lra). assert (Kr + K2 + d <= K3) by (unfold K3; lra). assert (K5 = Kd + K3 + d) by reflexivity.
    pose proof (proj1 (light_step_ok _ _ _) H) as (p0' & p & E0' & _ & Hph & Ep & Hps & _ & Hms). assert (p0' = p0) by congruence. subst p0'. split; [exact Hps|].
    assert (length (l_movements l') = length (l_movements l)) as Len by (rewrite Hms, step_movements_length, map_length, enumerate_length; reflexivity).
    assert (forall i m', nth_error (l_movements l') i = Some m' -> exists m, nth_error (l_movements l) i = Some m) as Old.
    { intros i m' E. destruct (nth_error (l_movements l) i) as [m|] eqn:Q; eauto. apply nth_error_None in Q. assert (nth_error (l_movements l') i <> None) as Z by congruence. apply nth_error_Some in Z. lia. }
    assert (forall i m', nth_error (l_movements l') i = Some m' -> - K0 <= m_since m') as Ts'.
    { intros i m' E. destruct (Old i m' E) as (m & Em). specialize (Ts i m Em). destruct (one_step _ _ _ _ _ _ _ H Ep Em E) as ([(_ & ->)|(_ & ->)] & _); lra. }
    destruct (phase_complete (l_movements l) p0) eqn:Pc.
    - right. split; [reflexivity|]. split; [exact Hph|]. constructor; [exact Tg'|lra|exact Ts'|].
      intros p' i m' Ep' E. rewrite Hps in Ep'. assert (p' = p) by congruence. subst p'. destruct (Old i m' E) as (m & Em). specialize (Ts i m Em). destruct (one_step _ _ _ _ _ _ _ H Ep Em E) as (Sn & Nx).
      destruct (gv_amber _ Tg i m Em) as (Ba & Br). unfold goes, waits. destruct (bit (p_mask p) i).
      + destruct (m_state m) eqn:Sm; [destruct Nx as [Nx|(Nx & _)]|..]; rewrite Nx in *; destruct Sn as [(Q & ->)|(Q & ->)]; try congruence; repeat split; lra.
      + destruct (m_state m) eqn:Sm; [|destruct Nx as [Nx|(Nx & Am)]|]; rewrite Nx in *; destruct Sn as [(Q & ->)|(Q & ->)]; try congruence; repeat split; lra.
    - left. split; [reflexivity|]. split; [exact Hph|]. rewrite Hph in Ep. assert (p = p0) by congruence. subst p.
      assert (t <= Kd + K3) as Tn.
      { unfold phase_complete in Pc. assert (exists im, In im (enumerate (l_movements l)) /\ bit (p_mask p0) (fst im) = true /\ ls_eqb (m_state (snd im)) Green && nleb (p_duration p0) (m_since (snd im)) = false) as ((i & m) & Ii & Bi & Ei).
        { clear -Pc. induction (enumerate (l_movements l)) as [|o ms IH]; [discriminate Pc|]. cbn [filter] in Pc. destruct (bit (p_mask p0) (fst o)) eqn:B; [cbn [forallb] in Pc; destruct (ls_eqb (m_state (snd o)) Green && nleb (p_duration p0) (m_since (snd o))) eqn:Q; [cbn [andb] in Pc|]|].
          - destruct (IH Pc) as (o' & I1 & I2). exists o'. split; [right; exact I1|exact I2].
          - exists o. split; [left; reflexivity|auto].
          - destruct (IH Pc) as (o' & I1 & I2). exists o'. split; [right; exact I1|exact I2]. }
        cbn [fst snd] in *. apply in_enumerate in Ii. specialize (Tm p0 i m E0 Ii). rewrite Bi in Tm. unfold goes in Tm. apply andb_false_iff in Ei.
        assert (p_duration p0 <= Kd) as Bd by (apply (gv_dur _ Tg); eapply nth_error_In; eauto).
        destruct (m_state m); try lra. destruct Ei as [Q|Q]; [discriminate Q|]. apply leb_R_false in Q. lra. }
      constructor; [exact Tg'|lra|exact Ts'|].
      intros p' i m' Ep' E. rewrite Hps, Hph in Ep'. assert (p' = p0) by congruence. subst p'. destruct (Old i m' E) as (m & Em). pose proof (Ts i m Em) as Tsi. rewrite <- Hph in Ep. destruct (one_step _ _ _ _ _ _ _ H Ep Em E) as (Sn & Nx).
      destruct (gv_amber _ Tg i m Em) as (Ba & Br). pose proof (Tm p0 i m E0 Em) as Tmi. unfold goes, waits in Tmi |- *. destruct (bit (p_mask p0) i) eqn:Bi.
      + destruct (m_state m) eqn:Sm.
        * destruct Nx as [Nx|(Nx & j & o & Ej & Cj & So)]; rewrite Nx in *; destruct Sn as [(Q & Qs)|(Q & Qs)]; try congruence; rewrite Qs; [lra|]. split; [|lra].
          assert (t <= K3 - d); [|lra]. pose proof (Tm p0 j o E0 Ej) as Tj. pose proof (Ts j o Ej) as Tsj. destruct (gv_amber _ Tg j o Ej) as (_ & Brj).
          destruct (Nat.eq_dec i j) as [<-|Nij]. { assert (o = m) by congruence. subst o. rewrite Sm in So. destruct So as [So|So]; [congruence|]. destruct Tmi. lra. }
          destruct (bit (p_mask p0) j) eqn:Bj. { exfalso. assert (bit (m_conflict o) i = false) by (apply (gv_excl _ Tg p0 i j o); auto; eapply nth_error_In; eauto). congruence. }
          unfold waits in Tj. destruct (m_state o); [destruct So as [So|So]; [congruence|]|..]; lra.
        * rewrite Nx in *. destruct Sn as [(Q & Qs)|(Q & Qs)]; try congruence. rewrite Qs. lra.
        * rewrite Nx in *. destruct Sn as [(Q & Qs)|(Q & Qs)]; try congruence. rewrite Qs. lra.
      + destruct (m_state m) eqn:Sm; [|destruct Nx as [Nx|(Nx & Am)]|]; rewrite Nx in *; destruct Sn as [(Q & Qs)|(Q & Qs)]; try congruence; rewrite Qs; repeat split; lra.
  Qed.
End Timed.

(** Bounds exist for every light. *)
Lemma bound_list {X} (f : X -> R) (l : list X) : exists B, 0 <= B /\ forall x, In x l -> f x <= B.
Proof. induction l as [|x l (B & B0 & H)]; [exists 0; split; [lra|intros x []]|]. exists (Rmax B (f x)). split; [eapply Rle_trans; [exact B0|apply Rmax_l]|]. intros y [<-|Hy]; [apply Rmax_r|eapply Rle_trans; [exact (H y Hy)|apply Rmax_l]]. Qed.
Lemma timed_exists (l : @light RA) d : 0 <= d -> exclusive l -> exists Ka Kr Kd K0, 0 <= Ka /\ 0 <= Kr /\ 0 <= Kd /\ 0 <= K0 /\ timed d Ka Kr Kd K0 l 0.
Proof.
  intros D Ex. destruct (bound_list (fun m : @movement RA => m_amber m) (l_movements l)) as (Ka & A0 & A1). destruct (bound_list (fun m : @movement RA => m_red m) (l_movements l)) as (Kr & B0 & B1).
  destruct (bound_list (fun p : @phase RA => p_duration p) (l_phases l)) as (Kd & C0 & C1). destruct (bound_list (fun m : @movement RA => Rabs (m_since m)) (l_movements l)) as (K0 & S0 & S1).
  exists Ka, Kr, Kd, K0. do 4 (split; [assumption|]). apply timed_start; auto.
  - constructor; [|exact C1|exact Ex]. intros i m E. apply nth_error_In in E. split; [exact (A1 m E)|exact (B1 m E)].
  - intros i m E. apply nth_error_In in E. exact (S1 m E).
Qed.

(** How many phases have begun since phase [q] ended, at least. *)
Definition since_phase (n q p : nat) : nat := (if q <? p then p - q - 1 else p + n - q - 1)%nat.
Lemma since_next n q p : (p < n -> q < n -> p <> q -> since_phase n q ((p + 1) mod n) = S (since_phase n q p))%nat.
Proof.
  intros P Q N. destruct (Nat.eq_dec (p + 1) n) as [E|E]; [rewrite E, Nat.mod_same by lia|rewrite Nat.mod_small by lia]; unfold since_phase.
  - destruct (Nat.ltb_spec q 0), (Nat.ltb_spec q p); lia.
  - destruct (Nat.ltb_spec q (p + 1)), (Nat.ltb_spec q p); lia.
Qed.
Lemma since_zero n q : (q < n -> since_phase n q ((q + 1) mod n) = 0)%nat.
Proof.
  intros Q. destruct (Nat.eq_dec (q + 1) n) as [E|E]; [rewrite E, Nat.mod_same by lia|rewrite Nat.mod_small by lia]; unfold since_phase; [destruct (Nat.ltb_spec q 0)|destruct (Nat.ltb_spec q (q + 1))]; lia.
Qed.
Lemma since_less n q p : (p < n -> q < n -> S (since_phase n q p) <= n)%nat.
Proof. intros P Q. unfold since_phase. destruct (Nat.ltb_spec q p); lia. Qed.
