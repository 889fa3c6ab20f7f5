(** * Proofs about traffic lights *)
From Coq Require Import List Arith ZArith NArith Bool Lia.
From Verif Require Import Arith Base BaseProofs SlotMap Light SpecLight.
Import ListNotations.

Lemma ls_eqb_eq a b : ls_eqb a b = true <-> a = b.
Proof. destruct a, b; simpl; split; congruence. Qed.

Section LightProofs.
  Context {A : Arith}.
  Implicit Types (l : light) (ops : list lop).

  (** ** The configuration of a light is what was passed to the API. *)
  Definition cfg l (ops : list lop) : Prop :=
    map (fun m => (m_conflict m, m_amber m, m_red m)) (l_movements l) = movements_of ops /\
    map (fun p => (p_mask p, p_duration p)) (l_phases l) = phases_of ops.

  Lemma step_movements_length dt ms : length (step_movements dt ms) = length ms.
  Proof. unfold step_movements. rewrite map_length, enumerate_length. auto. Qed.

  Lemma nth_step_movements dt ms i :
    nth_error (step_movements dt ms) i =
    option_map (fun m => movement_step dt (next_state ms i m) m) (nth_error ms i).
  Proof.
    unfold step_movements. rewrite nth_error_map, nth_error_enumerate.
    destruct (nth_error ms i); auto.
  Qed.

  (** The light after [update_phase] and [apply_phase]. *)
  Definition applied l (p : phase) (i : nat) (m : movement) : movement := set_active m (bit (p_mask p) i).

  (** All that one step does. *)
  Lemma light_step_ok l dt l' :
    light_step l dt = Ok l' <->
    exists p0 p,
      nth_error (l_phases l) (l_phase l) = Some p0 /\
      length (l_movements l) <= 64 /\
      l_phase l' = (if phase_complete (l_movements l) p0
                    then (l_phase l + 1) mod length (l_phases l) else l_phase l) /\
      nth_error (l_phases l) (l_phase l') = Some p /\
      l_phases l' = l_phases l /\ l_mlinks l' = l_mlinks l /\
      l_movements l' =
        step_movements dt (map (fun im => set_active (snd im) (bit (p_mask p) (fst im))) (enumerate (l_movements l))).
  Proof.
    unfold light_step, update_phase, apply_phase.
    destruct (l_phases l) as [|ph phs] eqn:E.
    { split; [discriminate|]. intros (p0 & p & H & _). destruct (l_phase l); discriminate. }
    rewrite <- E.
    destruct (Nat.ltb_spec 64 (length (l_movements l))).
    { split; [discriminate|]. intros (p0 & p & _ & H1 & _). lia. }
    split.
    - intros Hs. inv_bind. exists x2, x1. destruct (phase_complete (l_movements l) x2) eqn:Ec; inv_bind; simpl in *; auto 10.
    - intros (p0 & p & H0 & _ & H1 & H2 & H3 & H4 & H5). rewrite H0. simpl.
      destruct (phase_complete (l_movements l) p0) eqn:Ec; simpl.
      + rewrite <- H1. rewrite H2; simpl. destruct l'; simpl in *; subst. auto.
      + rewrite <- H1. rewrite H2; simpl. destruct l'; simpl in *; subst. auto.
  Qed.

  Lemma active_movements_nth ms p i :
    nth_error (map (fun im => set_active (snd im) (bit (p_mask p) (fst im))) (enumerate ms)) i =
    option_map (fun m => set_active m (bit (p_mask p) i)) (nth_error ms i).
  Proof. rewrite nth_error_map, nth_error_enumerate. destruct (nth_error ms i); auto. Qed.

  (** What a step does to movement [i]. *)
  Lemma light_step_nth l dt l' :
    light_step l dt = Ok l' ->
    exists p, nth_error (l_phases l) (l_phase l') = Some p /\
    forall i,
      nth_error (l_movements l') i =
      option_map (fun m =>
        movement_step dt
          (next_state (map (fun im => set_active (snd im) (bit (p_mask p) (fst im))) (enumerate (l_movements l))) i
                      (set_active m (bit (p_mask p) i)))
          (set_active m (bit (p_mask p) i))) (nth_error (l_movements l) i).
  Proof.
    intros H. apply light_step_ok in H. destruct H as (p0 & p & H0 & H1 & H2 & H3 & H4 & H5 & H6).
    exists p. split; auto. intros i. rewrite H6, nth_step_movements, active_movements_nth.
    destruct (nth_error (l_movements l) i); auto.
  Qed.

  Lemma movement_step_cfg dt s m :
    m_conflict (movement_step dt s m) = m_conflict m /\ m_amber (movement_step dt s m) = m_amber m /\
    m_red (movement_step dt s m) = m_red m /\ m_active (movement_step dt s m) = m_active m.
  Proof. unfold movement_step. destruct (ls_eqb s (m_state m)); auto. Qed.

  Lemma movement_step_state dt s m : m_state (movement_step dt s m) = s.
  Proof.
    unfold movement_step. destruct (ls_eqb s (m_state m)) eqn:E; auto. apply ls_eqb_eq in E. auto.
  Qed.

  Lemma list_ext {X} (a b : list X) : (forall i, nth_error a i = nth_error b i) -> a = b.
  Proof.
    revert b; induction a as [|x a IH]; intros [|y b] H; auto.
    - specialize (H 0); discriminate.
    - specialize (H 0); discriminate.
    - f_equal. { specialize (H 0). simpl in H. congruence. } apply IH. intros i. apply (H (S i)).
  Qed.

  Lemma cfg_step l dt l' ops : light_step l dt = Ok l' -> cfg l ops -> cfg l' ops.
  Proof.
    intros H (H1 & H2). pose proof (light_step_nth _ _ _ H) as (p & Hp & Hn).
    apply light_step_ok in H. destruct H as (p0 & p' & _ & _ & _ & _ & H4 & _).
    split; [|rewrite H4; auto]. rewrite <- H1. apply list_ext. intros i.
    rewrite !nth_error_map, Hn. destruct (nth_error (l_movements l) i); simpl; auto.
    destruct (movement_step_cfg dt (next_state (map (fun im => set_active (snd im) (bit (p_mask p) (fst im)))
      (enumerate (l_movements l))) i (set_active m (bit (p_mask p) i))) (set_active m (bit (p_mask p) i))) as (-> & -> & -> & _).
    auto.
  Qed.

  Lemma movements_of_app a b : movements_of (a ++ b) = movements_of a ++ movements_of b.
  Proof. apply flat_map_app. Qed.
  Lemma phases_of_app a b : phases_of (a ++ b) = phases_of a ++ phases_of b.
  Proof. apply flat_map_app. Qed.

  Lemma lrun_snoc ops o : lrun (ops ++ [o]) = bind (lrun ops) (fun l => lexec l o).
  Proof.
    unfold lrun. rewrite foldM_app. destruct (foldM lexec ops light_new); simpl; auto.
    destruct (lexec x o); auto.
  Qed.

  (** Induction over histories. *)
  Lemma lrun_ind (P : list lop -> light -> Prop) :
    P [] light_new ->
    (forall ops l o l', lrun ops = Ok l -> P ops l -> lexec l o = Ok l' -> P (ops ++ [o]) l') ->
    forall ops l, lrun ops = Ok l -> P ops l.
  Proof.
    intros H0 Hs ops. induction ops as [|o ops IH] using rev_ind; intros l H.
    - inversion H; subst; auto.
    - rewrite lrun_snoc in H. inv_bind. eapply Hs; eauto.
  Qed.

  Lemma lrun_cfg ops l : lrun ops = Ok l -> cfg l ops.
  Proof.
    revert ops l. apply lrun_ind.
    - split; auto.
    - intros ops l o l' _ (H1 & H2) He. unfold cfg. rewrite movements_of_app, phases_of_app. simpl.
      destruct o; simpl in *.
      + inv_bind. simpl. rewrite map_app, H1, app_nil_r. auto.
      + inv_bind. simpl. rewrite map_app, H2, app_nil_r. auto.
      + rewrite !app_nil_r. eapply (cfg_step l dt); eauto. split; auto.
  Qed.

  Lemma cfg_movement l ops i m : cfg l ops -> nth_error (l_movements l) i = Some m ->
    nth_error (movements_of ops) i = Some (m_conflict m, m_amber m, m_red m).
  Proof. intros (H & _) Hm. rewrite <- H, nth_error_map, Hm. auto. Qed.

  Lemma cfg_names l ops i j m : cfg l ops -> nth_error (l_movements l) i = Some m ->
    (names ops i j <-> bit (m_conflict m) j = true).
  Proof.
    intros C Hm. unfold names, has_bit, bit. rewrite (cfg_movement _ _ _ _ C Hm). split.
    - intros (c & a & r & H & B). inversion H; subst. auto.
    - intros H. eauto 6.
  Qed.

  Lemma cfg_phase l ops i p : cfg l ops -> nth_error (l_phases l) i = Some p ->
    In (p_mask p, p_duration p) (phases_of ops).
  Proof.
    intros (_ & H) Hp. rewrite <- H. apply in_map_iff. exists p. split; auto. eapply nth_error_In; eauto.
  Qed.

  Lemma signal_nth l i s : signal l i = Some s <-> exists m, nth_error (l_movements l) i = Some m /\ m_state m = s.
  Proof.
    unfold signal, light_states. rewrite nth_error_map. destruct (nth_error (l_movements l) i); simpl; split.
    - intros H; inversion H; eauto.
    - intros (m' & H & <-); inversion H; auto.
    - discriminate.
    - intros (m' & H & _); discriminate.
  Qed.

  (** [next_state], case by case *)
  Lemma next_state_cases ms i m :
    let s := next_state ms i m in
    (m_state m = Red -> s = Red \/ (s = Green /\ m_active m = true /\ can_turn_green ms i = true)) /\
    (m_state m = Green -> (s = Green /\ m_active m = true) \/ (s = Amber /\ m_active m = false)) /\
    (m_state m = Amber -> (s = Green /\ m_active m = true) \/
                          (s = Red /\ m_active m = false /\ nleb (m_amber m) (m_since m) = true) \/
                          (s = Amber /\ m_active m = false)).
  Proof.
    unfold next_state. destruct (m_active m), (m_state m); simpl; repeat split; intros; try discriminate; auto.
    - destruct (can_turn_green ms i); auto.
    - destruct (nleb (m_amber m) (m_since m)); auto.
  Qed.

  Lemma can_turn_green_true ms i : can_turn_green ms i = true <->
    forall j o, nth_error ms j = Some o -> bit (m_conflict o) i = true ->
                m_state o = Red /\ nltb (m_red o) (m_since o) = true.
  Proof.
    unfold can_turn_green. rewrite forallb_forall. split.
    - intros H j o Ho Hb. specialize (H o). rewrite filter_In, andb_true_iff, ls_eqb_eq in H.
      apply H. split; auto. eapply nth_error_In; eauto.
    - intros H o Ho. apply filter_In in Ho. destruct Ho as (Ho & Hb). apply In_nth_error in Ho. destruct Ho as (j & Ho).
      rewrite andb_true_iff, ls_eqb_eq. eauto.
  Qed.

  (** The states of movement [i] before and after a step. *)
  Lemma step_signal l dt l' i s' :
    light_step l dt = Ok l' -> signal l' i = Some s' ->
    exists p m, nth_error (l_phases l) (l_phase l') = Some p /\
      nth_error (l_movements l) i = Some m /\
      s' = next_state (map (fun im => set_active (snd im) (bit (p_mask p) (fst im))) (enumerate (l_movements l))) i
                      (set_active m (bit (p_mask p) i)).
  Proof.
    intros H Hs. destruct (light_step_nth _ _ _ H) as (p & Hp & Hn).
    apply signal_nth in Hs. destruct Hs as (m' & Hm & <-). rewrite Hn in Hm.
    destruct (nth_error (l_movements l) i) as [m|] eqn:E; simpl in Hm; inversion Hm; subst.
    exists p, m. rewrite movement_step_state. auto.
  Qed.

  (** ** C01 *)
  Definition excl l ops : Prop :=
    forall i j, i <> j -> names ops i j -> lit_up (signal l i) -> lit_up (signal l j) -> False.

  Lemma names_snoc ops o i j : names ops i j -> names (ops ++ [o]) i j.
  Proof.
    intros (c & a & r & H & B). exists c, a, r. split; auto. rewrite movements_of_app.
    rewrite nth_error_app1; auto. apply nth_error_Some. congruence.
  Qed.

  Lemma symmetric_snoc ops o : symmetric_conflicts (ops ++ [o]) -> symmetric_conflicts ops.
  Proof.
    intros H i j Hi Hj Hn. assert (names (ops ++ [o]) j i) as (c & a & r & H1 & H2).
    { apply H; [rewrite movements_of_app, app_length; lia..|apply names_snoc; auto]. }
    rewrite movements_of_app, nth_error_app1 in H1 by lia. exists c, a, r. auto.
  Qed.

  Lemma exclusive_snoc ops o : exclusive_phases (ops ++ [o]) -> exclusive_phases ops.
  Proof.
    intros H m d i j Hin Hne H1 H2 Hn. eapply (H m d i j); eauto.
    - rewrite phases_of_app, in_app_iff. auto.
    - apply names_snoc; auto.
  Qed.

  Lemma signal_length l i s : signal l i = Some s -> i < length (l_movements l).
  Proof. rewrite signal_nth. intros (m & H & _). apply nth_error_Some. congruence. Qed.

  Lemma lit_up_some o : lit_up o -> exists s, o = Some s /\ (s = Green \/ s = Amber).
  Proof. intros [-> | ->]; eauto. Qed.

  Lemma cfg_length l ops : cfg l ops -> length (movements_of ops) = length (l_movements l).
  Proof. intros (<- & _). apply map_length. Qed.

  Lemma excl_step l dt l' ops :
    light_step l dt = Ok l' -> cfg l ops -> symmetric_conflicts ops -> exclusive_phases ops ->
    excl l ops -> excl l' ops.
  Proof.
    intros H C S E X i j Hne Hn Li Lj.
    apply lit_up_some in Li. destruct Li as (si & Hi & Li).
    apply lit_up_some in Lj. destruct Lj as (sj & Hj & Lj).
    destruct (step_signal _ _ _ _ _ H Hi) as (p & mi & Hp & Hmi & Ei).
    destruct (step_signal _ _ _ _ _ H Hj) as (p' & mj & Hp' & Hmj & Ej).
    rewrite Hp in Hp'. inversion Hp'; subst p'. clear Hp'.
    set (ms := map _ _) in Ei, Ej.
    assert (names ops j i) as Hn'.
    { apply S; auto; rewrite (cfg_length _ _ C); apply nth_error_Some; congruence. }
    (* a movement that was red is active and all movements naming it are red *)
    assert (forall a b ma mb sa, nth_error (l_movements l) a = Some ma -> nth_error (l_movements l) b = Some mb ->
              names ops b a ->
              sa = next_state ms a (set_active ma (bit (p_mask p) a)) -> (sa = Green \/ sa = Amber) ->
              m_state ma = Red -> bit (p_mask p) a = true /\ m_state mb = Red) as K.
    { intros a b ma mb sa Ha Hb Hnm Es Hl Hr.
      destruct (next_state_cases ms a (set_active ma (bit (p_mask p) a))) as (K & _ & _).
      simpl in K. rewrite <- Es in K. destruct (K Hr) as [K1|(K1 & K2 & K3)].
      - subst sa. rewrite K1 in Hl. destruct Hl; discriminate.
      - split; auto. rewrite can_turn_green_true in K3.
        destruct (K3 b (set_active mb (bit (p_mask p) b))) as (K4 & _); auto.
        + unfold ms. rewrite active_movements_nth, Hb. auto.
        + simpl. apply (cfg_names l ops b a mb); auto. }
    assert (m_state mi <> Red \/ m_state mj <> Red -> False) as K2.
    { intros K2. assert (m_state mi = Red \/ m_state mj = Red) as D.
      { destruct (m_state mi) eqn:E1; auto; destruct (m_state mj) eqn:E2; auto; exfalso; apply (X i j Hne Hn);
          unfold lit_up; rewrite !signal_nth; eauto. }
      destruct D as [D|D].
      - destruct (K i j mi mj si) as (_ & D'); auto. destruct K2; congruence.
      - destruct (K j i mj mi sj) as (_ & D'); auto. destruct K2; congruence. }
    assert (m_state mi = Red) as Ri by (destruct (m_state mi) eqn:E1; auto; exfalso; apply K2; left; discriminate).
    assert (m_state mj = Red) as Rj by (destruct (m_state mj) eqn:E1; auto; exfalso; apply K2; right; discriminate).
    destruct (K i j mi mj si) as (Ai & _); auto.
    destruct (K j i mj mi sj) as (Aj & _); auto.
    eapply (E (p_mask p) (p_duration p) i j); eauto. eapply cfg_phase; eauto.
  Qed.

  Lemma excl_run ops l :
    lrun ops = Ok l -> symmetric_conflicts ops -> exclusive_phases ops -> excl l ops.
  Proof.
    revert ops l. apply (lrun_ind (fun ops l => symmetric_conflicts ops -> exclusive_phases ops -> excl l ops)).
    - intros _ _ i j _ _ [H|H]; unfold signal in H; simpl in H; destruct i; discriminate.
    - intros ops l o l' Hr IH He S E.
      specialize (IH (symmetric_snoc _ _ S) (exclusive_snoc _ _ E)).
      destruct o; simpl in He.
      + inv_bind. intros i j Hne Hn Li Lj.
        assert (forall k, lit_up (signal (add_movement l conflict amber_time red_time links) k) -> lit_up (signal l k) /\ k < length (l_movements l)) as K.
        { intros k Hk. apply lit_up_some in Hk. destruct Hk as (s & Hk & Hs).
          unfold signal, light_states in Hk. simpl in Hk. rewrite map_app in Hk.
          destruct (Nat.lt_ge_cases k (length (l_movements l))).
          - rewrite nth_error_app1 in Hk by (rewrite map_length; lia). split; auto.
            destruct Hs; subst; [left|right]; auto.
          - rewrite nth_error_app2 in Hk by (rewrite map_length; lia).
            destruct (k - length (map m_state (l_movements l))) as [|[|]]; simpl in Hk; inversion Hk; subst; destruct Hs; discriminate. }
        destruct (K i Li) as (Li' & Hi), (K j Lj) as (Lj' & Hj). apply (IH i j); auto.
        destruct Hn as (c & a & r & H1 & H2). exists c, a, r. split; auto.
        rewrite movements_of_app, nth_error_app1 in H1; auto. rewrite (cfg_length _ _ (lrun_cfg _ _ Hr)). auto.
      + inv_bind. intros i j Hne Hn Li Lj. apply (IH i j); auto.
        destruct Hn as (c & a & r & H1 & H2). exists c, a, r. split; auto.
        rewrite movements_of_app, nth_error_app1 in H1; auto.
        simpl in H1. rewrite app_nil_r in H1. apply nth_error_Some. congruence.
      + assert (cfg l (ops ++ [LStep dt])) as C.
        { pose proof (lrun_cfg _ _ Hr) as C. unfold cfg in *. rewrite movements_of_app, phases_of_app. simpl. rewrite !app_nil_r. auto. }
        eapply excl_step; eauto.
        intros i j Hne Hn. apply IH; auto.
        destruct Hn as (c & a & r & H1 & H2). exists c, a, r. split; auto.
        rewrite movements_of_app in H1. simpl in H1. rewrite app_nil_r in H1. auto.
  Qed.

  (** ** C02 *)
  Lemma step_transition l dt l' i s :
    light_step l dt = Ok l' -> signal l i = Some s ->
    exists s', signal l' i = Some s' /\
      (s' = s \/ (s = Red /\ s' = Green) \/ (s = Green /\ s' = Amber) \/ (s = Amber /\ s' = Red) \/ (s = Amber /\ s' = Green)).
  Proof.
    intros H Hs. destruct (light_step_nth _ _ _ H) as (p & Hp & Hn).
    apply signal_nth in Hs. destruct Hs as (m & Hm & Es).
    specialize (Hn i). rewrite Hm in Hn. simpl in Hn.
    set (ms := map _ _) in Hn. set (mm := set_active m (bit (p_mask p) i)) in Hn.
    exists (next_state ms i mm). split.
    { apply signal_nth. eexists; split; eauto. apply movement_step_state. }
    destruct (next_state_cases ms i mm) as (K1 & K2 & K3). simpl in K1, K2, K3. rewrite Es in *.
    destruct s.
    - destruct (K1 eq_refl) as [|(? & _)]; auto.
    - destruct (K3 eq_refl) as [(? & _)|[(? & _)|(? & _)]]; auto 10.
    - destruct (K2 eq_refl) as [(? & _)|(? & _)]; auto.
  Qed.

  (** ** C03: the stopwatch shows [m_since]. *)
  Lemma watch_snoc ops o : watch (ops ++ [o]) = bind (watch ops) (fun st => watch_step st o).
  Proof.
    unfold watch. rewrite foldM_app. destruct (foldM watch_step ops (light_new, [])) as [x| |]; simpl; auto.
    destruct (watch_step x o); auto.
  Qed.

  Lemma tick_since dt ms1 ms2 :
    Forall2 (fun m m' => m_since m' = if ls_eqb (m_state m') (m_state m) then nadd (m_since m) dt else dt) ms1 ms2 ->
    tick dt (map m_state ms1) (map m_state ms2) (map m_since ms1) = map m_since ms2.
  Proof. induction 1; simpl; auto. rewrite IHForall2, H. auto. Qed.

  Lemma Forall2_nth_intro {X Y} (R : X -> Y -> Prop) a b :
    length a = length b -> (forall i x y, nth_error a i = Some x -> nth_error b i = Some y -> R x y) -> Forall2 R a b.
  Proof.
    revert b; induction a as [|x a IH]; intros [|y b] L H; simpl in *; try discriminate; constructor.
    - apply (H 0); auto.
    - apply IH; auto. intros i. apply (H (S i)).
  Qed.

  Lemma step_since l dt l' : light_step l dt = Ok l' ->
    Forall2 (fun m m' => m_since m' = if ls_eqb (m_state m') (m_state m) then nadd (m_since m) dt else dt)
            (l_movements l) (l_movements l').
  Proof.
    intros H. destruct (light_step_nth _ _ _ H) as (p & Hp & Hn). apply Forall2_nth_intro.
    - apply light_step_ok in H. destruct H as (p0 & p' & _ & _ & _ & _ & _ & _ & H6).
      rewrite H6, step_movements_length, map_length, enumerate_length. auto.
    - intros i m m' Hm Hm'. rewrite Hn, Hm in Hm'. simpl in Hm'. inversion Hm'; subst.
      rewrite movement_step_state. unfold movement_step. simpl. destruct (ls_eqb _ (m_state m)); auto.
  Qed.

  Lemma watch_since ops l w : watch ops = Ok (l, w) -> lrun ops = Ok l /\ w = map m_since (l_movements l).
  Proof.
    revert l w. induction ops as [|o ops IH] using rev_ind; intros l w H.
    - inversion H; subst; auto.
    - rewrite watch_snoc in H. inv_bind. destruct x as [l0 w0]. destruct (IH _ _ Hx) as (H1 & ->).
      rewrite lrun_snoc, H1. simpl. unfold watch_step in H. simpl in H. inv_bind. split; auto.
      destruct o; simpl in *; inv_bind; simpl.
      + rewrite map_app. auto.
      + auto.
      + apply tick_since. apply step_since; auto.
  Qed.

  Lemma watch_total ops l : lrun ops = Ok l -> watch ops = Ok (l, map m_since (l_movements l)).
  Proof.
    intros H. destruct (watch ops) as [[l' w]| |] eqn:E.
    - apply watch_since in E. destruct E as (E & ->). congruence.
    - exfalso. revert l p H E. induction ops as [|o ops IH] using rev_ind; intros l p H E; [discriminate|].
      rewrite lrun_snoc in H. rewrite watch_snoc in E. inv_bind.
      apply bind_panic in E. destruct E as [E|([l1 w1] & E1 & E)]; eauto.
      apply watch_since in E1. destruct E1 as (E1 & _). assert (l1 = x) by congruence. subst.
      unfold watch_step in E. simpl in E. rewrite H in E. discriminate.
    - exfalso. revert l H E. induction ops as [|o ops IH] using rev_ind; intros l H E; [discriminate|].
      rewrite lrun_snoc in H. rewrite watch_snoc in E. inv_bind.
      apply bind_fuel in E. destruct E as [E|([l1 w1] & E1 & E)]; eauto.
      apply watch_since in E1. destruct E1 as (E1 & _). assert (l1 = x) by congruence. subst.
      unfold watch_step in E. simpl in E. rewrite H in E. discriminate.
  Qed.

  Lemma amber_min ops l w dt l' i c a r x :
    watch ops = Ok (l, w) -> light_step l dt = Ok l' ->
    nth_error (movements_of ops) i = Some (c, a, r) -> nth_error w i = Some x ->
    signal l i = Some Amber -> signal l' i = Some Red -> nleb a x = true.
  Proof.
    intros Hw H Hi Hx Ha Hr. apply watch_since in Hw. destruct Hw as (Hl & ->).
    destruct (step_signal _ _ _ _ _ H Hr) as (p & m & Hp & Hm & Es).
    apply signal_nth in Ha. destruct Ha as (m' & Hm' & Es'). rewrite Hm in Hm'. inversion Hm'; subst m'.
    rewrite (cfg_movement _ _ _ _ (lrun_cfg _ _ Hl) Hm) in Hi. inversion Hi; subst.
    rewrite nth_error_map, Hm in Hx. simpl in Hx. inversion Hx; subst.
    set (ms := map _ _) in Es.
    destruct (next_state_cases ms i (set_active m (bit (p_mask p) i))) as (_ & _ & K). simpl in K.
    destruct (K Es') as [(K1 & _)|[(K1 & _ & K2)|(K1 & _)]]; auto; congruence.
  Qed.

  Lemma clearance_min ops l w dt l' i j c a r x :
    watch ops = Ok (l, w) -> light_step l dt = Ok l' ->
    signal l i = Some Red -> signal l' i = Some Green ->
    nth_error (movements_of ops) j = Some (c, a, r) -> has_bit c i -> nth_error w j = Some x ->
    signal l j = Some Red /\ nltb r x = true.
  Proof.
    intros Hw H Hi Hi' Hj Hb Hx. apply watch_since in Hw. destruct Hw as (Hl & ->).
    destruct (step_signal _ _ _ _ _ H Hi') as (p & m & Hp & Hm & Es).
    apply signal_nth in Hi. destruct Hi as (m' & Hm' & Es'). rewrite Hm in Hm'. inversion Hm'; subst m'.
    rewrite nth_error_map in Hx. destruct (nth_error (l_movements l) j) as [mj|] eqn:Hmj; inversion Hx; subst.
    rewrite (cfg_movement _ _ _ _ (lrun_cfg _ _ Hl) Hmj) in Hj. inversion Hj; subst.
    set (ms := map _ _) in Es.
    destruct (next_state_cases ms i (set_active m (bit (p_mask p) i))) as (K & _ & _). simpl in K.
    destruct (K Es') as [K1|(K1 & _ & K2)]; [congruence|].
    rewrite can_turn_green_true in K2.
    destruct (K2 j (set_active mj (bit (p_mask p) j))) as (K3 & K4).
    - unfold ms. rewrite active_movements_nth, Hmj. auto.
    - simpl. auto.
    - simpl in *. split; auto. apply signal_nth. eauto.
  Qed.

  (** ** C04 *)
  Definition phase_ok l : Prop := l_phases l = [] /\ l_phase l = 0 \/ l_phase l < length (l_phases l).

  Lemma phase_ok_run ops l : lrun ops = Ok l -> phase_ok l.
  Proof.
    revert ops l. apply (lrun_ind (fun _ l => phase_ok l)).
    - left. auto.
    - intros ops l o l' _ IH He. destruct o; simpl in He.
      + inv_bind. exact IH.
      + inv_bind. right. simpl. rewrite app_length. simpl. destruct IH as [(_ & ->)|]; lia.
      + apply light_step_ok in He. destruct He as (p0 & p & H0 & _ & H2 & H3 & H4 & _). right.
        rewrite H4. apply nth_error_Some. congruence.
  Qed.

  Lemma light_step_total l dt :
    phase_ok l -> l_phases l <> [] -> length (l_movements l) <= 64 -> exists l', light_step l dt = Ok l'.
  Proof.
    intros [(H & _)|Hp] Hne Hm; [contradiction|].
    destruct (nth_error (l_phases l) (l_phase l)) as [p0|] eqn:E0.
    2: { apply nth_error_None in E0. lia. }
    set (ph := if phase_complete (l_movements l) p0 then (l_phase l + 1) mod length (l_phases l) else l_phase l).
    assert (ph < length (l_phases l)) as Hph.
    { unfold ph. destruct (phase_complete _ _); auto. apply Nat.mod_upper_bound. lia. }
    destruct (nth_error (l_phases l) ph) as [p|] eqn:E1.
    2: { apply nth_error_None in E1. lia. }
    eexists (Light (step_movements dt _) (l_mlinks l) (l_phases l) ph).
    apply light_step_ok. exists p0, p. repeat split; eauto.
  Qed.

  Lemma light_step_cases l dt :
    (l_phases l = [] -> light_step l dt = Panic PNoPhase) /\
    (l_phases l <> [] -> 64 < length (l_movements l) -> light_step l dt = Panic PShift).
  Proof.
    unfold light_step. split.
    - intros ->. auto.
    - intros H H1. destruct (l_phases l); [contradiction|]. apply Nat.ltb_lt in H1. rewrite H1. auto.
  Qed.

  Lemma phase_complete_true ms p :
    phase_complete ms p = true <->
    forall i m, nth_error ms i = Some m -> bit (p_mask p) i = true ->
                m_state m = Green /\ nleb (p_duration p) (m_since m) = true.
  Proof.
    unfold phase_complete. rewrite forallb_forall. split.
    - intros H i m Hm Hb. specialize (H (i, m)). rewrite filter_In, andb_true_iff, ls_eqb_eq in H. simpl in H.
      apply H. split; auto. apply in_enumerate; auto.
    - intros H [i m] Hin. apply filter_In in Hin. simpl in *. destruct Hin as (Hin & Hb).
      apply in_enumerate in Hin. rewrite andb_true_iff, ls_eqb_eq. eauto.
  Qed.
End LightProofs.
