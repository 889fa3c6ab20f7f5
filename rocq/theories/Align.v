(** * Two runs over maps or lists that agree on some of their entries *)
From Coq Require Import List Bool ZArith NArith Arith Lia.
From Verif Require Import Base BaseProofs SlotMap SlotMapProofs.
From Verif Require Import Arith Util Geom Light Accel Net Path Vehicle LinkOps Sim.
Import ListNotations.

(** The entries for which [P] holds are the same keys in both maps, with related values. *)
Definition seen {V} (P : key -> V -> bool) (m : slotmap V) (k : key) : option V :=
  match sm_get m k with Some v => if P k v then Some v else None | None => None end.
Definition relo {X Y} (R : X -> Y -> Prop) (x : option X) (y : option Y) : Prop :=
  match x, y with Some x, Some y => R x y | None, None => True | _, _ => False end.
Definition aligned {V} (P : key -> V -> bool) (R : key -> V -> V -> Prop) (m1 m2 : slotmap V) : Prop :=
  forall k, relo (R k) (seen P m1 k) (seen P m2 k).

Section Slots.
  Context {V : Type} (P : key -> V -> bool).
  Definition hv (i : nat) (a : slot V) : option (nat * V) := match s_val a with Some v => if P (Key i (s_ver a)) v then Some (s_ver a, v) else None | None => None end.
  Definition hrel (R : key -> V -> V -> Prop) (i : nat) : option (nat * V) -> option (nat * V) -> Prop :=
    relo (fun a b => fst a = fst b /\ R (Key i (fst a)) (snd a) (snd b)).
  Definition at_slot (i : nat) (o : option (slot V)) : option (nat * V) := match o with Some a => hv i a | None => None end.
  Inductive al (R : key -> V -> V -> Prop) : nat -> list (slot V) -> list (slot V) -> Prop :=
  | al_nil i : al R i [] []
  | al_l i a l : hv i a = None -> al R (S i) l [] -> al R i (a :: l) []
  | al_r i b l : hv i b = None -> al R (S i) [] l -> al R i [] (b :: l)
  | al_both i a b l1 l2 : hrel R i (hv i a) (hv i b) -> al R (S i) l1 l2 -> al R i (a :: l1) (b :: l2).
  Lemma al_nth R : forall l1 l2 i, (forall j, hrel R (i + j) (at_slot (i + j) (nth_error l1 j)) (at_slot (i + j) (nth_error l2 j))) -> al R i l1 l2.
  Proof.
    induction l1 as [|a l1 IH]; intros l2 i H.
    - revert i H. induction l2 as [|b l2 IH2]; intros i H; [constructor|]. constructor.
      + specialize (H 0). rewrite Nat.add_0_r in H. cbn in H. destruct (hv i b); [destruct H|reflexivity].
      + apply IH2. intros j. specialize (H (S j)). rewrite Nat.add_succ_r in H. cbn [nth_error] in H. destruct j; exact H.
    - destruct l2 as [|b l2].
      + constructor; [specialize (H 0); rewrite Nat.add_0_r in H; cbn in H; destruct (hv i a); [destruct H|reflexivity]|]. apply IH. intros j. specialize (H (S j)). rewrite Nat.add_succ_r in H. destruct j; exact H.
      + constructor; [specialize (H 0); rewrite Nat.add_0_r in H; exact H|]. apply IH. intros j. specialize (H (S j)). rewrite Nat.add_succ_r in H. exact H.
  Qed.
  Lemma nth_al R : forall i l1 l2, al R i l1 l2 -> forall j, hrel R (i + j) (at_slot (i + j) (nth_error l1 j)) (at_slot (i + j) (nth_error l2 j)).
  Proof.
    intros i l1 l2 H. induction H as [i|i a l E H IH|i b l E H IH|i a b l1 l2 E H IH]; intros j.
    - destruct j; exact I.
    - destruct j as [|j]; [rewrite Nat.add_0_r; cbn; rewrite E; exact I|]. rewrite Nat.add_succ_r. cbn [nth_error]. specialize (IH j). destruct j; exact IH.
    - destruct j as [|j]; [rewrite Nat.add_0_r; cbn; rewrite E; exact I|]. rewrite Nat.add_succ_r. cbn [nth_error]. specialize (IH j). destruct j; exact IH.
    - destruct j as [|j]; [rewrite Nat.add_0_r; exact E|]. rewrite Nat.add_succ_r. exact (IH j).
  Qed.
  Lemma seen_slot (m : slotmap V) k : seen P m k = match at_slot (k_idx k) (nth_error (sm_slots m) (k_idx k)) with Some (n, v) => if Nat.eqb n (k_ver k) then Some v else None | None => None end.
  Proof.
    unfold seen, sm_get, at_slot, hv. destruct (nth_error (sm_slots m) (k_idx k)) as [a|]; [|reflexivity]. destruct (Nat.eqb_spec (s_ver a) (k_ver k)) as [E|E].
    - destruct (s_val a) as [v|]; [|reflexivity]. rewrite E. destruct k as [i n]; cbn [k_idx k_ver]. destruct (P _ v); [|reflexivity]. cbn. rewrite Nat.eqb_refl. reflexivity.
    - destruct (s_val a) as [v|]; [|reflexivity]. destruct (P _ v); [|reflexivity]. apply Nat.eqb_neq in E. rewrite E. reflexivity.
  Qed.
  Lemma aligned_al R m1 m2 : aligned P R m1 m2 -> al R 0 (sm_slots m1) (sm_slots m2).
  Proof.
    intros H. apply al_nth. intros j. cbn [Nat.add]. unfold hrel.
    destruct (at_slot j (nth_error (sm_slots m1) j)) as [(n, v)|] eqn:E1.
    - specialize (H (Key j n)). rewrite !seen_slot in H. cbn [k_idx k_ver] in H. rewrite E1, Nat.eqb_refl in H. destruct (at_slot j (nth_error (sm_slots m2) j)) as [(n2, w)|]; [|destruct H].
      destruct (Nat.eqb_spec n2 n) as [->|]; [|destruct H]. split; [reflexivity|exact H].
    - destruct (at_slot j (nth_error (sm_slots m2) j)) as [(n2, w)|] eqn:E2; [|exact I]. specialize (H (Key j n2)). rewrite !seen_slot in H. cbn [k_idx k_ver] in H. rewrite E1, E2, Nat.eqb_refl in H. destruct H.
  Qed.
  Lemma al_aligned R m1 m2 : al R 0 (sm_slots m1) (sm_slots m2) -> aligned P R m1 m2.
  Proof.
    intros H k. pose proof (nth_al _ _ _ _ H (k_idx k)) as Q. cbn [Nat.add] in Q. rewrite !seen_slot. unfold hrel in Q.
    destruct (at_slot (k_idx k) (nth_error (sm_slots m1) (k_idx k))) as [(n, v)|]; destruct (at_slot (k_idx k) (nth_error (sm_slots m2) (k_idx k))) as [(n2, w)|]; try destruct Q; [|exact I]. cbn [fst snd] in *. subst n2.
    destruct (Nat.eqb_spec n (k_ver k)) as [->|]; [|exact I]. destruct k; exact H1.
  Qed.
  Lemma aligned_entries m1 m2 : aligned P (fun _ v w => v = w) m1 m2 -> filter (fun kv => P (fst kv) (snd kv)) (sm_entries m1) = filter (fun kv => P (fst kv) (snd kv)) (sm_entries m2).
  Proof.
    intros H. apply aligned_al in H. unfold sm_entries. induction H as [i|i a l E H IH|i b l E H IH|i a b l1 l2 E H IH]; [reflexivity| | |]; cbn [entries_from].
    - unfold hv in E. destruct (s_val a) as [v|]; [|exact IH]. cbn [filter fst snd]. destruct (P _ v); [discriminate E|exact IH].
    - unfold hv in E. destruct (s_val b) as [v|]; [|exact IH]. cbn [filter fst snd]. destruct (P _ v); [discriminate E|exact IH].
    - unfold hrel, relo, hv in E. destruct (s_val a) as [v|].
      + cbn [filter fst snd]. destruct (P (Key i (s_ver a)) v).
        * destruct (s_val b) as [w|]; [|destruct E]. cbn [filter fst snd]. destruct (P (Key i (s_ver b)) w); [|destruct E]. cbn [fst snd] in E. destruct E as (-> & ->). rewrite IH. reflexivity.
        * destruct (s_val b) as [w|]; [|exact IH]. cbn [filter fst snd]. destruct (P (Key i (s_ver b)) w); [destruct E|exact IH].
      + destruct (s_val b) as [w|]; [|exact IH]. cbn [filter fst snd]. destruct (P (Key i (s_ver b)) w); [destruct E|exact IH].
  Qed.
End Slots.

(** Two runs over two such maps. *)
Section MapS.
  Context {V S1 S2 G : Type} (le : G -> G -> Prop).
  Hypothesis le_refl : forall g, le g g.
  Hypothesis le_trans : forall a b c, le a b -> le b c -> le a c.
  Variable P : key -> V -> bool.
  Variable f1 : S1 -> key -> V -> res (S1 * V).
  Variable f2 : S2 -> key -> V -> res (S2 * V).
  Variable RS : G -> S1 -> S2 -> Prop.
  Variable R : key -> V -> V -> Prop.
  Variable R' : G -> key -> V -> V -> Prop.
  Hypothesis mono : forall g g' k v w, le g g' -> R' g k v w -> R' g' k v w.
  Variables D1 D2 : key -> V -> Prop.
  Hypothesis H1 : forall g s t k v s' v', D1 k v -> P k v = false -> RS g s t -> f1 s k v = Ok (s', v') -> RS g s' t /\ P k v' = false.
  Hypothesis H2 : forall g s t k w t' w', D2 k w -> P k w = false -> RS g s t -> f2 t k w = Ok (t', w') -> RS g s t' /\ P k w' = false.
  Hypothesis H3 : forall g s t k v w s' v' t' w', D1 k v -> D2 k w -> P k v = true -> P k w = true -> R k v w -> RS g s t -> f1 s k v = Ok (s', v') -> f2 t k w = Ok (t', w') ->
    exists g', le g g' /\ RS g' s' t' /\ R' g' k v' w' /\ P k v' = true /\ P k w' = true.
  Definition Ds (D : key -> V -> Prop) (i : nat) (l : list (slot V)) : Prop := forall j a v, nth_error l j = Some a -> s_val a = Some v -> D (Key (i + j) (s_ver a)) v.
  Lemma Ds_cons D i a l : Ds D i (a :: l) -> (forall v, s_val a = Some v -> D (Key i (s_ver a)) v) /\ Ds D (S i) l.
  Proof.
    intros H. split.
    - intros v E. specialize (H 0 a v eq_refl E). rewrite Nat.add_0_r in H. exact H.
    - intros j b v Hj E. specialize (H (S j) b v Hj E). rewrite Nat.add_succ_r in H. exact H.
  Qed.
  Lemma al_mono g g' i l1 l2 : le g g' -> al P (R' g) i l1 l2 -> al P (R' g') i l1 l2.
  Proof.
    intros L H. induction H as [i|i a l E H IH|i b l E H IH|i a b l1 l2 E H IH]; constructor; auto. unfold hrel, relo in *. destruct (hv P i a); destruct (hv P i b); auto. destruct E as (E1 & E2). split; [exact E1|]. exact (mono _ _ _ _ _ L E2).
  Qed.
  Lemma slots_align : forall i l1 l2, al P R i l1 l2 -> forall g s t s' l1' t' l2', Ds D1 i l1 -> Ds D2 i l2 -> RS g s t -> slots_mapS f1 i l1 s = Ok (s', l1') -> slots_mapS f2 i l2 t = Ok (t', l2') ->
    exists g', le g g' /\ RS g' s' t' /\ al P (R' g') i l1' l2'.
  Proof.
    intros i l1 l2 H. induction H as [i|i a l E H IH|i b l E H IH|i a b l1 l2 E H IH]; intros g s t s' l1' t' l2' X1 X2 Rs M1 M2.
    - cbn in M1, M2. injection M1 as <- <-. injection M2 as <- <-. exists g. split; [apply le_refl|]. split; [exact Rs|constructor].
    - apply Ds_cons in X1. destruct X1 as (Xa & X1). cbn [slots_mapS] in M1. unfold hv in E. destruct (s_val a) as [v|] eqn:Ea.
      + destruct (P _ v) eqn:Ep; [discriminate E|]. apply bind_ok in M1. destruct M1 as ((s1 & v1) & Hf & M1). apply bind_ok in M1. destruct M1 as ((s2 & l3) & Hl & M1). cbn [fst snd] in *. injection M1 as <- <-.
        destruct (H1 _ _ _ _ _ _ _ (Xa v eq_refl) Ep Rs Hf) as (Rs1 & Ep1). destruct (IH g s1 t s2 l3 t' l2' X1) as (g' & L & Rs2 & A2); auto. { intros j b w Hj. destruct j; discriminate Hj. }
        exists g'. split; [exact L|]. split; [exact Rs2|]. cbn in M2. injection M2 as <- <-. constructor; [unfold hv; cbn [s_val s_ver]; rewrite Ep1; reflexivity|exact A2].
      + apply bind_ok in M1. destruct M1 as ((s2 & l3) & Hl & M1). cbn [fst snd] in *. injection M1 as <- <-.
        destruct (IH g s t s2 l3 t' l2' X1) as (g' & L & Rs2 & A2); auto. { intros j b w Hj. destruct j; discriminate Hj. }
        exists g'. split; [exact L|]. split; [exact Rs2|]. cbn in M2. injection M2 as <- <-. constructor; [unfold hv; rewrite Ea; reflexivity|exact A2].
    - apply Ds_cons in X2. destruct X2 as (Xa & X2). cbn [slots_mapS] in M2. unfold hv in E. destruct (s_val b) as [v|] eqn:Ea.
      + destruct (P _ v) eqn:Ep; [discriminate E|]. apply bind_ok in M2. destruct M2 as ((s1 & v1) & Hf & M2). apply bind_ok in M2. destruct M2 as ((s2 & l3) & Hl & M2). cbn [fst snd] in *. injection M2 as <- <-.
        destruct (H2 _ _ _ _ _ _ _ (Xa v eq_refl) Ep Rs Hf) as (Rs1 & Ep1). destruct (IH g s s1 s' l1' s2 l3) as (g' & L & Rs2 & A2); auto. { intros j b' w Hj. destruct j; discriminate Hj. }
        exists g'. split; [exact L|]. split; [exact Rs2|]. cbn in M1. injection M1 as <- <-. constructor; [unfold hv; cbn [s_val s_ver]; rewrite Ep1; reflexivity|exact A2].
      + apply bind_ok in M2. destruct M2 as ((s2 & l3) & Hl & M2). cbn [fst snd] in *. injection M2 as <- <-.
        destruct (IH g s t s' l1' s2 l3) as (g' & L & Rs2 & A2); auto. { intros j b' w Hj. destruct j; discriminate Hj. }
        exists g'. split; [exact L|]. split; [exact Rs2|]. cbn in M1. injection M1 as <- <-. constructor; [unfold hv; rewrite Ea; reflexivity|exact A2].
    - apply Ds_cons in X1. destruct X1 as (Xa & X1). apply Ds_cons in X2. destruct X2 as (Xb & X2). cbn [slots_mapS] in M1, M2. unfold hrel, relo, hv in E.
      assert (forall (m : slotmap V), True) as _ by auto.
      destruct (s_val a) as [v|] eqn:Ea.
      + apply bind_ok in M1. destruct M1 as ((s1 & v1) & Hf & M1). apply bind_ok in M1. destruct M1 as ((s2 & l3) & Hl & M1). cbn [fst snd] in *. injection M1 as <- <-.
        destruct (P (Key i (s_ver a)) v) eqn:Ep.
        * destruct (s_val b) as [w|] eqn:Eb; [|destruct E]. destruct (P (Key i (s_ver b)) w) eqn:Eq; [|destruct E]. cbn [fst snd] in E. destruct E as (Ev & Er).
          apply bind_ok in M2. destruct M2 as ((t1 & w1) & Hg & M2). apply bind_ok in M2. destruct M2 as ((t2 & l4) & Hm & M2). cbn [fst snd] in *. injection M2 as <- <-.
          rewrite Ev in *. destruct (H3 g s t _ v w s1 v1 t1 w1 (Xa v eq_refl) (Xb w eq_refl) Ep Eq Er Rs Hf Hg) as (g1 & L1 & Rs1 & Er1 & Ep1 & Eq1).
          destruct (IH g1 s1 t1 s2 l3 t2 l4 X1 X2 Rs1 Hl Hm) as (g2 & L2 & Rs2 & A2). exists g2. split; [eapply le_trans; eauto|]. split; [exact Rs2|]. constructor; [|exact A2].
          unfold hrel, relo, hv. cbn [s_val s_ver]. rewrite Ep1, Eq1. cbn [fst snd]. split; [reflexivity|]. exact (mono _ _ _ _ _ L2 Er1).
        * destruct (H1 _ _ _ _ _ _ _ (Xa v eq_refl) Ep Rs Hf) as (Rs1 & Ep1). destruct (s_val b) as [w|] eqn:Eb.
          -- destruct (P (Key i (s_ver b)) w) eqn:Eq; [destruct E|]. apply bind_ok in M2. destruct M2 as ((t1 & w1) & Hg & M2). apply bind_ok in M2. destruct M2 as ((t2 & l4) & Hm & M2). cbn [fst snd] in *. injection M2 as <- <-.
             destruct (H2 _ _ _ _ _ _ _ (Xb w eq_refl) Eq Rs1 Hg) as (Rs2 & Eq1). destruct (IH g s1 t1 s2 l3 t2 l4 X1 X2 Rs2 Hl Hm) as (g2 & L2 & Rs3 & A2). exists g2. split; [exact L2|]. split; [exact Rs3|]. constructor; [|exact A2].
             unfold hrel, relo, hv. cbn [s_val s_ver]. rewrite Ep1, Eq1. exact I.
          -- apply bind_ok in M2. destruct M2 as ((t2 & l4) & Hm & M2). cbn [fst snd] in *. injection M2 as <- <-.
             destruct (IH g s1 t s2 l3 t2 l4 X1 X2 Rs1 Hl Hm) as (g2 & L2 & Rs3 & A2). exists g2. split; [exact L2|]. split; [exact Rs3|]. constructor; [|exact A2].
             unfold hrel, relo, hv. cbn [s_val s_ver]. rewrite Ep1, Eb. exact I.
      + apply bind_ok in M1. destruct M1 as ((s2 & l3) & Hl & M1). cbn [fst snd] in *. injection M1 as <- <-. destruct (s_val b) as [w|] eqn:Eb.
        * destruct (P (Key i (s_ver b)) w) eqn:Eq; [destruct E|]. apply bind_ok in M2. destruct M2 as ((t1 & w1) & Hg & M2). apply bind_ok in M2. destruct M2 as ((t2 & l4) & Hm & M2). cbn [fst snd] in *. injection M2 as <- <-.
          destruct (H2 _ _ _ _ _ _ _ (Xb w eq_refl) Eq Rs Hg) as (Rs2 & Eq1). destruct (IH g s t1 s2 l3 t2 l4 X1 X2 Rs2 Hl Hm) as (g2 & L2 & Rs3 & A2). exists g2. split; [exact L2|]. split; [exact Rs3|]. constructor; [|exact A2].
          unfold hrel, relo, hv. cbn [s_val s_ver]. rewrite Ea, Eq1. exact I.
        * apply bind_ok in M2. destruct M2 as ((t2 & l4) & Hm & M2). cbn [fst snd] in *. injection M2 as <- <-.
          destruct (IH g s t s2 l3 t2 l4 X1 X2 Rs Hl Hm) as (g2 & L2 & Rs3 & A2). exists g2. split; [exact L2|]. split; [exact Rs3|]. constructor; [|exact A2].
          unfold hrel, relo, hv. rewrite Ea, Eb. exact I.
  Qed.
  Lemma mapS_align m1 m2 g s t s' m1' t' m2' : aligned P R m1 m2 -> (forall k v, sm_get m1 k = Some v -> D1 k v) -> (forall k v, sm_get m2 k = Some v -> D2 k v) -> RS g s t ->
    sm_mapS f1 m1 s = Ok (s', m1') -> sm_mapS f2 m2 t = Ok (t', m2') -> exists g', le g g' /\ RS g' s' t' /\ aligned P (R' g') m1' m2'.
  Proof.
    intros Al X1 X2 Rs M1 M2. unfold sm_mapS in *. apply bind_ok in M1. destruct M1 as ((s1 & l1) & M1 & E1). apply bind_ok in M2. destruct M2 as ((t1 & l2) & M2 & E2). cbn [fst snd] in *. injection E1 as <- <-. injection E2 as <- <-.
    assert (forall (m : slotmap V) (D : key -> V -> Prop), (forall k v, sm_get m k = Some v -> D k v) -> Ds D 0 (sm_slots m)) as Q.
    { intros m D HD j a v Hj Ev. apply HD. unfold sm_get. cbn [k_idx k_ver Nat.add]. rewrite Hj, Nat.eqb_refl. exact Ev. }
    destruct (slots_align 0 _ _ (aligned_al _ _ _ _ Al) g s t s1 l1 t1 l2 (Q _ _ X1) (Q _ _ X2) Rs M1 M2) as (g' & L & Rs' & A'). exists g'. split; [exact L|]. split; [exact Rs'|]. apply al_aligned. exact A'.
  Qed.
End MapS.

(** Two runs over two lists with the same elements for which [P] holds. *)
Lemma foldM_align {X S1 S2} (P : X -> bool) (f1 : S1 -> X -> res S1) (f2 : S2 -> X -> res S2) (R : S1 -> S2 -> Prop) :
  forall l1 l2, filter P l1 = filter P l2 ->
  (forall s t x s', In x l1 -> P x = false -> R s t -> f1 s x = Ok s' -> R s' t) ->
  (forall s t x t', In x l2 -> P x = false -> R s t -> f2 t x = Ok t' -> R s t') ->
  (forall s t x s' t', In x l1 -> In x l2 -> P x = true -> R s t -> f1 s x = Ok s' -> f2 t x = Ok t' -> R s' t') ->
  forall s t s' t', R s t -> foldM f1 l1 s = Ok s' -> foldM f2 l2 t = Ok t' -> R s' t'.
Proof.
  induction l1 as [|x l1 IH].
  - intros l2 E H1 H2 _. cbn in E. induction l2 as [|y l2 IH2]; intros s t s' t' Rs M1 M2.
    + cbn in M1, M2. injection M1 as <-. injection M2 as <-. exact Rs.
    + cbn [filter] in E. destruct (P y) eqn:Py; [discriminate E|]. cbn [foldM] in M2. apply bind_ok in M2. destruct M2 as (t1 & Hf & M2).
      apply (IH2 E) with (s := s) (t := t1); auto; [intros; eapply H2; eauto; right; assumption|]. eapply H2; eauto. left. reflexivity.
  - intros l2 E H1 H2 H3. cbn [filter] in E. destruct (P x) eqn:Px.
    + revert E H2 H3. induction l2 as [|y l2 IH2]; intros E H2 H3 s t s' t' Rs M1 M2; [discriminate E|]. cbn [filter] in E. cbn [foldM] in M1, M2. destruct (P y) eqn:Py.
      * injection E as <- E. apply bind_ok in M1. destruct M1 as (s1 & Hf & M1). apply bind_ok in M2. destruct M2 as (t1 & Hg & M2).
        apply (IH l2 E) with (s := s1) (t := t1); auto; [intros; eapply H1; eauto; right; assumption|intros; eapply H2; eauto; right; assumption|intros; eapply H3; eauto; right; assumption|]. eapply H3; eauto; left; reflexivity.
      * apply bind_ok in M2. destruct M2 as (t1 & Hg & M2). apply (IH2 E) with (s := s) (t := t1); auto.
        -- intros; eapply H2; eauto; right; assumption.
        -- intros s0 t0 z s0' t0' I1 I2. apply H3; [exact I1|right; exact I2].
        -- eapply H2; eauto. left. reflexivity.
    + intros s t s' t' Rs M1 M2. cbn [foldM] in M1. apply bind_ok in M1. destruct M1 as (s1 & Hf & M1). apply (IH l2 E) with (s := s1) (t := t); auto.
      * intros; eapply H1; eauto; right; assumption.
      * intros; eapply H3; eauto; right; assumption.
      * eapply H1; eauto. left. reflexivity.
Qed.
Lemma fold_align {X S1 S2} (P : X -> bool) (f1 : S1 -> X -> S1) (f2 : S2 -> X -> S2) (R : S1 -> S2 -> Prop) l1 l2 : filter P l1 = filter P l2 ->
  (forall s t x, In x l1 -> P x = false -> R s t -> R (f1 s x) t) -> (forall s t x, In x l2 -> P x = false -> R s t -> R s (f2 t x)) -> (forall s t x, In x l1 -> In x l2 -> P x = true -> R s t -> R (f1 s x) (f2 t x)) ->
  forall s t, R s t -> R (fold_left f1 l1 s) (fold_left f2 l2 t).
Proof.
  intros E H1 H2 H3 s t Rs.
  assert (forall {S} (f : S -> X -> S) l s, foldM (fun s x => Ok (f s x)) l s = Ok (fold_left f l s)) as Q.
  { intros S f l. induction l as [|x l IH]; intros s0; [reflexivity|]. cbn [foldM fold_left bind]. apply IH. }
  refine (foldM_align P (fun s x => Ok (f1 s x)) (fun t x => Ok (f2 t x)) R l1 l2 E _ _ _ s t _ _ Rs (Q _ _ _ _) (Q _ _ _ _)).
  - intros s0 t0 x s' Hi Px R0 Eq. injection Eq as <-. auto.
  - intros s0 t0 x s' Hi Px R0 Eq. injection Eq as <-. auto.
  - intros s0 t0 x s' t' Hi Hj Px R0 Eq Eq2. injection Eq as <-. injection Eq2 as <-. auto.
Qed.
