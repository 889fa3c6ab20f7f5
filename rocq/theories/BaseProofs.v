(** * Lemmas on results, loops and lists *)
From Coq Require Import List Bool ZArith Arith Lia Permutation.
From Verif Require Import Base.
Import ListNotations.

Lemma bind_ok {X Y} (r : res X) (f : X -> res Y) y :
  bind r f = Ok y -> exists x, r = Ok x /\ f x = Ok y.
Proof. destruct r; simpl; try discriminate. eauto. Qed.

Lemma bind_panic {X Y} (r : res X) (f : X -> res Y) p :
  bind r f = Panic p -> r = Panic p \/ exists x, r = Ok x /\ f x = Panic p.
Proof. destruct r; simpl; intros H; try discriminate; eauto. inversion H; auto. Qed.

Lemma bind_fuel {X Y} (r : res X) (f : X -> res Y) :
  bind r f = OutOfFuel -> r = OutOfFuel \/ exists x, r = Ok x /\ f x = OutOfFuel.
Proof. destruct r; simpl; intros H; try discriminate; eauto. Qed.

Lemma bind_ok_intro {X Y} (r : res X) (f : X -> res Y) x y :
  r = Ok x -> f x = Ok y -> bind r f = Ok y.
Proof. intros ->; auto. Qed.

Lemma of_option_ok {X} p (o : option X) x : of_option p o = Ok x <-> o = Some x.
Proof. destruct o; simpl; split; intros H; inversion H; auto. Qed.

Lemma of_option_panic {X} p q (o : option X) : of_option p o = Panic q -> p = q /\ o = None.
Proof. destruct o; simpl; intros H; inversion H; auto. Qed.

Lemma of_option_fuel {X} p (o : option X) : of_option p o = OutOfFuel -> False.
Proof. destruct o; discriminate. Qed.

(** Splits all [bind]s that return [Ok] in the hypotheses. *)
Ltac inv_bind :=
  repeat match goal with
  | H : bind _ _ = Ok _ |- _ =>
      let x := fresh "x" in let Hx := fresh "Hx" in
      apply bind_ok in H; destruct H as (x & Hx & H)
  | H : Ok _ = Ok _ |- _ => injection H as H; try subst
  | H : of_option _ _ = Ok _ |- _ => apply of_option_ok in H
  | H : Panic _ = Ok _ |- _ => discriminate H
  | H : OutOfFuel = Ok _ |- _ => discriminate H
  end.

(** ** foldM *)
Lemma foldM_app {S X} (f : S -> X -> res S) l1 l2 s :
  foldM f (l1 ++ l2) s = bind (foldM f l1 s) (foldM f l2).
Proof.
  revert s; induction l1 as [|x l1 IH]; intros s; simpl; auto.
  destruct (f s x); simpl; auto.
Qed.

Lemma foldM_inv {S X} (P : S -> Prop) (f : S -> X -> res S) l s s' :
  (forall s x s', In x l -> P s -> f s x = Ok s' -> P s') ->
  foldM f l s = Ok s' -> P s -> P s'.
Proof.
  revert s; induction l as [|x l IH]; intros s Hf H Ps; simpl in H; inv_bind; auto.
  eapply IH; eauto; intros; [eapply Hf|eapply Hf]; simpl; eauto.
Qed.

(** Invariant that depends on the remaining elements. *)
Lemma foldM_inv_rest {S X} (P : list X -> S -> Prop) (f : S -> X -> res S) l s s' :
  (forall s x l s', P (x :: l) s -> f s x = Ok s' -> P l s') ->
  foldM f l s = Ok s' -> P l s -> P [] s'.
Proof.
  revert s; induction l as [|x l IH]; intros s Hf H Ps; simpl in H; inv_bind; auto.
  eapply IH; eauto.
Qed.

Lemma foldM_rel {S X} (R : S -> S -> Prop) (f : S -> X -> res S) l s s' :
  (forall s, R s s) -> (forall a b c, R a b -> R b c -> R a c) ->
  (forall s x s', In x l -> f s x = Ok s' -> R s s') ->
  foldM f l s = Ok s' -> R s s'.
Proof.
  intros Hr Ht. revert s; induction l as [|x l IH]; intros s Hf H; simpl in H; inv_bind; auto.
  eapply Ht; [eapply Hf; simpl; eauto|]. eapply IH; eauto. intros; eapply Hf; simpl; eauto.
Qed.

Lemma foldM_panic {S X} (P : S -> Prop) (f : S -> X -> res S) (Q : panic -> Prop) l s p :
  (forall s x s', In x l -> P s -> f s x = Ok s' -> P s') ->
  (forall s x p, In x l -> P s -> f s x = Panic p -> Q p) ->
  P s -> foldM f l s = Panic p -> Q p.
Proof.
  revert s; induction l as [|x l IH]; intros s Hf Hp Ps H; simpl in H; try discriminate.
  apply bind_panic in H. destruct H as [H|(s1 & H1 & H)].
  - eapply Hp; simpl; eauto.
  - eapply (IH s1); eauto; intros; [eapply Hf|eapply Hp|eapply Hf]; simpl; eauto.
Qed.

Lemma foldM_total {S X} (P : S -> Prop) (f : S -> X -> res S) l s :
  (forall s x, In x l -> P s -> exists s', f s x = Ok s' /\ P s') ->
  P s -> exists s', foldM f l s = Ok s' /\ P s'.
Proof.
  revert s; induction l as [|x l IH]; intros s Hf Ps; simpl; eauto.
  destruct (Hf s x) as (s1 & -> & P1); simpl; auto. apply IH; auto. intros; apply Hf; simpl; auto.
Qed.

(** ** mapM, filterM, allM *)
Lemma mapM_ok {X Y} (f : X -> res Y) l ys :
  mapM f l = Ok ys -> Forall2 (fun x y => f x = Ok y) l ys.
Proof.
  revert ys; induction l as [|x l IH]; intros ys H; simpl in H; inv_bind; constructor; auto.
Qed.

Lemma mapM_ok_intro {X Y} (f : X -> res Y) l ys :
  Forall2 (fun x y => f x = Ok y) l ys -> mapM f l = Ok ys.
Proof. induction 1; simpl; auto. rewrite H, IHForall2. auto. Qed.

Lemma mapM_total {X Y} (f : X -> res Y) l :
  (forall x, In x l -> exists y, f x = Ok y) -> exists ys, mapM f l = Ok ys.
Proof.
  induction l as [|x l IH]; intros H; simpl; eauto.
  destruct (H x) as (y & ->); simpl; auto. destruct IH as (ys & ->); simpl; eauto.
  intros; apply H; simpl; auto.
Qed.

Lemma mapM_panic {X Y} (f : X -> res Y) l p :
  mapM f l = Panic p -> exists x, In x l /\ f x = Panic p.
Proof.
  induction l as [|x l IH]; simpl; intros H; try discriminate.
  apply bind_panic in H. destruct H as [H|(y & _ & H)]; eauto.
  apply bind_panic in H. destruct H as [H|(ys & _ & H)]; try discriminate.
  destruct (IH H) as (z & Hz & E). eauto.
Qed.

Lemma mapM_fuel {X Y} (f : X -> res Y) l :
  mapM f l = OutOfFuel -> exists x, In x l /\ f x = OutOfFuel.
Proof.
  induction l as [|x l IH]; simpl; intros H; try discriminate.
  apply bind_fuel in H. destruct H as [H|(y & _ & H)]; eauto.
  apply bind_fuel in H. destruct H as [H|(ys & _ & H)]; try discriminate.
  destruct (IH H) as (z & Hz & E). eauto.
Qed.

Lemma mapM_in {X Y} (f : X -> res Y) l ys y :
  mapM f l = Ok ys -> In y ys -> exists x, In x l /\ f x = Ok y.
Proof.
  intros H. apply mapM_ok in H. induction H; simpl; intros []; subst; eauto.
  destruct IHForall2 as (x' & ? & ?); eauto.
Qed.

Lemma mapM_in_l {X Y} (f : X -> res Y) l ys x :
  mapM f l = Ok ys -> In x l -> exists y, In y ys /\ f x = Ok y.
Proof.
  intros H. apply mapM_ok in H. induction H; simpl; intros []; subst; eauto.
  destruct IHForall2 as (x' & ? & ?); eauto.
Qed.

Lemma allM_true {X} (f : X -> res bool) l :
  allM f l = Ok true -> forall x, In x l -> f x = Ok true.
Proof.
  induction l as [|y l IH]; simpl; intros H x []; subst; inv_bind.
  - destruct x0; auto; discriminate.
  - destruct x0; try discriminate; auto.
Qed.

Lemma allM_false {X} (f : X -> res bool) l :
  allM f l = Ok false -> exists x, In x l /\ f x = Ok false.
Proof.
  induction l as [|y l IH]; simpl; intros H; inv_bind; try discriminate.
  destruct x; eauto. destruct (IH H) as (x & ? & ?); eauto.
Qed.

Lemma allM_panic {X} (f : X -> res bool) l p :
  allM f l = Panic p -> exists x, In x l /\ f x = Panic p.
Proof.
  induction l as [|y l IH]; simpl; intros H; try discriminate.
  apply bind_panic in H. destruct H as [H|(b & _ & H)]; eauto.
  destruct b; try discriminate. destruct (IH H) as (x & ? & ?); eauto.
Qed.

(** ** Lists *)
Lemma insert_at_perm {X} n (x : X) l : Permutation (insert_at n x l) (x :: l).
Proof.
  unfold insert_at. rewrite <- Permutation_middle, firstn_skipn. reflexivity.
Qed.

Lemma in_insert_at {X} n (x y : X) l : In y (insert_at n x l) <-> y = x \/ In y l.
Proof.
  split; intros H.
  - apply (Permutation_in _ (insert_at_perm n x l)) in H. destruct H; auto.
  - apply (Permutation_in _ (Permutation_sym (insert_at_perm n x l))). destruct H; subst; simpl; auto.
Qed.

Lemma remove_at_perm {X} n (x : X) l : nth_error l n = Some x -> Permutation l (x :: remove_at n l).
Proof.
  unfold remove_at. revert n; induction l as [|y l IH]; intros [|n] H; simpl in *; try discriminate.
  - inversion H; subst; reflexivity.
  - rewrite perm_swap. constructor. apply IH; auto.
Qed.

Lemma position_some {X} (f : X -> bool) l n :
  position f l = Some n -> exists x, nth_error l n = Some x /\ f x = true.
Proof.
  revert n; induction l as [|x l IH]; simpl; intros n H; try discriminate.
  destruct (f x) eqn:E; inversion H; subst; simpl; eauto.
  destruct (position f l); inversion H; subst; simpl. apply IH; auto.
Qed.

Lemma position_none {X} (f : X -> bool) l :
  position f l = None -> forall x, In x l -> f x = false.
Proof.
  induction l as [|y l IH]; simpl; intros H x []; subst; destruct (f _) eqn:E; try discriminate; auto;
    destruct (position f l) eqn:E2; try discriminate; auto.
Qed.

Lemma rposition_some {X} (f : X -> bool) l n :
  rposition f l = Some n -> exists x, nth_error l n = Some x /\ f x = true.
Proof.
  revert n; induction l as [|x l IH]; simpl; intros n H; try discriminate.
  destruct (rposition f l) eqn:E.
  - inversion H; subst; simpl; auto.
  - destruct (f x) eqn:E2; inversion H; subst; simpl; eauto.
Qed.

Lemma rposition_none {X} (f : X -> bool) l :
  rposition f l = None -> forall x, In x l -> f x = false.
Proof.
  induction l as [|y l IH]; simpl; intros H x []; subst;
    destruct (rposition f l) eqn:E; try discriminate; auto; destruct (f _) eqn:E2; try discriminate; auto.
Qed.

Lemma set_nth_length {X} n (x : X) l : length (set_nth n x l) = length l.
Proof. revert n; induction l; destruct n; simpl; auto. Qed.

Lemma nth_error_set_nth {X} n m (x : X) l :
  nth_error (set_nth n x l) m =
  if Nat.eqb n m then (if Nat.ltb n (length l) then Some x else None) else nth_error l m.
Proof.
  revert n m; induction l as [|y l IH]; intros n m; simpl.
  - destruct m, n; simpl; auto; destruct (Nat.eqb _ _); auto.
  - destruct n, m; simpl; auto. rewrite IH. reflexivity.
Qed.

Lemma enumerate_length {X} (l : list X) : length (enumerate l) = length l.
Proof. unfold enumerate. rewrite combine_length, seq_length. lia. Qed.

Lemma nth_error_combine {X Y} (a : list X) (b : list Y) n :
  nth_error (combine a b) n =
  match nth_error a n, nth_error b n with Some x, Some y => Some (x, y) | _, _ => None end.
Proof.
  revert b n; induction a as [|x a IH]; intros b n; simpl.
  - destruct n; auto.
  - destruct b, n; simpl; auto. destruct (nth_error a n); auto.
Qed.

Lemma nth_error_seq s n i : i < n -> nth_error (seq s n) i = Some (s + i).
Proof.
  revert s i; induction n; intros s i H; try lia. destruct i; simpl.
  - f_equal; lia.
  - rewrite IHn by lia. f_equal; lia.
Qed.

Lemma nth_error_enumerate {X} (l : list X) n :
  nth_error (enumerate l) n = option_map (fun x => (n, x)) (nth_error l n).
Proof.
  unfold enumerate. rewrite nth_error_combine.
  destruct (nth_error l n) eqn:E.
  - rewrite nth_error_seq; simpl; auto. apply nth_error_Some. congruence.
  - destruct (nth_error (seq _ _) n); auto.
Qed.

Lemma in_enumerate {X} (l : list X) n x : In (n, x) (enumerate l) <-> nth_error l n = Some x.
Proof.
  split; intros H.
  - apply In_nth_error in H. destruct H as (m & H). rewrite nth_error_enumerate in H.
    destruct (nth_error l m) eqn:E; inversion H; subst; auto.
  - eapply nth_error_In with (n := n). rewrite nth_error_enumerate, H. auto.
Qed.

Lemma hd_error_in {X} (l : list X) x : hd_error l = Some x -> In x l.
Proof. destruct l; simpl; intros H; inversion H; auto. Qed.

Lemma skipn_in {X} n (l : list X) x : In x (skipn n l) -> In x l.
Proof. revert n; induction l; destruct n; simpl; eauto. Qed.
Lemma firstn_in {X} n (l : list X) x : In x (firstn n l) -> In x l.
Proof. revert n; induction l; destruct n; simpl; auto; intros []; eauto. Qed.

Lemma Forall2_nth {X Y} (R : X -> Y -> Prop) a b n x y :
  Forall2 R a b -> nth_error a n = Some x -> nth_error b n = Some y -> R x y.
Proof.
  intros H; revert n; induction H; intros [|n]; simpl; intros; try discriminate.
  - inversion H1; inversion H2; subst; auto.
  - eauto.
Qed.

Lemma NoDup_app_intro {X} (a b : list X) :
  NoDup a -> NoDup b -> (forall x, In x a -> ~ In x b) -> NoDup (a ++ b).
Proof.
  induction 1; simpl; auto; intros Hb Hd. constructor.
  - rewrite in_app_iff. intros [|]; auto. eapply Hd; eauto.
  - apply IHNoDup; auto.
Qed.

Lemma NoDup_remove_at {X} n (l : list X) : NoDup l -> NoDup (remove_at n l).
Proof.
  intros H. destruct (nth_error l n) eqn:E.
  - apply (Permutation_NoDup (remove_at_perm n x l E)) in H. inversion H; auto.
  - apply nth_error_None in E. unfold remove_at. rewrite firstn_all2 by lia.
    rewrite skipn_all2 by lia. rewrite app_nil_r. auto.
Qed.

Lemma Forall2_len {X Y} (R : X -> Y -> Prop) a b : Forall2 R a b -> length a = length b.
Proof. induction 1; simpl; auto. Qed.
