(** * Partial-correctness triples with a panic condition *)
From Coq Require Import List Bool ZArith Arith Lia.
From Verif Require Import Base BaseProofs SlotMap Net Sim SlotMapProofs.
Import ListNotations.

(** [r] may run out of fuel, panics only for a reason in [E], and otherwise returns a value in [Q]. *)
Definition safe {X} (E : panic -> Prop) (r : res X) (Q : X -> Prop) : Prop :=
  match r with Ok x => Q x | Panic p => E p | OutOfFuel => True end.

Section Safe.
  Variable E : panic -> Prop.

  Lemma safe_ok {X} (r : res X) Q x : safe E r Q -> r = Ok x -> Q x.
  Proof. intros H ->. exact H. Qed.
  Lemma safe_panic {X} (r : res X) Q p : safe E r Q -> r = Panic p -> E p.
  Proof. intros H ->. exact H. Qed.
  Lemma safe_intro {X} (r : res X) (Q : X -> Prop) :
    (forall x, r = Ok x -> Q x) -> (forall p, r = Panic p -> E p) -> safe E r Q.
  Proof. intros H1 H2. destruct r; simpl; auto. Qed.
  Lemma safe_weaken {X} (r : res X) (Q Q' : X -> Prop) :
    safe E r Q -> (forall x, r = Ok x -> Q x -> Q' x) -> safe E r Q'.
  Proof. destruct r; simpl; auto. Qed.
  Lemma safe_and {X} (r : res X) (Q Q' : X -> Prop) :
    safe E r Q -> safe E r Q' -> safe E r (fun x => Q x /\ Q' x).
  Proof. destruct r; simpl; auto. Qed.
  Lemma safe_bind {X Y} (r : res X) (f : X -> res Y) (Q : X -> Prop) (R : Y -> Prop) :
    safe E r Q -> (forall x, r = Ok x -> Q x -> safe E (f x) R) -> safe E (bind r f) R.
  Proof. destruct r; simpl; auto. Qed.
  Lemma safe_option {X} p (o : option X) (Q : X -> Prop) :
    (forall x, o = Some x -> Q x) -> (o = None -> E p) -> safe E (of_option p o) Q.
  Proof. destruct o; simpl; auto. Qed.
  Lemma safe_foldM {S X} (P : S -> Prop) (f : S -> X -> res S) l s :
    (forall s x, In x l -> P s -> safe E (f s x) P) -> P s -> safe E (foldM f l s) P.
  Proof.
    revert s; induction l as [|x l IH]; intros s Hf Hs; simpl; auto.
    apply safe_bind with (Q := P); [apply Hf; simpl; auto|]. intros s' _ Hs'. apply IH; auto.
    intros; apply Hf; simpl; auto.
  Qed.
  Lemma safe_foldM_rest {S X} (P : list X -> S -> Prop) (f : S -> X -> res S) l s :
    (forall s x l', P (x :: l') s -> safe E (f s x) (P l')) -> P l s -> safe E (foldM f l s) (P []).
  Proof.
    intros Hf. revert s; induction l as [|x l IH]; intros s Hs; simpl; auto.
    apply safe_bind with (Q := P l); [apply Hf; auto|]. intros s' _ Hs'. apply IH; auto.
  Qed.
  Lemma safe_mapM {X Y} (P : X -> Y -> Prop) (f : X -> res Y) l :
    (forall x, In x l -> safe E (f x) (P x)) -> safe E (mapM f l) (fun ys => Forall2 P l ys).
  Proof.
    induction l as [|x l IH]; intros Hf; simpl; auto.
    apply safe_bind with (Q := P x); [apply Hf; simpl; auto|]. intros y _ Hy.
    apply safe_bind with (Q := fun ys => Forall2 P l ys); [apply IH; intros; apply Hf; simpl; auto|].
    intros ys _ Hys. simpl. constructor; auto.
  Qed.
  Lemma safe_mapM_all {X Y} (P : Y -> Prop) (f : X -> res Y) l :
    (forall x, In x l -> safe E (f x) P) -> safe E (mapM f l) (fun ys => Forall P ys).
  Proof.
    intros Hf. eapply safe_weaken; [apply (safe_mapM (fun _ y => P y)); auto|].
    intros ys _ H. clear Hf. induction H; constructor; auto.
  Qed.
  Lemma safe_allM {X} (f : X -> res bool) l :
    (forall x, In x l -> safe E (f x) (fun _ => True)) -> safe E (allM f l) (fun _ => True).
  Proof.
    induction l as [|x l IH]; intros Hf; simpl; auto.
    apply safe_bind with (Q := fun _ => True); [apply Hf; simpl; auto|]. intros [] _ _; simpl; auto.
    apply IH. intros; apply Hf; simpl; auto.
  Qed.
  Lemma safe_filterM {X} (f : X -> res bool) l :
    (forall x, In x l -> safe E (f x) (fun _ => True)) -> safe E (filterM f l) (fun l' => incl l' l).
  Proof.
    induction l as [|x l IH]; intros Hf; simpl. { intros ? []. }
    apply safe_bind with (Q := fun _ => True); [apply Hf; simpl; auto|]. intros b _ _.
    apply safe_bind with (Q := fun l' => incl l' l); [apply IH; intros; apply Hf; simpl; auto|].
    intros l' _ Hl'. simpl. destruct b; intros y; simpl; auto; intros [|]; auto.
  Qed.

  Lemma safe_slots_mapS {V S_} (f : S_ -> key -> V -> res (S_ * V))
      (P : list (key * V) -> list (key * V) -> S_ -> Prop) i l s acc :
    (forall done k v todo s, P done ((k, v) :: todo) s ->
       safe E (f s k v) (fun sv => P (done ++ [(k, snd sv)]) todo (fst sv))) ->
    P acc (entries_from i l) s ->
    safe E (slots_mapS f i l s) (fun r => P (acc ++ entries_from i (snd r)) [] (fst r)).
  Proof.
    intros Hf. revert i s acc; induction l as [|sl l IH]; intros i s acc HP; simpl in *.
    - rewrite app_nil_r. auto.
    - destruct (s_val sl) eqn:E1.
      + eapply safe_bind; [apply Hf; exact HP|]. intros [s1 v1] _ H1. simpl in H1.
        eapply safe_bind; [apply IH; exact H1|]. intros [s2 l2] _ H2. simpl in *. rewrite <- app_assoc in H2. exact H2.
      + eapply safe_bind; [apply IH; exact HP|]. intros [s2 l2] _ H2. simpl in *. rewrite E1. exact H2.
  Qed.
  Lemma safe_mapS {V S_} (f : S_ -> key -> V -> res (S_ * V))
      (P : list (key * V) -> list (key * V) -> S_ -> Prop) m s :
    (forall done k v todo s, P done ((k, v) :: todo) s ->
       safe E (f s k v) (fun sv => P (done ++ [(k, snd sv)]) todo (fst sv))) ->
    P [] (sm_entries m) s ->
    safe E (sm_mapS f m s) (fun r => P (sm_entries (snd r)) [] (fst r)).
  Proof.
    intros Hf HP. unfold sm_mapS. eapply safe_bind.
    - apply (safe_slots_mapS f P 0 (sm_slots m) s []); auto.
    - intros [s' l'] _ H. simpl in *. exact H.
  Qed.

  (** Pointwise version. *)
  Lemma safe_mapS_pt {V S_} (f : S_ -> key -> V -> res (S_ * V)) (I : S_ -> Prop) (P : key -> V -> V -> Prop) m s :
    (forall s k v, sm_get m k = Some v -> I s -> safe E (f s k v) (fun sv => I (fst sv) /\ P k v (snd sv))) ->
    I s ->
    safe E (sm_mapS f m s) (fun r => I (fst r) /\ same_shape m (snd r) /\
      (forall k v, sm_get m k = Some v -> exists v', sm_get (snd r) k = Some v' /\ P k v v') /\
      (forall k v', sm_get (snd r) k = Some v' -> exists v, sm_get m k = Some v /\ P k v v')).
  Proof.
    intros Hf Hs. apply safe_intro.
    - intros [s' m'] H. simpl.
      pose proof (sm_mapS_shape _ _ _ _ _ H) as Sh.
      edestruct (sm_mapS_pointwise f I) as (H1 & H2 & H3); [|exact Hs|exact H|].
      { intros s0 k v s0' v' Hg Hi Hk. specialize (Hf s0 k v Hg Hi). rewrite Hk in Hf. simpl in Hf. tauto. }
      repeat split; auto; try apply Sh.
      + intros k v Hg. destruct (H2 k v Hg) as (s1 & s2 & v' & I1 & I2 & Hk & Hg'). exists v'. split; auto.
        specialize (Hf s1 k v Hg I1). rewrite Hk in Hf. simpl in Hf. tauto.
      + intros k v' Hg'. destruct (H3 k v' Hg') as (s1 & s2 & v & I1 & I2 & Hk & Hg). exists v. split; auto.
        specialize (Hf s1 k v Hg I1). rewrite Hk in Hf. simpl in Hf. tauto.
    - intros p H. eapply (sm_mapS_panic f I); [| |exact Hs|exact H].
      + intros s0 k v s0' v' Hg Hi Hk. specialize (Hf s0 k v Hg Hi). rewrite Hk in Hf. simpl in Hf. tauto.
      + intros s0 k v q Hg Hi Hk. specialize (Hf s0 k v Hg Hi). rewrite Hk in Hf. exact Hf.
  Qed.
End Safe.

Lemma safe_E {X} (E E' : panic -> Prop) (r : res X) Q : (forall p, E p -> E' p) -> safe E r Q -> safe E' r Q.
Proof. intros H. destruct r; simpl; auto. Qed.
