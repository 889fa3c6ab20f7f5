(** * Lemmas on the slot map *)
From Coq Require Import List Arith Bool Lia.
From Verif Require Import Base BaseProofs SlotMap Sim.
Import ListNotations.

Lemma key_eqb_eq a b : key_eqb a b = true <-> a = b.
Proof.
  unfold key_eqb. destruct a, b; simpl. rewrite andb_true_iff, !Nat.eqb_eq.
  split; [intros []; congruence|intros H; inversion H; auto].
Qed.
Lemma key_eqb_refl a : key_eqb a a = true.
Proof. apply key_eqb_eq; auto. Qed.
Lemma key_eqb_neq a b : key_eqb a b = false <-> a <> b.
Proof. rewrite <- (key_eqb_eq a b). destruct (key_eqb a b); intuition congruence. Qed.
Lemma key_eqb_sym a b : key_eqb a b = key_eqb b a.
Proof. unfold key_eqb. rewrite (Nat.eqb_sym (k_idx a)), (Nat.eqb_sym (k_ver a)). auto. Qed.
Lemma key_eqb_spec a b : reflect (a = b) (key_eqb a b).
Proof. apply iff_reflect. symmetry. apply key_eqb_eq. Qed.
Lemma key_eq_dec (a b : key) : {a = b} + {a <> b}.
Proof. decide equality; apply Nat.eq_dec. Qed.

Record sm_wf {V} (m : slotmap V) : Prop := {
  wf_sentinel : nth_error (sm_slots m) 0 = Some (Slot 0 None);
  wf_free : forall i, In i (sm_free m) ->
      0 < i /\ exists s, nth_error (sm_slots m) i = Some s /\ s_val s = None;
  wf_free_nodup : NoDup (sm_free m) }.

(** [k] has been handed out by this map at some time. *)
Definition sm_issued {V} (m : slotmap V) (k : key) : Prop :=
  exists s, nth_error (sm_slots m) (k_idx k) = Some s /\ k_ver k <= s_ver s.

Section SM.
  Context {V : Type}.
  Implicit Types (m : slotmap V) (k : key) (v : V).

  Lemma sm_wf_empty : sm_wf (@sm_empty V).
  Proof. split; simpl; auto; try constructor; tauto. Qed.

  Lemma sm_mem_get m k : sm_mem m k = true <-> exists v, sm_get m k = Some v.
  Proof. unfold sm_mem. destruct (sm_get m k); split; eauto; try discriminate. intros []; discriminate. Qed.

  Lemma sm_get_some m k v :
    sm_get m k = Some v <-> nth_error (sm_slots m) (k_idx k) = Some (Slot (k_ver k) (Some v)).
  Proof.
    unfold sm_get. destruct (nth_error _ _) as [[ver o]|] eqn:E; simpl.
    - destruct (Nat.eqb ver (k_ver k)) eqn:E2.
      + apply Nat.eqb_eq in E2. subst. split; intros H; inversion H; auto.
      + apply Nat.eqb_neq in E2. split; intros H; inversion H; congruence.
    - split; discriminate.
  Qed.

  Lemma sm_get_null m : sm_wf m -> sm_get m null_key = None.
  Proof. intros W. unfold sm_get. change (k_idx null_key) with 0. rewrite (wf_sentinel _ W). auto. Qed.

  Lemma sm_get_empty k : sm_get (@sm_empty V) k = None.
  Proof.
    unfold sm_get; simpl. destruct (k_idx k) as [|[|]]; simpl; auto. destruct (k_ver k); auto.
  Qed.

  (** ** insert *)
  Lemma next_key_idx m : sm_wf m -> 0 < k_idx (sm_next_key m).
  Proof.
    intros W. unfold sm_next_key. destruct (sm_free m) as [|i l] eqn:E; simpl.
    - pose proof (wf_sentinel _ W). destruct (sm_slots m); simpl in *; try discriminate; lia.
    - destruct (wf_free _ W i) as (? & s & -> & _). { rewrite E; simpl; auto. } simpl; auto.
  Qed.

  Lemma next_key_null m : sm_wf m -> sm_next_key m <> null_key.
  Proof. intros W H. pose proof (next_key_idx m W). rewrite H in H0. simpl in H0. lia. Qed.

  Lemma next_key_not_issued m : sm_wf m -> ~ sm_issued m (sm_next_key m).
  Proof.
    intros W (s & Hs & Hv). unfold sm_next_key in *. destruct (sm_free m) as [|i l] eqn:E; simpl in *.
    - assert (length (sm_slots m) < length (sm_slots m)); [|lia]. apply nth_error_Some. congruence.
    - destruct (wf_free _ W i) as (? & s' & Hs' & _). { rewrite E; simpl; auto. }
      rewrite Hs' in *. simpl in *. rewrite Hs' in Hs. inversion Hs; subst. lia.
  Qed.

  Lemma issued_mem m k v : sm_get m k = Some v -> sm_issued m k.
  Proof. rewrite sm_get_some. intros H. eexists; split; eauto. Qed.

  Lemma next_key_fresh m : sm_wf m -> sm_get m (sm_next_key m) = None.
  Proof.
    intros W. destruct (sm_get m (sm_next_key m)) eqn:E; auto.
    apply issued_mem in E. apply next_key_not_issued in E; tauto.
  Qed.

  Lemma sm_get_insert m v k : sm_wf m ->
    sm_get (sm_insert m v) k = if key_eqb (sm_next_key m) k then Some v else sm_get m k.
  Proof.
    intros W. unfold sm_insert, sm_next_key. destruct (sm_free m) as [|i l] eqn:E.
    - unfold sm_get, key_eqb; simpl.
      destruct (Nat.eqb_spec (length (sm_slots m)) (k_idx k)) as [H|H]; simpl.
      + rewrite <- H, nth_error_app2, Nat.sub_diag by lia. simpl.
        destruct (k_ver k) as [|[|]]; simpl; auto;
          replace (nth_error (sm_slots m) (length (sm_slots m))) with (@None (slot V)); auto;
          symmetry; apply nth_error_None; lia.
      + destruct (Nat.lt_ge_cases (k_idx k) (length (sm_slots m))).
        * rewrite nth_error_app1 by lia. auto.
        * rewrite nth_error_app2 by lia. destruct (k_idx k - length (sm_slots m)) eqn:E2; try lia. simpl.
          destruct n; simpl; symmetry; replace (nth_error (sm_slots m) (k_idx k)) with (@None (slot V)); auto;
            symmetry; apply nth_error_None; lia.
    - destruct (wf_free _ W i) as (Hi & s & Hs & Hn). { rewrite E; simpl; auto. }
      rewrite Hs. unfold sm_get, key_eqb. cbn [sm_slots k_idx k_ver].
      rewrite nth_error_set_nth.
      destruct (Nat.eqb_spec i (k_idx k)) as [H|H]; cbn [andb]; auto.
      replace (Nat.ltb i (length (sm_slots m))) with true.
      2: { symmetry. apply Nat.ltb_lt. apply nth_error_Some. congruence. }
      rewrite <- H, Hs. cbn [s_ver s_val]. rewrite Hn. destruct (Nat.eqb (s_ver s) (k_ver k)); auto.
  Qed.

  Lemma sm_wf_insert m v : sm_wf m -> sm_wf (sm_insert m v).
  Proof.
    intros W. unfold sm_insert. destruct (sm_free m) as [|i l] eqn:E; split; cbn [sm_slots sm_free].
    - pose proof (wf_sentinel _ W) as H. destruct (sm_slots m); simpl in *; try discriminate; auto.
    - simpl; tauto.
    - constructor.
    - destruct (wf_free _ W i) as (Hi & s & Hs & Hn). { rewrite E; simpl; auto. }
      rewrite nth_error_set_nth. destruct (Nat.eqb_spec i 0); [lia|]. apply W.
    - intros j Hj. pose proof (wf_free_nodup _ W) as Hnd. rewrite E in Hnd. inversion Hnd; subst.
      destruct (wf_free _ W j) as (Hi & s & Hs & Hn). { rewrite E; simpl; auto. }
      split; auto. exists s. split; auto. rewrite nth_error_set_nth.
      destruct (Nat.eqb_spec i j); [subst; contradiction|]; auto.
    - pose proof (wf_free_nodup _ W) as Hnd. rewrite E in Hnd. inversion Hnd; auto.
  Qed.

  Lemma issued_insert m v k : sm_wf m ->
    (sm_issued (sm_insert m v) k -> sm_issued m k \/ (k_idx k = k_idx (sm_next_key m) /\ k_ver k <= k_ver (sm_next_key m))) /\
    (sm_issued m k \/ k = sm_next_key m -> sm_issued (sm_insert m v) k).
  Proof.
    intros W. split.
    - unfold sm_issued, sm_insert, sm_next_key. destruct (sm_free m) as [|i l] eqn:E; simpl.
      + intros (s & Hs & Hv). destruct (Nat.lt_ge_cases (k_idx k) (length (sm_slots m))).
        * rewrite nth_error_app1 in Hs by lia. eauto.
        * rewrite nth_error_app2 in Hs by lia. destruct (k_idx k - length (sm_slots m)) eqn:E2; simpl in Hs.
          -- inversion Hs; subst. simpl in Hv. right. split; auto. lia.
          -- destruct n; discriminate.
      + intros (s & Hs & Hv). rewrite nth_error_set_nth in Hs.
        destruct (Nat.eqb_spec i (k_idx k)); eauto.
        destruct (Nat.ltb i (length (sm_slots m))); inversion Hs; subst; simpl in *. right.
        destruct (nth_error (sm_slots m) (k_idx k)); simpl in *; auto.
    - intros [H| ->].
      + unfold sm_issued, sm_insert, sm_next_key in *. destruct H as (s & Hs & Hv).
        destruct (sm_free m) as [|i l] eqn:E; simpl.
        * exists s. split; auto. rewrite nth_error_app1; auto. apply nth_error_Some. congruence.
        * rewrite nth_error_set_nth. destruct (Nat.eqb_spec i (k_idx k)); eauto. subst i.
          rewrite Hs. simpl. assert (k_idx k < length (sm_slots m)) as Hl by (apply nth_error_Some; congruence).
          apply Nat.ltb_lt in Hl. rewrite Hl. eexists; split; eauto. simpl. lia.
      + apply (issued_mem _ _ v). rewrite sm_get_insert by auto. rewrite key_eqb_refl. auto.
  Qed.

  (** ** set *)
  Lemma sm_get_set m k v k' :
    sm_get (sm_set m k v) k' = if key_eqb k k' && sm_mem m k then Some v else sm_get m k'.
  Proof.
    unfold sm_set. destruct (sm_mem m k) eqn:E.
    2: { rewrite andb_false_r. auto. }
    rewrite andb_true_r. apply sm_mem_get in E. destruct E as (v0 & E). apply sm_get_some in E.
    unfold sm_get, key_eqb; cbn [sm_slots]. rewrite nth_error_set_nth.
    destruct (Nat.eqb_spec (k_idx k) (k_idx k')) as [H|H]; cbn [andb]; auto.
    replace (Nat.ltb (k_idx k) (length (sm_slots m))) with true.
    2: { symmetry. apply Nat.ltb_lt. apply nth_error_Some. congruence. }
    cbn. destruct (Nat.eqb (k_ver k) (k_ver k')) eqn:E2; auto.
    rewrite <- H, E. cbn. rewrite E2. auto.
  Qed.

  Lemma sm_mem_set m k v k' : sm_mem (sm_set m k v) k' = sm_mem m k'.
  Proof.
    unfold sm_mem at 1. rewrite sm_get_set. destruct (key_eqb_spec k k'); simpl; auto. subst.
    destruct (sm_mem m k') eqn:E; auto.
  Qed.

  Lemma sm_wf_set m k v : sm_wf m -> sm_wf (sm_set m k v).
  Proof.
    intros W. unfold sm_set. destruct (sm_mem m k) eqn:E; auto.
    apply sm_mem_get in E. destruct E as (v0 & E). apply sm_get_some in E.
    split; cbn [sm_slots sm_free].
    - rewrite nth_error_set_nth. destruct (Nat.eqb_spec (k_idx k) 0) as [H|H].
      + rewrite H, (wf_sentinel _ W) in E. discriminate.
      + apply W.
    - intros i Hi. destruct (wf_free _ W i Hi) as (? & s & Hs & Hn). split; auto. exists s; split; auto.
      rewrite nth_error_set_nth. destruct (Nat.eqb_spec (k_idx k) i); auto. subst. rewrite E in Hs.
      inversion Hs; subst; discriminate.
    - apply W.
  Qed.

  Lemma sm_set_free m k v : sm_free (sm_set m k v) = sm_free m.
  Proof. unfold sm_set. destruct (sm_mem m k); auto. Qed.

  Lemma issued_set m k v k' : sm_issued (sm_set m k v) k' <-> sm_issued m k'.
  Proof.
    unfold sm_set. destruct (sm_mem m k) eqn:E; try tauto.
    apply sm_mem_get in E. destruct E as (v0 & E). apply sm_get_some in E.
    unfold sm_issued; simpl. rewrite nth_error_set_nth.
    destruct (Nat.eqb_spec (k_idx k) (k_idx k')) as [H|H]; try tauto.
    assert (k_idx k < length (sm_slots m)) as Hl by (apply nth_error_Some; congruence).
    apply Nat.ltb_lt in Hl. rewrite Hl. rewrite <- H, E.
    split; intros (s & Hs & Hv); inversion Hs; subst; simpl in *; eexists; split; eauto.
  Qed.

  Lemma next_key_set m k v : sm_wf m -> sm_next_key (sm_set m k v) = sm_next_key m.
  Proof.
    intros W. unfold sm_next_key. rewrite sm_set_free. unfold sm_set.
    destruct (sm_mem m k) eqn:E; auto. simpl. destruct (sm_free m) as [|i l] eqn:E2.
    - rewrite set_nth_length. auto.
    - rewrite nth_error_set_nth. destruct (Nat.eqb_spec (k_idx k) i); auto. subst.
      apply sm_mem_get in E. destruct E as (v0 & E). apply sm_get_some in E.
      destruct (wf_free _ W (k_idx k)) as (? & s & Hs & Hn). { rewrite E2; simpl; auto. }
      rewrite Hs in E. inversion E; subst. discriminate.
  Qed.

  (** ** remove *)
  Lemma sm_get_remove m k k' :
    sm_get (sm_remove m k) k' = if key_eqb k k' then None else sm_get m k'.
  Proof.
    unfold sm_remove. destruct (sm_mem m k) eqn:E.
    2: { unfold sm_mem in E. destruct (key_eqb_spec k k'); auto. subst. destruct (sm_get m k'); auto; discriminate. }
    apply sm_mem_get in E. destruct E as (v0 & E). apply sm_get_some in E.
    unfold sm_get, key_eqb; cbn [sm_slots]. rewrite nth_error_set_nth.
    destruct (Nat.eqb_spec (k_idx k) (k_idx k')) as [H|H]; cbn [andb]; auto.
    replace (Nat.ltb (k_idx k) (length (sm_slots m))) with true.
    2: { symmetry. apply Nat.ltb_lt. apply nth_error_Some. congruence. }
    cbn [s_ver s_val]. rewrite <- H, E. cbn [s_ver s_val].
    destruct (Nat.eqb (k_ver k) (k_ver k')); destruct (Nat.eqb (S (k_ver k)) (k_ver k')); auto.
  Qed.

  Lemma sm_wf_remove m k : sm_wf m -> sm_wf (sm_remove m k).
  Proof.
    intros W. unfold sm_remove. destruct (sm_mem m k) eqn:E; auto.
    apply sm_mem_get in E. destruct E as (v0 & E). apply sm_get_some in E.
    assert (k_idx k <> 0) as Hk. { intros H. rewrite H, (wf_sentinel _ W) in E. discriminate. }
    split; cbn [sm_slots sm_free].
    - rewrite nth_error_set_nth. destruct (Nat.eqb_spec (k_idx k) 0) as [H|H]; try tauto. apply W.
    - intros i [<-|Hi].
      + split; try lia. rewrite nth_error_set_nth, Nat.eqb_refl.
        assert (k_idx k < length (sm_slots m)) as Hl by (apply nth_error_Some; congruence).
        apply Nat.ltb_lt in Hl. rewrite Hl. eauto.
      + destruct (wf_free _ W i Hi) as (? & s & Hs & Hn). split; auto.
        rewrite nth_error_set_nth. destruct (Nat.eqb_spec (k_idx k) i); eauto. subst. rewrite E in Hs.
        inversion Hs; subst; discriminate.
    - constructor; [|apply W]. intros Hi.
      destruct (wf_free _ W _ Hi) as (? & s & Hs & Hn). rewrite E in Hs. inversion Hs; subst; discriminate.
  Qed.

  Lemma issued_remove m k k' : sm_issued m k' -> sm_issued (sm_remove m k) k'.
  Proof.
    unfold sm_remove. destruct (sm_mem m k) eqn:E; auto.
    apply sm_mem_get in E. destruct E as (v0 & E). apply sm_get_some in E.
    intros (s & Hs & Hv). unfold sm_issued; simpl. rewrite nth_error_set_nth.
    destruct (Nat.eqb_spec (k_idx k) (k_idx k')) as [H|H]; eauto.
    assert (k_idx k < length (sm_slots m)) as Hl by (apply nth_error_Some; congruence).
    apply Nat.ltb_lt in Hl. rewrite Hl. eexists; split; eauto. simpl.
    rewrite <- H, E in Hs. inversion Hs; subst. simpl in *. lia.
  Qed.

  (** ** map and update *)
  Lemma sm_get_map f m k : sm_get (sm_map f m) k = option_map f (sm_get m k).
  Proof.
    unfold sm_get, sm_map; simpl. rewrite nth_error_map. destruct (nth_error _ _) as [s|]; simpl; auto.
    destruct (Nat.eqb _ _); auto.
  Qed.
  Lemma sm_wf_map f m : sm_wf m -> sm_wf (sm_map f m).
  Proof.
    intros W. split; cbn [sm_slots sm_free sm_map].
    - rewrite nth_error_map, (wf_sentinel _ W). auto.
    - intros i Hi. destruct (wf_free _ W i Hi) as (? & s & Hs & Hn). split; auto.
      rewrite nth_error_map, Hs. simpl. eexists; split; eauto. simpl. rewrite Hn. auto.
    - apply W.
  Qed.
  Lemma issued_map f m k : sm_issued (sm_map f m) k <-> sm_issued m k.
  Proof.
    unfold sm_issued, sm_map; simpl. rewrite nth_error_map.
    destruct (nth_error _ _) as [s|]; simpl; split; intros (s' & Hs & Hv); inversion Hs; subst; eexists; split; eauto.
  Qed.

  Lemma sm_get_upd m k f k' :
    sm_get (sm_upd m k f) k' = if key_eqb k k' then option_map f (sm_get m k') else sm_get m k'.
  Proof.
    unfold sm_upd. destruct (sm_get m k) eqn:E.
    - rewrite sm_get_set. unfold sm_mem. rewrite E, andb_true_r.
      destruct (key_eqb_spec k k'); auto. subst. rewrite E. auto.
    - destruct (key_eqb_spec k k'); auto. subst. rewrite E. auto.
  Qed.
  Lemma sm_wf_upd m k f : sm_wf m -> sm_wf (sm_upd m k f).
  Proof. intros W. unfold sm_upd. destruct (sm_get m k); auto. apply sm_wf_set; auto. Qed.
  Lemma issued_upd m k f k' : sm_issued (sm_upd m k f) k' <-> sm_issued m k'.
  Proof. unfold sm_upd. destruct (sm_get m k); try tauto. apply issued_set. Qed.
  Lemma sm_mem_upd m k f k' : sm_mem (sm_upd m k f) k' = sm_mem m k'.
  Proof. unfold sm_upd. destruct (sm_get m k); auto. apply sm_mem_set. Qed.

  (** ** entries *)
  Lemma in_entries_from i (l : list (slot V)) k v :
    In (k, v) (entries_from i l) <->
    exists n, k_idx k = i + n /\ nth_error l n = Some (Slot (k_ver k) (Some v)).
  Proof.
    revert i; induction l as [|s l IH]; intros i; simpl.
    - split; [tauto|]. intros ([|n] & _ & H); discriminate.
    - destruct s as [ver [v0|]]; simpl; rewrite IH.
      + split.
        * intros [H|(n & H1 & H2)]. { inversion H; subst. exists 0. simpl. split; auto. }
          exists (S n). split; auto. lia.
        * intros ([|n] & H1 & H2); simpl in *.
          -- left. inversion H2; subst. destruct k; simpl in *. f_equal. f_equal. lia.
          -- right. exists n. split; auto. lia.
      + split.
        * intros (n & H1 & H2). exists (S n). split; auto. lia.
        * intros ([|n] & H1 & H2); simpl in *; try discriminate. exists n. split; auto. lia.
  Qed.

  Lemma in_entries m k v : In (k, v) (sm_entries m) <-> sm_get m k = Some v.
  Proof.
    unfold sm_entries. rewrite in_entries_from, sm_get_some. simpl. split.
    - intros (n & -> & H). auto.
    - intros H. eauto.
  Qed.

  Lemma in_keys m k : In k (sm_keys m) <-> sm_mem m k = true.
  Proof.
    unfold sm_keys. rewrite in_map_iff, sm_mem_get. split.
    - intros ([k' v] & <- & H). apply in_entries in H. eauto.
    - intros (v & H). apply in_entries in H. exists (k, v). auto.
  Qed.

  Lemma in_values m v : In v (sm_values m) <-> exists k, sm_get m k = Some v.
  Proof.
    unfold sm_values. rewrite in_map_iff. split.
    - intros ([k v'] & <- & H). apply in_entries in H. eauto.
    - intros (k & H). apply in_entries in H. exists (k, v). auto.
  Qed.

  Lemma entries_from_keys_lt i (l : list (slot V)) kv : In kv (entries_from i l) -> i <= k_idx (fst kv).
  Proof. destruct kv. rewrite in_entries_from. simpl. intros (n & H & _). lia. Qed.

  Lemma nodup_keys m : NoDup (sm_keys m).
  Proof.
    unfold sm_keys, sm_entries. generalize 0. induction (sm_slots m) as [|s l IH]; intros i; simpl.
    - constructor.
    - destruct (s_val s); simpl; auto. constructor; auto.
      rewrite in_map_iff. intros (kv & H1 & H2). apply entries_from_keys_lt in H2. rewrite H1 in H2. simpl in H2. lia.
  Qed.
End SM.

(** ** Loops over a slot map *)
Section MapS.
  Context {V S_ : Type}.
  Variable f : S_ -> key -> V -> res (S_ * V).

  (** Two maps with the same keys, in the same slots. *)
  Definition same_shape (m m' : slotmap V) : Prop :=
    sm_free m = sm_free m' /\
    Forall2 (fun s s' => s_ver s = s_ver s' /\ (s_val s = None <-> s_val s' = None)) (sm_slots m) (sm_slots m').

  Lemma slots_mapS_shape i l s s' l' :
    slots_mapS f i l s = Ok (s', l') ->
    Forall2 (fun s s' => s_ver s = s_ver s' /\ (s_val s = None <-> s_val s' = None)) l l'.
  Proof.
    revert i s s' l'; induction l as [|sl l IH]; intros i s s' l' H; simpl in H.
    - inv_bind. constructor.
    - destruct (s_val sl) eqn:E.
      + inv_bind. destruct x0. simpl in *; constructor; eauto. simpl. rewrite E. split; auto. split; discriminate.
      + inv_bind. destruct x. simpl in *; constructor; eauto. simpl. tauto.
  Qed.

  Lemma sm_mapS_shape m s s' m' : sm_mapS f m s = Ok (s', m') -> same_shape m m'.
  Proof.
    unfold sm_mapS. intros H. inv_bind. destruct x; simpl in *. split; simpl; auto.
    eapply slots_mapS_shape; eauto.
  Qed.

  (** Induction over the loop: [P done todo s]. *)
  Lemma slots_mapS_ind (P : list (key * V) -> list (key * V) -> S_ -> Prop) i l s s' l' acc :
    (forall done k v todo s s' v', P done ((k, v) :: todo) s -> f s k v = Ok (s', v') ->
                                   P (done ++ [(k, v')]) todo s') ->
    slots_mapS f i l s = Ok (s', l') ->
    P acc (entries_from i l) s -> P (acc ++ entries_from i l') [] s'.
  Proof.
    intros Hf. revert i s s' l' acc; induction l as [|sl l IH]; intros i s s' l' acc H HP; simpl in H.
    - inversion H; subst. simpl in *. rewrite app_nil_r. auto.
    - simpl in HP. destruct (s_val sl) eqn:E.
      + inv_bind. destruct x as [s1 v1], x0 as [s2 l2]. simpl in *.
        replace (acc ++ (Key i (s_ver sl), v1) :: entries_from (S i) l2)
          with ((acc ++ [(Key i (s_ver sl), v1)]) ++ entries_from (S i) l2) by (rewrite <- app_assoc; auto).
        eapply IH; eauto.
      + inv_bind. destruct x as [s1 l1]. simpl in *. simpl. rewrite E. eapply IH; eauto.
  Qed.

  Lemma sm_mapS_ind (P : list (key * V) -> list (key * V) -> S_ -> Prop) m s s' m' :
    (forall done k v todo s s' v', P done ((k, v) :: todo) s -> f s k v = Ok (s', v') ->
                                   P (done ++ [(k, v')]) todo s') ->
    sm_mapS f m s = Ok (s', m') ->
    P [] (sm_entries m) s -> P (sm_entries m') [] s'.
  Proof.
    intros Hf H HP. unfold sm_mapS in H. inv_bind. destruct x as [s1 l1]. simpl in *.
    unfold sm_entries; simpl. eapply (slots_mapS_ind P 0 _ _ _ _ []); eauto.
  Qed.

  (** Each value of the result comes from one call, made in a state satisfying the invariant. *)
  Lemma slots_mapS_pointwise (I : S_ -> Prop) i l s s' l' :
    (forall s k v s' v', In (k, v) (entries_from i l) -> I s -> f s k v = Ok (s', v') -> I s') ->
    I s -> slots_mapS f i l s = Ok (s', l') ->
    I s' /\
    (forall k v, In (k, v) (entries_from i l) ->
       exists s1 s2 v', I s1 /\ I s2 /\ f s1 k v = Ok (s2, v') /\ In (k, v') (entries_from i l')) /\
    (forall k v', In (k, v') (entries_from i l') ->
       exists s1 s2 v, I s1 /\ I s2 /\ f s1 k v = Ok (s2, v') /\ In (k, v) (entries_from i l)).
  Proof.
    revert i s s' l'; induction l as [|sl l IH]; intros i s s' l' Hf Hs H; simpl in H.
    - inversion H; subst. simpl. tauto.
    - destruct (s_val sl) as [v0|] eqn:E.
      + inv_bind. destruct x as [s1 v1], x0 as [s2 l2]. simpl in *. rewrite E in Hf.
        rewrite E. assert (I s1). { eapply (Hf s); simpl; eauto. }
        destruct (IH (S i) s1 s2 l2) as (H1 & H2 & H3); eauto.
        { intros; eapply Hf; simpl; eauto. }
        split; auto. split.
        * intros k v [Hk|Hk]. { inversion Hk; subst. exists s, s1, v1. repeat split; simpl; auto. }
          destruct (H2 k v Hk) as (a & b & c & ? & ? & ? & ?). exists a, b, c. repeat split; simpl; auto.
        * intros k v [Hk|Hk]. { inversion Hk; subst. exists s, s1, v0. repeat split; simpl; auto. }
          destruct (H3 k v Hk) as (a & b & c & ? & ? & ? & ?). exists a, b, c. repeat split; simpl; auto.
      + inv_bind. destruct x as [s1 l1]. simpl in *. simpl in *. rewrite E in Hf |- *.
        eapply IH; eauto.
  Qed.

  Lemma sm_mapS_pointwise (I : S_ -> Prop) m s s' m' :
    (forall s k v s' v', sm_get m k = Some v -> I s -> f s k v = Ok (s', v') -> I s') ->
    I s -> sm_mapS f m s = Ok (s', m') ->
    I s' /\
    (forall k v, sm_get m k = Some v ->
       exists s1 s2 v', I s1 /\ I s2 /\ f s1 k v = Ok (s2, v') /\ sm_get m' k = Some v') /\
    (forall k v', sm_get m' k = Some v' ->
       exists s1 s2 v, I s1 /\ I s2 /\ f s1 k v = Ok (s2, v') /\ sm_get m k = Some v).
  Proof.
    intros Hf Hs H. unfold sm_mapS in H. inv_bind. destruct x as [s1 l1]. simpl in *.
    simpl in *. destruct (slots_mapS_pointwise I 0 (sm_slots m) s s1 l1) as (H1 & H2 & H3); auto.
    { intros s0 k v s2 v' Hin. apply in_entries in Hin. eauto. }
    split; auto. split; intros k v Hk.
    - apply in_entries in Hk. destruct (H2 _ _ Hk) as (a & b & c & ? & ? & ? & Hc).
      exists a, b, c. repeat split; auto. apply in_entries; auto.
    - apply in_entries in Hk. destruct (H3 _ _ Hk) as (a & b & c & ? & ? & ? & Hc).
      exists a, b, c. repeat split; auto. apply in_entries; auto.
  Qed.

  Lemma slots_mapS_panic (I : S_ -> Prop) (Q : panic -> Prop) i l s p :
    (forall s k v s' v', In (k, v) (entries_from i l) -> I s -> f s k v = Ok (s', v') -> I s') ->
    (forall s k v p, In (k, v) (entries_from i l) -> I s -> f s k v = Panic p -> Q p) ->
    I s -> slots_mapS f i l s = Panic p -> Q p.
  Proof.
    revert i s; induction l as [|sl l IH]; intros i s Hf Hp Hs H; simpl in H; try discriminate.
    simpl in Hf, Hp. destruct (s_val sl) as [v|] eqn:E.
    - apply bind_panic in H. destruct H as [H|([s1 v1] & H1 & H)].
      + eapply (Hp s); simpl; eauto.
      + apply bind_panic in H. destruct H as [H|(r & _ & H)]; try discriminate.
        eapply (IH (S i) s1); eauto; intros; [eapply Hf|eapply Hp|eapply Hf]; simpl; eauto.
    - apply bind_panic in H. destruct H as [H|(r & _ & H)]; try discriminate. eapply IH; eauto.
  Qed.

  Lemma sm_mapS_panic (I : S_ -> Prop) (Q : panic -> Prop) m s p :
    (forall s k v s' v', sm_get m k = Some v -> I s -> f s k v = Ok (s', v') -> I s') ->
    (forall s k v p, sm_get m k = Some v -> I s -> f s k v = Panic p -> Q p) ->
    I s -> sm_mapS f m s = Panic p -> Q p.
  Proof.
    intros Hf Hp Hs H. unfold sm_mapS in H. apply bind_panic in H.
    destruct H as [H|(r & _ & H)]; try discriminate.
    eapply (slots_mapS_panic I Q 0); eauto; intros s0 k v; intros.
    - eapply Hf; eauto. apply in_entries; auto.
    - eapply Hp; eauto. apply in_entries; auto.
  Qed.

  Lemma slots_mapS_total (I : S_ -> Prop) i l s :
    (forall s k v, In (k, v) (entries_from i l) -> I s -> exists s' v', f s k v = Ok (s', v') /\ I s') ->
    I s -> exists s' l', slots_mapS f i l s = Ok (s', l') /\ I s'.
  Proof.
    revert i s; induction l as [|sl l IH]; intros i s Hf Hs; simpl; eauto.
    simpl in Hf. destruct (s_val sl) as [v|] eqn:E.
    - destruct (Hf s (Key i (s_ver sl)) v) as (s1 & v1 & -> & H1); simpl; auto.
      destruct (IH (S i) s1) as (s2 & l2 & -> & H2); simpl; eauto. intros; apply Hf; simpl; auto.
    - destruct (IH (S i) s) as (s2 & l2 & -> & H2); simpl; eauto.
  Qed.

  Lemma sm_mapS_total (I : S_ -> Prop) m s :
    (forall s k v, sm_get m k = Some v -> I s -> exists s' v', f s k v = Ok (s', v') /\ I s') ->
    I s -> exists s' m', sm_mapS f m s = Ok (s', m') /\ I s'.
  Proof.
    intros Hf Hs. destruct (slots_mapS_total I 0 (sm_slots m) s) as (s' & l' & H & H'); auto.
    { intros s0 k v Hin. apply in_entries in Hin. eauto. }
    unfold sm_mapS. rewrite H. simpl. eauto.
  Qed.
End MapS.

Section Shape.
  Context {V : Type}.
  Implicit Types (m : slotmap V).

  Lemma shape_nth m m' i s : same_shape m m' -> nth_error (sm_slots m) i = Some s ->
    exists s', nth_error (sm_slots m') i = Some s' /\ s_ver s = s_ver s' /\ (s_val s = None <-> s_val s' = None).
  Proof.
    intros (_ & H). revert i. induction H; intros [|i] Hi; simpl in *; try discriminate.
    - inversion Hi; subst. eauto.
    - auto.
  Qed.
  Lemma shape_sym m m' : same_shape m m' -> same_shape m' m.
  Proof.
    intros (H1 & H2). split; auto. induction H2; constructor; auto. intuition.
  Qed.
  Lemma shape_mem m m' k : same_shape m m' -> sm_mem m k = sm_mem m' k.
  Proof.
    assert (forall m m', same_shape m m' -> sm_mem m k = true -> sm_mem m' k = true) as A.
    { intros a b H Hm. apply sm_mem_get in Hm. destruct Hm as (v & Hv). apply sm_get_some in Hv.
      destruct (shape_nth _ _ _ _ H Hv) as ([ver o] & H1 & H2 & H3). simpl in *. subst.
      destruct o as [v'|].
      - apply sm_mem_get. exists v'. apply sm_get_some. auto.
      - destruct H3 as [_ H3]. discriminate H3; auto. }
    intros H. destruct (sm_mem m k) eqn:E.
    - symmetry. eapply A; eauto.
    - destruct (sm_mem m' k) eqn:E2; auto. apply (A m' m) in E2; [congruence|]. apply shape_sym; auto.
  Qed.
  Lemma shape_wf m m' : same_shape m m' -> sm_wf m -> sm_wf m'.
  Proof.
    intros H W. split.
    - destruct (shape_nth _ _ _ _ H (wf_sentinel _ W)) as ([v o] & H1 & H2 & H3). simpl in *.
      rewrite H1. f_equal. destruct H3 as [H3 _]. rewrite H3 by auto. subst; auto.
    - destruct H as (E & H). rewrite <- E. intros i Hi. destruct (wf_free _ W i Hi) as (? & s & Hs & Hn).
      split; auto. destruct (shape_nth m m' i s) as (s' & H1 & H2 & H3); [split; auto|auto|].
      exists s'. split; auto. apply H3; auto.
    - destruct H as (E & _). rewrite <- E. apply W.
  Qed.
  Lemma shape_issued m m' k : same_shape m m' -> sm_issued m k -> sm_issued m' k.
  Proof.
    intros H (s & Hs & Hv). destruct (shape_nth _ _ _ _ H Hs) as (s' & H1 & H2 & H3).
    exists s'. split; auto. congruence.
  Qed.
  Lemma shape_refl m : same_shape m m.
  Proof. split; auto. induction (sm_slots m); constructor; auto. tauto. Qed.
  Lemma shape_trans m1 m2 m3 : same_shape m1 m2 -> same_shape m2 m3 -> same_shape m1 m3.
  Proof.
    intros (A1 & A2) (B1 & B2). split; [congruence|]. revert B2. generalize (sm_slots m3).
    induction A2; intros l'' B2; inversion B2; subst; constructor; auto. intuition congruence.
  Qed.
  Lemma shape_set m k v : same_shape m (sm_set m k v).
  Proof.
    unfold sm_set. destruct (sm_mem m k) eqn:E; [|apply shape_refl].
    apply sm_mem_get in E. destruct E as (v0 & E). apply sm_get_some in E.
    split; simpl; auto. revert E. generalize (k_idx k). induction (sm_slots m) as [|s l IH]; intros [|n] E; simpl in *; try discriminate.
    - inversion E; subst. constructor; simpl. { split; auto. split; discriminate. }
      clear. induction l; constructor; auto. tauto.
    - constructor; auto. tauto.
  Qed.
  Lemma shape_upd m k f : same_shape m (sm_upd m k f).
  Proof. unfold sm_upd. destruct (sm_get m k); [apply shape_set|apply shape_refl]. Qed.
  Lemma shape_map m f : same_shape m (sm_map f m).
  Proof.
    split; simpl; auto. induction (sm_slots m); constructor; auto. simpl.
    destruct (s_val a); simpl; split; auto; split; discriminate || auto.
  Qed.
  Lemma shape_next_key m m' : same_shape m m' -> sm_next_key m = sm_next_key m'.
  Proof.
    intros H. pose proof H as (E & F). unfold sm_next_key. rewrite <- E. destruct (sm_free m) as [|i l].
    - f_equal. eapply Forall2_len; eauto.
    - destruct (nth_error (sm_slots m) i) eqn:E1.
      + destruct (shape_nth _ _ _ _ H E1) as (s' & -> & -> & _). auto.
      + assert (nth_error (sm_slots m') i = None) as ->; auto.
        apply nth_error_None. apply nth_error_None in E1. apply Forall2_len in F. lia.
  Qed.
  Lemma shape_keys m m' : same_shape m m' -> sm_keys m = sm_keys m'.
  Proof.
    intros (_ & F). unfold sm_keys, sm_entries. generalize 0. induction F as [|s s' l l' (H1 & H2) F IH]; intros i; simpl; auto.
    destruct (s_val s) eqn:E1, (s_val s') eqn:E2; simpl; try (rewrite H1; f_equal; auto); auto.
    - destruct H2 as [_ H2]. discriminate H2; auto.
    - destruct H2 as [H2 _]. discriminate H2; auto.
  Qed.
End Shape.
