(** * C32: looking up the projection between two lanes of a group *)
From Coq Require Import List Bool ZArith NArith Arith Lia.
From Verif Require Import Arith Base BaseProofs SlotMap SlotMapProofs Util Geom Light Accel Net Path Vehicle LinkOps Sim SpecSim Safe NetInv SimInv AccSafe SimSafe StepSafe OpSafe Evo StepEvo SimProofs StepProofs NetEvo F64 SimExample SpecRoute P_Lane P_Sim.
Import ListNotations.

Lemma row_eq ids i k : NoDup ids -> nth_error ids i = Some k ->
  filter (fun sd => negb (key_eqb (fst sd) (snd sd))) (map (fun y => (k, y)) ids) = map (fun y => (k, y)) (remove_at i ids).
Proof.
  assert (forall ids, ~ In k ids -> filter (fun sd => negb (key_eqb (fst sd) (snd sd))) (map (fun y => (k, y)) ids) = map (fun y => (k, y)) ids) as Z.
  { clear. induction ids as [|x ids IH]; simpl; auto. intros H. destruct (key_eqb_spec k x); [subst; tauto|]. simpl. rewrite IH; tauto. }
  intros N. revert i. induction N as [|x ids Hx N IH]; intros i Hi; [destruct i; discriminate|]. destruct i as [|i]; simpl in Hi.
  - injection Hi as ->. cbn [map filter fst snd]. rewrite key_eqb_refl. simpl. apply Z. auto.
  - cbn [map filter fst snd]. assert (In k ids) by (eapply nth_error_In; eauto). destruct (key_eqb_spec k x); [subst; tauto|]. cbn [negb].
    rewrite (IH _ Hi). reflexivity.
Qed.
Lemma nth_concat {X Y} (f : X -> list Y) n l i j x : (forall x, In x l -> length (f x) = n) -> nth_error l i = Some x -> j < n ->
  nth_error (flat_map f l) (n * i + j) = nth_error (f x) j.
Proof.
  revert i. induction l as [|y l IH]; intros i H Hi Hj; [destruct i; discriminate|]. destruct i as [|i]; simpl in Hi.
  - injection Hi as ->. rewrite Nat.mul_0_r. simpl. apply nth_error_app1. rewrite H; simpl; auto.
  - simpl. rewrite nth_error_app2; rewrite (H y) by (simpl; auto); [|lia]. replace (n * S i + j - n) with (n * i + j) by lia.
    apply IH; auto. intros; apply H; simpl; auto.
Qed.
Lemma nth_remove_at {X} i (l : list X) j : i < length l -> nth_error (remove_at i l) j = nth_error l (if j <? i then j else S j).
Proof.
  unfold remove_at. revert i j. induction l as [|x l IH]; intros i j H; simpl in H; [lia|]. destruct i as [|i]; [reflexivity|].
  destruct j as [|j]; [reflexivity|]. cbn [firstn skipn app nth_error]. rewrite IH by lia. change (S j <? S i) with (j <? i). destruct (j <? i); reflexivity.
Qed.
Lemma pairs_nth ids i j k : NoDup ids -> nth_error ids i = Some k -> j < length ids - 1 ->
  nth_error (pairs ids) ((length ids - 1) * i + j) = option_map (fun y => (k, y)) (nth_error ids (if j <? i then j else S j)).
Proof.
  intros N Hi Hj. unfold pairs. rewrite list_prod_row. rewrite (nth_concat _ (length ids - 1) ids i j k); auto.
  - rewrite (row_eq ids i k N Hi). rewrite nth_error_map. rewrite nth_remove_at; auto. apply nth_error_Some. congruence.
  - intros x Hx. apply row_length; auto.
Qed.
Lemma find_nth {A : Arith} (g : group) i k : NoDup (g_links g) -> nth_error (g_links g) i = Some k -> find_link g k = Some i.
Proof.
  intros N H. destruct (find_link_in g k (nth_error_In _ _ H)) as (j & E & Hj). rewrite E. f_equal.
  eapply NoDup_nth_error; eauto; [apply nth_error_Some|]; congruence.
Qed.
Lemma proj_at {A : Arith} V (g : group) m s d : group_ok V g -> nth_error (pairs (g_links g)) m = Some (s, d) ->
  exists p, nth_error (g_projs g) m = Some p /\ pj_src p = s /\ pj_dst p = d.
Proof.
  intros G H. pose proof (go_projs _ _ G) as F. destruct (nth_error (g_projs g) m) as [p|] eqn:E.
  - exists p. split; auto. exact (Forall2_nth _ _ _ _ _ _ F H E).
  - apply nth_error_None in E. rewrite <- (Forall2_len _ _ _ F) in E. assert (m < length (pairs (g_links g))) by (apply nth_error_Some; congruence). lia.
Qed.

Lemma nth_firstn {X} n (l : list X) m : m < n -> nth_error (firstn n l) m = nth_error l m.
Proof. revert l m. induction n; intros [|x l] [|m] H; simpl; auto; try lia. apply IHn. lia. Qed.
Lemma nth_ext_opt {X} (a b : list X) : (forall m, nth_error a m = nth_error b m) -> a = b.
Proof.
  revert b. induction a as [|x a IH]; intros [|y b] H; auto; try (specialize (H 0); discriminate).
  pose proof (H 0) as E. simpl in E. injection E as ->. f_equal. apply IH. intros m. apply (H (S m)).
Qed.
Lemma Forall2_firstn {X Y} (R : X -> Y -> Prop) n a b : Forall2 R a b -> Forall2 R (firstn n a) (firstn n b).
Proof. intros H. revert n. induction H; intros [|n]; simpl; constructor; auto. Qed.
Lemma Forall2_skipn {X Y} (R : X -> Y -> Prop) n a b : Forall2 R a b -> Forall2 R (skipn n a) (skipn n b).
Proof. intros H. revert n. induction H; intros [|n]; simpl; auto. Qed.

(** In a group of different lanes of a reachable simulation, a projection to a lane on the left is the right one. *)
Theorem C32_left :
  forall (A : Arith) s k l g i j a b, reachable s -> link_at s k = Some l -> lk_group l = Some g -> NoDup (g_links g) ->
    nth_error (g_links g) i = Some a -> nth_error (g_links g) j = Some b -> j < i ->
    exists p, g_projection g a b = Ok p /\ pj_src p = a /\ pj_dst p = b.
Proof.
  intros A s k l g i j a b R G Eg N Ha Hb L. pose proof (reachable_Inv _ R) as I.
  destruct (lo_group _ _ _ (nk_link _ (st_net _ _ _ (i_st _ I)) _ _ G) _ Eg) as (GO & _).
  unfold g_projection. rewrite (find_nth _ _ _ N Ha), (find_nth _ _ _ N Hb). cbn [of_option bind].
  assert (i < length (g_links g)) by (apply nth_error_Some; congruence).
  destruct (proj_at _ g ((length (g_links g) - 1) * i + j) a b GO) as (p & E & Es & Ed).
  - rewrite (pairs_nth _ _ _ _ N Ha) by lia. destruct (Nat.ltb_spec j i); [|lia]. rewrite Hb. reflexivity.
  - exists p. rewrite E. auto.
Qed.
Print Assumptions C32_left.
(** To a lane on the right it is always another projection: the one onto the lane after that, or, for the last
    lane, the one from the next lane to the first. *)
Theorem C32_right_refuted :
  forall (A : Arith) s k l g i j a b, reachable s -> link_at s k = Some l -> lk_group l = Some g -> NoDup (g_links g) ->
    nth_error (g_links g) i = Some a -> nth_error (g_links g) j = Some b -> i < j ->
    exists p, g_projection g a b = Ok p /\
      (pj_src p = a /\ nth_error (g_links g) (S j) = Some (pj_dst p) \/
       S j = length (g_links g) /\ nth_error (g_links g) (S i) = Some (pj_src p) /\ nth_error (g_links g) 0 = Some (pj_dst p)) /\
      ~ (pj_src p = a /\ pj_dst p = b).
Proof.
  intros A s k l g i j a b R G Eg N Ha Hb L. pose proof (reachable_Inv _ R) as I.
  destruct (lo_group _ _ _ (nk_link _ (st_net _ _ _ (i_st _ I)) _ _ G) _ Eg) as (GO & _).
  unfold g_projection. rewrite (find_nth _ _ _ N Ha), (find_nth _ _ _ N Hb). cbn [of_option bind].
  set (n := length (g_links g)) in *. assert (j < n) by (apply nth_error_Some; congruence).
  assert (forall x y c, nth_error (g_links g) x = Some c -> nth_error (g_links g) y = Some c -> x = y) as Inj.
  { intros x y c H1 H2. eapply NoDup_nth_error; eauto; [apply nth_error_Some|]; congruence. }
  destruct (Nat.eq_dec (S j) n) as [E|E].
  - destruct (nth_error (g_links g) (S i)) as [a'|] eqn:Ha'; [|apply nth_error_None in Ha'; lia].
    destruct (nth_error (g_links g) 0) as [b'|] eqn:Hb'; [|apply nth_error_None in Hb'; lia].
    destruct (proj_at _ g ((n - 1) * i + j) a' b' GO) as (p & Ep & Es & Ed).
    + replace ((n - 1) * i + j) with ((n - 1) * S i + 0) by lia. unfold n. rewrite (pairs_nth _ _ _ _ N Ha') by lia. change (0 <? S i) with true; cbv iota; rewrite Hb'. reflexivity.
    + exists p. rewrite Ep. split; auto. split; [right; repeat split; congruence|]. intros (Z & _). subst a'. assert (S i = i) by (eapply Inj; [exact Ha'|congruence]). lia.
  - destruct (nth_error (g_links g) (S j)) as [b'|] eqn:Hb'; [|apply nth_error_None in Hb'; lia].
    destruct (proj_at _ g ((n - 1) * i + j) a b' GO) as (p & Ep & Es & Ed).
    + unfold n. rewrite (pairs_nth _ _ _ _ N Ha) by lia. destruct (Nat.ltb_spec j i); [lia|]. rewrite Hb'. reflexivity.
    + exists p. rewrite Ep. split; auto. split; [left; split; congruence|]. intros (_ & Z). subst b'. assert (S j = j) by (eapply Inj; [exact Hb'|congruence]). lia.
Qed.
Print Assumptions C32_right_refuted.
(** The projections used to find obstacles are those from the link to every other lane, in order. *)
Theorem C32_from_link :
  forall (A : Arith) s k l g, reachable s -> link_at s k = Some l -> lk_group l = Some g -> NoDup (g_links g) ->
    exists ps, projections_from_link g k = Ok ps /\ Forall (fun p => pj_src p = k) ps /\
      map pj_dst ps = filter (fun x => negb (key_eqb k x)) (g_links g).
Proof.
  intros A s k l g R G Eg N. pose proof (reachable_Inv _ R) as I.
  destruct (lo_group _ _ _ (nk_link _ (st_net _ _ _ (i_st _ I)) _ _ G) _ Eg) as (GO & Hin).
  unfold projections_from_link. destruct (find_link_in g k Hin) as (i & -> & Hi). cbn [of_option bind].
  assert (i < length (g_links g)) as Li by (apply nth_error_Some; congruence). pose proof (go_projs _ _ GO) as F.
  assert (length (g_projs g) = length (g_links g) * (length (g_links g) - 1)) as Len by (rewrite <- (Forall2_len _ _ _ F), pairs_length; auto).
  destruct (Nat.leb_spec ((length (g_links g) - 1) * (i + 1)) (length (g_projs g))) as [_|B]; [|rewrite Len in B; nia].
  eexists. split; [reflexivity|]. set (n := length (g_links g) - 1) in *.
  assert (Forall2 (fun sd p => pj_src p = fst sd /\ pj_dst p = snd sd) (map (fun y => (k, y)) (remove_at i (g_links g))) (firstn n (skipn (n * i) (g_projs g)))) as F2.
  { assert (firstn n (skipn (n * i) (pairs (g_links g))) = map (fun y => (k, y)) (remove_at i (g_links g))) as <-.
    { apply nth_ext_opt. intros m. rewrite nth_error_map. destruct (Nat.lt_ge_cases m n) as [M|M].
      - rewrite nth_firstn by auto. rewrite nth_skipn. unfold n in *. rewrite (pairs_nth _ _ _ _ N Hi) by auto. rewrite nth_remove_at by auto. reflexivity.
      - replace (nth_error (firstn n (skipn (n * i) (pairs (g_links g)))) m) with (@None (key * key)) by (symmetry; apply nth_error_None; rewrite firstn_length; lia).
        rewrite nth_remove_at by auto. replace (m <? i) with false by (symmetry; apply Nat.ltb_ge; lia).
        replace (nth_error (g_links g) (S m)) with (@None key) by (symmetry; apply nth_error_None; lia). reflexivity. }
    apply Forall2_firstn, Forall2_skipn. exact F. }
  assert (filter (fun x => negb (key_eqb k x)) (g_links g) = remove_at i (g_links g)) as ->.
  { pose proof (row_eq _ _ _ N Hi) as E. apply (f_equal (map snd)) in E. rewrite map_map in E. cbn [snd] in E. rewrite map_id in E. rewrite <- E. clear.
    induction (g_links g) as [|x xs IH]; simpl; auto. destruct (key_eqb k x); simpl; congruence. }
  clear -F2. revert F2. generalize (firstn n (skipn (n * i) (g_projs g))) as ps. induction (remove_at i (g_links g)) as [|x xs IH]; intros ps F2; inversion F2; subst; [split; [constructor|reflexivity]|].
  simpl in *. destruct (IH _ H3) as (I1 & I2). split; [constructor; tauto|]. simpl. f_equal; [tauto|]. exact I2.
Qed.
Print Assumptions C32_from_link.
(** Three lanes in a reachable state: from the last to the first the lookup is right, from the first to the second it is not. *)
Example C32_example : exists s l g p q, reachable (A := F64) s /\ link_at s (nth_id 0) = Some l /\ lk_group l = Some g /\ NoDup (g_links g) /\
  g_projection g (nth_id 2) (nth_id 0) = Ok p /\ pj_dst p = nth_id 0 /\ g_projection g (nth_id 0) (nth_id 1) = Ok q /\ pj_dst q = nth_id 2.
Proof.
  destruct (okb_ok _ _ ex_three_ok) as (s & H0 & H). pose proof (run_history _ _ _ _ H0) as Hh. apply andb_prop in H. destruct H as (H & _). apply andb_prop in H. destruct H as (H1 & _).
  unfold lanes_b in H1. destruct (sm_get (s_links s) (nth_id 0)) as [l|] eqn:G; [|discriminate H1]. clear H1.
  assert (reachable (A := F64) s) as R by (eapply history_reachable; [exact Hh|constructor]).
  destruct (lanes_all _ _ Hh) as (_ & P2). destruct (P2 _ _ G) as (Q & _). change (group_of ex_three (nth_id 0)) with (Some ([nth_id 0; nth_id 1; nth_id 2], 26%N)) in Q.
  destruct (lk_group l) as [g|] eqn:Eg; [|discriminate Q]. cbn [option_map] in Q. injection Q as Q1 Q2.
  assert (NoDup (g_links g)) as N by (rewrite Q1; repeat constructor; cbv; intuition discriminate).
  destruct (C32_left _ s _ l g 2 0 (nth_id 2) (nth_id 0) R G Eg N) as (p & Ep & _ & Ed); try (rewrite Q1; reflexivity); [lia|].
  destruct (C32_right_refuted _ s _ l g 0 1 (nth_id 0) (nth_id 1) R G Eg N) as (q & Eq & [(_ & Hq)|(Hq & _)] & _); try (rewrite Q1; reflexivity); try lia; [|rewrite Q1 in Hq; discriminate Hq].
  exists s, l, g, p, q. rewrite Q1 in Hq. simpl in Hq. injection Hq as Hq. repeat split; auto.
Qed.
