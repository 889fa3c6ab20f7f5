(** * C26: lanes reachable by lane changes *)
From Coq Require Import List Bool ZArith NArith Arith Lia Relation_Operators.
From Verif Require Import Arith Base BaseProofs SlotMap SlotMapProofs Util Geom Light Accel Net Path Vehicle LinkOps Sim SpecSim Safe NetInv SimInv AccSafe SimSafe StepSafe OpSafe Evo StepEvo SimProofs StepProofs NetEvo F64 SimExample SpecRoute.
Import ListNotations.

Lemma walk_left_spec (f : nat -> bool) (test : nat -> res bool) i j :
  (forall k, 0 < k <= i -> test k = Ok (f k)) -> walk_left test i = Ok j ->
  j <= i /\ (forall k, j < k <= i -> f k = true) /\ (j = 0 \/ f j = false).
Proof.
  induction i as [|i IH]; intros T H; cbn [walk_left] in H.
  - injection H as <-. repeat split; [lia|intros; lia|auto].
  - rewrite (T (S i)) in H by lia. cbn [bind] in H. destruct (f (S i)) eqn:F.
    + apply IH in H; [|intros; apply T; lia]. destruct H as (L & B & C). repeat split; [lia| |auto].
      intros k Hk. destruct (Nat.eq_dec k (S i)) as [->|]; auto. apply B. lia.
    + injection H as <-. repeat split; [lia|intros; lia|auto].
Qed.
Lemma walk_right_spec (f : nat -> bool) (test : nat -> res bool) n i j :
  (forall k, i <= k < i + n -> test k = Ok (f k)) -> walk_right test n i = Ok j ->
  i <= j <= i + n /\ (forall k, i <= k < j -> f k = true) /\ (j = i + n \/ f j = false).
Proof.
  revert i. induction n as [|n IH]; intros i T H; cbn [walk_right] in H.
  - injection H as <-. repeat split; [lia|lia|intros; lia|lia].
  - rewrite (T i) in H by lia. cbn [bind] in H. destruct (f i) eqn:F.
    + apply IH in H; [|intros; apply T; lia]. destruct H as (L & B & C). split; [lia|]. split; [|destruct C; auto; lia].
      intros k Hk. destruct (Nat.eq_dec k i) as [->|]; auto. apply B. lia.
    + injection H as <-. repeat split; [lia|lia|intros; lia|auto].
Qed.
Lemma walk_left_total (f : nat -> bool) (test : nat -> res bool) i :
  (forall k, 0 < k <= i -> test k = Ok (f k)) -> exists j, walk_left test i = Ok j.
Proof.
  induction i as [|i IH]; intros T; cbn [walk_left]; eauto. rewrite T by lia. cbn [bind]. destruct (f (S i)); eauto.
  apply IH. intros; apply T; lia.
Qed.
Lemma walk_right_total (f : nat -> bool) (test : nat -> res bool) n i :
  (forall k, i <= k < i + n -> test k = Ok (f k)) -> exists j, walk_right test n i = Ok j.
Proof.
  revert i. induction n as [|n IH]; intros i T; cbn [walk_right]; eauto. rewrite T by lia. cbn [bind]. destruct (f i); eauto.
  apply IH. intros; apply T; lia.
Qed.


Lemma in_firstn_nth {X} n (l : list X) x : In x (firstn n l) <-> exists m, m < n /\ nth_error l m = Some x.
Proof.
  revert l. induction n as [|n IH]; intros [|y l]; simpl; split; try tauto.
  - intros (m & H & _). lia.
  - intros (m & H & _). lia.
  - intros (m & _ & E). destruct m; discriminate.
  - intros [->|H]; [exists 0; split; auto; lia|]. apply IH in H. destruct H as (m & H & E). exists (S m). split; auto. lia.
  - intros ([|m] & H & E); simpl in E; [injection E; auto|]. right. apply IH. exists m. split; auto. lia.
Qed.
Lemma nth_skipn {X} n (l : list X) m : nth_error (skipn n l) m = nth_error l (n + m).
Proof. revert l. induction n; intros [|x l]; simpl; auto. destruct m; auto. Qed.
Lemma in_slice {X} left right (l : list X) x : left <= right ->
  (In x (slice left right l) <-> exists m, left <= m <= right /\ nth_error l m = Some x).
Proof.
  intros H. unfold slice. rewrite in_firstn_nth. split; intros (m & Hm & E).
  - rewrite nth_skipn in E. exists (left + m). split; auto. lia.
  - exists (m - left). split; [lia|]. rewrite nth_skipn. replace (left + (m - left)) with m by lia. auto.
Qed.

(** ** Walking along neighbouring lanes *)
Section Walk.
  Variable n : nat.
  Variable R : nat -> nat -> Prop.
  Variables fl fr : nat -> bool.
  Hypothesis near : forall i j, R i j -> i = S j \/ j = S i.
  Hypothesis Rl : forall i, R (S i) i <-> fl (S i) = true.
  Hypothesis Rr : forall i, R i (S i) <-> fr i = true.
  Variables i left right : nat.
  Hypothesis Hi : i < n.
  Hypothesis Hl : left <= i /\ (forall k, left < k <= i -> fl k = true) /\ (left = 0 \/ fl left = false).
  Hypothesis Hr : i <= right <= n - 1 /\ (forall k, i <= k < right -> fr k = true) /\ (right = n - 1 \/ fr right = false).

  Lemma walk_in m : left <= m <= right -> clos_refl_trans nat (fun a b => a < n /\ b < n /\ R a b) i m.
  Proof.
    intros H. destruct (Nat.le_gt_cases m i) as [L|G].
    - assert (forall d, d <= i - left -> clos_refl_trans nat (fun a b => a < n /\ b < n /\ R a b) i (i - d)) as P.
      { induction d as [|d IH]; intros Hd; [rewrite Nat.sub_0_r; apply rt_refl|].
        eapply rt_trans; [apply IH; lia|]. apply rt_step. split; [lia|]. split; [lia|].
        replace (i - d) with (S (i - S d)) by lia. apply Rl. apply Hl. lia. }
      replace m with (i - (i - m)) by lia. apply P. lia.
    - assert (forall d, d <= right - i -> clos_refl_trans nat (fun a b => a < n /\ b < n /\ R a b) i (i + d)) as P.
      { induction d as [|d IH]; intros Hd; [rewrite Nat.add_0_r; apply rt_refl|].
        eapply rt_trans; [apply IH; lia|]. apply rt_step. split; [lia|]. split; [lia|].
        replace (i + S d) with (S (i + d)) by lia. apply Rr. apply Hr. lia. }
      replace m with (i + (m - i)) by lia. apply P. lia.
  Qed.
  Lemma walk_out m : clos_refl_trans nat (fun a b => a < n /\ b < n /\ R a b) i m -> left <= m <= right.
  Proof.
    intros H. apply Operators_Properties.clos_rt_rtn1 in H. induction H as [|m m' (B1 & B2 & St) _ IH]; [lia|].
    destruct (near _ _ St) as [->| ->].
    - destruct (Nat.eq_dec (S m') left) as [E|]; [|lia]. destruct Hl as (_ & _ & [Z|Z]); [lia|].
      apply Rl in St. rewrite E in St. congruence.
    - destruct (Nat.eq_dec m right) as [E|]; [|lia]. destruct Hr as (_ & _ & [Z|Z]); [lia|].
      apply Rr in St. rewrite E in St. congruence.
  Qed.
End Walk.

Lemma rt_flip {X} (R : X -> X -> Prop) a b : clos_refl_trans X R a b <-> clos_refl_trans X (fun x y => R y x) b a.
Proof.
  split; intros H; induction H as [x y H|x|x y z _ IH1 _ IH2]; [apply rt_step; exact H|apply rt_refl|exact (rt_trans _ _ _ _ _ IH2 IH1)|apply rt_step; exact H|apply rt_refl|exact (rt_trans _ _ _ _ _ IH2 IH1)].
Qed.
(** From lane numbers to links. *)
Lemma lift_reach (lanes : list key) (R : nat -> nat -> Prop) (S : key -> key -> Prop) i a :
  NoDup lanes -> nth_error lanes i = Some a ->
  (forall x y, S x y <-> exists i j, nth_error lanes i = Some x /\ nth_error lanes j = Some y /\ R i j) ->
  forall b, clos_refl_trans key S a b <->
    exists m, clos_refl_trans nat (fun p q => p < length lanes /\ q < length lanes /\ R p q) i m /\ nth_error lanes m = Some b.
Proof.
  intros N Ha HS b. split.
  - intros H. apply Operators_Properties.clos_rt_rtn1 in H. induction H as [|x y H _ IH].
    + exists i. split; auto. apply rt_refl.
    + destruct IH as (m & Hm & Ex). apply HS in H. destruct H as (p & q & Ep & Eq & Rpq).
      assert (p = m) as ->.
      { eapply NoDup_nth_error; eauto; [apply nth_error_Some|]; congruence. }
      exists q. split; auto. eapply rt_trans; [exact Hm|]. apply rt_step. repeat split; auto; apply nth_error_Some; congruence.
  - intros (m & Hm & Eb). apply Operators_Properties.clos_rt_rtn1 in Hm. revert b Eb. induction Hm as [|m m' (L1 & L2 & Rmm) _ IH]; intros b Eb.
    + replace b with a by congruence. apply rt_refl.
    + destruct (nth_error lanes m) as [x|] eqn:Ex; [|apply nth_error_None in Ex; lia].
      eapply rt_trans; [apply IH; eauto|]. apply rt_step. apply HS. eauto 10.
Qed.

Section Group.
  Context {A : Arith}.
  Lemma lc_bit_ok (g : group) i d : i < 16 ->
    lc_bit g i d = Ok (N.testbit (g_mask g) (N.of_nat (2 * i + match d with DLeft => 0 | DRight => 1 end))).
  Proof. intros H. unfold lc_bit. destruct (Nat.ltb_spec (2 * i + match d with DLeft => 0 | DRight => 1 end) 32); auto. destruct d; lia. Qed.

  Lemma lanes_from (g : group) i a : NoDup (g_links g) -> length (g_links g) <= 16 -> nth_error (g_links g) i = Some a ->
    exists lanes, g_reachable_lanes g i = Ok lanes /\ forall b, In b lanes <-> lane_reach (g_links g) (g_mask g) a b.
  Proof.
    intros N L Ha. assert (i < length (g_links g)) as Hi by (apply nth_error_Some; congruence).
    set (fl := fun i => N.testbit (g_mask g) (N.of_nat (2 * i + 0))). set (fr := fun i => N.testbit (g_mask g) (N.of_nat (2 * i + 1))).
    assert (forall k, 0 < k <= i -> lc_bit g k DLeft = Ok (fl k)) as Tl by (intros; apply (lc_bit_ok g k DLeft); lia).
    assert (forall k, i <= k < i + (length (g_links g) - 1 - i) -> lc_bit g k DRight = Ok (fr k)) as Tr by (intros; apply (lc_bit_ok g k DRight); lia).
    destruct (walk_left_total fl _ i Tl) as (left & WL). destruct (walk_right_total fr _ _ i Tr) as (right & WR).
    unfold g_reachable_lanes. cbv beta. rewrite WL. cbn [bind]. rewrite WR. cbn [bind]. eexists. split; [reflexivity|]. intros b.
    pose proof (walk_left_spec _ _ _ _ Tl WL) as SL. pose proof (walk_right_spec _ _ _ _ _ Tr WR) as SR.
    assert (i <= right <= length (g_links g) - 1 /\ (forall k, i <= k < right -> fr k = true) /\ (right = length (g_links g) - 1 \/ fr right = false)) as SR'.
    { destruct SR as (B1 & B2 & B3). repeat split; auto; try lia. destruct B3; auto; left; lia. }
    rewrite in_slice by lia. unfold lane_reach.
    rewrite (lift_reach (g_links g) (may_change (g_mask g)) (lane_step (g_links g) (g_mask g)) i a N Ha) by (intros; reflexivity).
    assert (forall p q, may_change (g_mask g) p q -> p = S q \/ q = S p) as near by (unfold may_change; tauto).
    assert (forall p, may_change (g_mask g) (S p) p <-> fl (S p) = true) as Rl.
    { intros p. unfold may_change, fl. rewrite Nat.add_0_r. split; [intros [(_ & H)|(H & _)]; auto; lia|auto]. }
    assert (forall p, may_change (g_mask g) p (S p) <-> fr p = true) as Rr.
    { intros p. unfold may_change, fr. split; [intros [(H & _)|(_ & H)]; auto; lia|auto]. }
    split; intros (m & Hm & E); exists m; split; auto.
    - eapply walk_in; eauto.
    - eapply walk_out; eauto.
  Qed.
  Lemma lanes_to (g : group) i a : NoDup (g_links g) -> length (g_links g) <= 16 -> nth_error (g_links g) i = Some a ->
    exists lanes, g_reachable_from_lanes g i = Ok lanes /\ forall b, In b lanes <-> lane_reach (g_links g) (g_mask g) b a.
  Proof.
    intros N L Ha. assert (i < length (g_links g)) as Hi by (apply nth_error_Some; congruence).
    set (fl := fun i => N.testbit (g_mask g) (N.of_nat (2 * (i - 1) + 1))). set (fr := fun i => N.testbit (g_mask g) (N.of_nat (2 * (i + 1) + 0))).
    assert (forall k, 0 < k <= i -> lc_bit g (k - 1) DRight = Ok (fl k)) as Tl by (intros; apply (lc_bit_ok g (k - 1) DRight); lia).
    assert (forall k, i <= k < i + (length (g_links g) - 1 - i) -> lc_bit g (k + 1) DLeft = Ok (fr k)) as Tr by (intros; apply (lc_bit_ok g (k + 1) DLeft); lia).
    destruct (walk_left_total fl _ i Tl) as (left & WL). destruct (walk_right_total fr _ _ i Tr) as (right & WR).
    unfold g_reachable_from_lanes. cbv beta. rewrite WL. cbn [bind]. rewrite WR. cbn [bind]. eexists. split; [reflexivity|]. intros b.
    pose proof (walk_left_spec _ _ _ _ Tl WL) as SL. pose proof (walk_right_spec _ _ _ _ _ Tr WR) as SR.
    assert (i <= right <= length (g_links g) - 1 /\ (forall k, i <= k < right -> fr k = true) /\ (right = length (g_links g) - 1 \/ fr right = false)) as SR'.
    { destruct SR as (B1 & B2 & B3). repeat split; auto; try lia. destruct B3; auto; left; lia. }
    rewrite in_slice by lia. unfold lane_reach.
    assert (clos_refl_trans key (lane_step (g_links g) (g_mask g)) b a <-> clos_refl_trans key (fun x y => lane_step (g_links g) (g_mask g) y x) a b) as ->.
    { apply rt_flip. }
    rewrite (lift_reach (g_links g) (fun p q => may_change (g_mask g) q p) _ i a N Ha).
    2:{ intros x y. unfold lane_step. split; intros (p & q & H1 & H2 & H3); exists q, p; auto. }
    assert (forall p q, may_change (g_mask g) q p -> p = S q \/ q = S p) as near by (unfold may_change; tauto).
    assert (forall p, may_change (g_mask g) p (S p) <-> fl (S p) = true) as Rl.
    { intros p. unfold may_change, fl. rewrite Nat.sub_succ, Nat.sub_0_r. split; [intros [(H & _)|(_ & H)]; auto; lia|auto]. }
    assert (forall p, may_change (g_mask g) (S p) p <-> fr p = true) as Rr.
    { intros p. unfold may_change, fr. rewrite Nat.add_0_r, (Nat.add_1_r p). split; [intros [(_ & H)|(H & _)]; auto; lia|auto]. }
    split; intros (m & Hm & E); exists m; split; auto.
    - eapply (walk_in _ (fun p q => may_change (g_mask g) q p)); eauto.
    - eapply (walk_out _ (fun p q => may_change (g_mask g) q p)); eauto.
  Qed.

  Lemma filterM_ok {X} (f : X -> bool) (test : X -> res bool) l : (forall x, In x l -> test x = Ok (f x)) -> filterM test l = Ok (filter f l).
  Proof.
    induction l as [|x l IH]; intros H; simpl; auto. rewrite H by (left; auto). cbn [bind]. rewrite IH by (intros; apply H; right; auto).
    cbn [bind]. destruct (f x); auto.
  Qed.
  Lemma changes_in (g : group) : length (g_links g) <= 16 ->
    exists lcs, g_lane_changes g = Ok lcs /\ forall a b, In (a, b) lcs <-> lane_step (g_links g) (g_mask g) a b.
  Proof.
    intros L. unfold g_lane_changes.
    rewrite (filterM_ok (fun i => N.testbit (g_mask g) (N.of_nat (2 * i + 1)))).
    2:{ intros x H. apply in_rev in H. apply in_seq in H. apply (lc_bit_ok g x DRight). lia. }
    cbn [bind]. rewrite (filterM_ok (fun i => N.testbit (g_mask g) (N.of_nat (2 * i + 0)))).
    2:{ intros x H. apply in_seq in H. apply (lc_bit_ok g x DLeft). lia. }
    cbn [bind]. eexists. split; [reflexivity|]. 
    assert (forall i x, nth_error (g_links g) i = Some x <-> i < length (g_links g) /\ nth i (g_links g) null_key = x) as Nth.
    { intros i x. split.
      - intros H. split; [apply nth_error_Some; congruence|]. eapply nth_error_nth; eauto.
      - intros (H & <-). apply nth_error_nth'. auto. }
    intros a b. rewrite in_app_iff, !in_map_iff. unfold lane_step, may_change. split.
      + intros [(i & E & H)|(i & E & H)]; apply filter_In in H; destruct H as (H & B).
        * apply in_rev in H. apply in_seq in H. injection E as <- <-. exists i, (i + 1). rewrite !Nth. repeat split; try lia. right. split; [lia|auto].
        * apply in_seq in H. injection E as <- <-. exists i, (i - 1). rewrite !Nth. repeat split; try lia. left. split; [lia|]. rewrite Nat.add_0_r in B. auto.
      + intros (i & j & Ea & Eb & [(-> & B)|(-> & B)]); apply Nth in Ea; apply Nth in Eb.
        * right. exists (S j). rewrite Nat.sub_succ, Nat.sub_0_r. split; [destruct Ea, Eb; congruence|]. apply filter_In. rewrite in_seq, Nat.add_0_r. split; [lia|auto].
        * left. exists i. rewrite Nat.add_1_r. split; [destruct Ea, Eb; congruence|]. apply filter_In. rewrite <- in_rev, in_seq. split; [lia|auto].
  Qed.
End Group.

(** ** Groups, lane changes and conflicts over a call *)
Section LaneEvo.
  Context {A : Arith}.
  Definition keepers (l : link) := (lk_group l, lk_changes l, lk_conflicts l).

  Lemma vehicles_keepers k l : keepers (remove_vehicle k l) = keepers l.
  Proof. destruct (remove_vehicle_set k l) as (vs & ->). reflexivity. Qed.
  Lemma insert_keepers vs k l l' : insert_vehicle vs k l = Ok l' -> keepers l' = keepers l.
  Proof. intros H. destruct (insert_vehicle_set _ _ _ _ H) as (x & ->). reflexivity. Qed.
  Lemma static_keepers l l' : lk_static l = lk_static l' -> keepers l = keepers l'.
  Proof. unfold lk_static, keepers. intros H. injection H as E1 E2 E3 E4 E5 E6 E7 E8 E9. congruence. Qed.

  Lemma exec_keepers e s o s' k l' : Inv s -> exec e s o = Ok s' -> sm_get (s_links s') k = Some l' ->
    match o with OAddGroup _ _ | OAddConvergence _ _ => True | _ =>
      (exists l, sm_get (s_links s) k = Some l /\ keepers l' = keepers l) \/
      sm_get (s_links s) k = None /\ keepers l' = (None, [], []) end.
  Proof.
    intros I H G.
    assert (s_links s' = s_links s -> exists l, sm_get (s_links s) k = Some l /\ keepers l' = keepers l) as Z by (intros E; rewrite E in G; eauto).
    destruct o; simpl in H; try exact Logic.I.
    - bok H x Hx. unfold add_link in Hx. bok Hx l Hl. injection Hx as <-. injection H as <-. simpl in G.
      rewrite sm_get_insert in G by apply (st_net _ _ _ (i_st _ I)). destruct (key_eqb_spec (sm_next_key (s_links s)) k) as [<-|N]; [|left; eauto].
      right. injection G as <-. split; [apply next_key_fresh; apply (st_net _ _ _ (i_st _ I))|]. unfold link_new in Hl. bok Hl c' Hc. injection Hl as <-. reflexivity.
    - left. unfold add_link_connection in H. bok H x Hx. bok H y Hy. injection H as <-. simpl in G.
      destruct (upd_keeps keepers _ _ _ _ _ _ Hy ltac:(intros ? ? E; injection E as <-; reflexivity) G) as (l1 & G1 & E1).
      destruct (upd_keeps keepers _ _ _ _ _ _ Hx ltac:(intros ? ? E; injection E as <-; reflexivity) G1) as (l2 & G2 & E2). exists l2. split; congruence.
    - left. bok H x Hx. injection H as <-. auto.
    - left. bok H x Hx. destruct x as [s1 k1]. injection H as <-. unfold add_vehicle in Hx. bok Hx v0 Hv0. bok Hx v Hv. bok Hx links Hl.
      injection Hx as <- <-. simpl in G. exact (upd_keeps keepers _ _ _ _ _ _ Hl (fun l l1 E => insert_keepers _ _ _ _ E) G).
    - left. unfold sim_remove_vehicle in H. destruct (sm_get _ v) as [v0|]; [|injection H as <-; auto]. simpl in H.
      destruct (v_link v0); [|injection H as <-; auto]. bok H x Hx. injection H as <-. simpl in G.
      refine (upd_keeps keepers _ _ _ _ _ _ Hx _ G). intros ? ? E. injection E as <-. apply vehicles_keepers.
    - left. unfold randomise_velocity_adjusts in H. bok H x Hx. injection H as <-. auto.
    - left. injection H as <-. apply Z. unfold set_vehicle_frozen. destruct frozen, (position _ _); auto.
    - left. unfold set_vehicle_destination in H. bok H x Hx. bok H y Hy. injection H as <-. auto.
    - left. unfold set_link_control in H. bok H x Hx. injection H as <-. simpl in G.
      refine (upd_keeps keepers _ _ _ _ _ _ Hx _ G). intros ? ? E. injection E as <-. reflexivity.
    - left. unfold do_lane_change in H. bok H x0 Hx0. bok H x1 Hx1. bok H x2 Hx2. bok H x3 Hx3. bok H x4 Hx4. destruct x4 as [[pos off] sl].
      bok H x5 Hx5. bok H x6 Hx6. injection H as <-. simpl in G.
      destruct (upd_keeps keepers _ _ _ _ _ _ Hx6 (fun l l1 E => insert_keepers _ _ _ _ E) G) as (l1 & G1 & E1).
      destruct (v_link x0); [|injection Hx1 as <-; eauto].
      destruct (upd_keeps keepers _ _ _ _ _ _ Hx1 ltac:(intros ? ? E; injection E as <-; apply vehicles_keepers) G1) as (l2 & G2 & E2). exists l2. split; congruence.
    - left. destruct (same_net_get _ _ _ _ (step_same_net _ _ _ _ I H) G) as (l0 & G0 & E). exists l0. split; auto. symmetry. apply static_keepers. auto.
  Qed.

  (** Setting the group of the named links. *)
  Lemma fold_groups g ids links links' k l' :
    foldM (fun links id => upd_link links id (fun l => Ok (set_group l g))) ids links = Ok links' -> sm_get links' k = Some l' ->
    exists l, sm_get links k = Some l /\ (if existsb (key_eqb k) ids then l' = set_group l g else l' = l).
  Proof.
    revert links. induction ids as [|i ids IH]; intros links H G; cbn [foldM] in H; [injection H as <-; exists l'; split; [auto|reflexivity]|].
    bok H ls Hls. destruct (IH _ H G) as (l1 & G1 & E1). destruct (upd_get _ _ _ _ _ _ Hls G1) as [(-> & l & G0 & E)|(N & G0)].
    - injection E as <-. exists l. split; auto. cbn [existsb]. rewrite key_eqb_refl. cbn [orb]. destruct (existsb _ _); subst; reflexivity.
    - exists l1. split; auto. cbn [existsb]. destruct (key_eqb_spec k i); [congruence|]. exact E1.
  Qed.
  (** Adding the lane changes. *)
  Lemma fold_changes lcs links links' k l' :
    foldM (fun links ft => upd_link links (fst ft) (fun l => add_lane_change l (snd ft))) lcs links = Ok links' -> sm_get links' k = Some l' ->
    exists l, sm_get links k = Some l /\ lk_group l' = lk_group l /\ lk_conflicts l' = lk_conflicts l /\
              lk_changes l' = lk_changes l ++ map snd (filter (fun ft => key_eqb (fst ft) k) lcs).
  Proof.
    revert links. induction lcs as [|[a b] lcs IH]; intros links H G; cbn [foldM] in H; [injection H as <-; exists l'; rewrite app_nil_r; auto|].
    bok H ls Hls. destruct (IH _ H G) as (l1 & G1 & E1 & E2 & E3). cbn [fst snd] in Hls. cbn [filter fst]. destruct (upd_get _ _ _ _ _ _ Hls G1) as [(-> & l & G0 & E)|(N & G0)].
    - unfold add_lane_change in E. destruct (Nat.ltb _ _); [|discriminate E]. injection E as <-. exists l. split; auto. rewrite key_eqb_refl.
      split; [exact E1|]. split; [exact E2|]. rewrite E3. cbn [lk_changes map snd]. rewrite <- app_assoc. reflexivity.
    - exists l1. split; auto. destruct (key_eqb_spec a k); [congruence|]. auto.
  Qed.

  Lemma mapM_ids (links : linkset) ids ls : net_ok links -> mapM (get_link links) ids = Ok ls -> map lk_id ls = ids.
  Proof.
    intros N H. apply mapM_ok in H. induction H as [|k l ids ls Hk _ IH]; simpl; auto. f_equal; auto. unfold get_link in Hk.
    apply of_option_ok in Hk. apply (lo_id _ _ _ (nk_link _ N _ _ Hk)).
  Qed.

  Lemma exec_group e s ids mask s' k l' : Inv s -> exec e s (OAddGroup ids mask) = Ok s' -> sm_get (s_links s') k = Some l' ->
    2 <= length ids <= 16 /\ (forall i, In i ids -> sm_mem (s_links s) i = true) /\
    exists l g lcs, sm_get (s_links s) k = Some l /\ g_links g = ids /\ g_mask g = mask /\ g_lane_changes g = Ok lcs /\
      lk_group l' = (if existsb (key_eqb k) ids then Some g else lk_group l) /\ lk_conflicts l' = lk_conflicts l /\
      lk_changes l' = lk_changes l ++ map snd (filter (fun ft => key_eqb (fst ft) k) lcs).
  Proof.
    intros I H G. pose proof (exec_Inv _ _ _ _ I H) as I'. cbn [exec] in H. unfold add_link_group in H. bok H ls Hls. bok H g Hg. bok H links1 H1. bok H lcs Hc. bok H links2 H2. injection H as <-. cbn [s_links with_links] in *.
    pose proof (mapM_ids _ _ _ (st_net _ _ _ (i_st _ I)) Hls) as Ids. unfold group_new in Hg. destruct (Nat.ltb_spec (length ls) 2) as [|L]; [discriminate Hg|].
    bok Hg ps Hpr. injection Hg as <-. rewrite Ids in *.
    destruct (fold_changes _ _ _ _ _ H2 G) as (l1 & G1 & E1 & E2 & E3). destruct (fold_groups _ _ _ _ _ _ H1 G1) as (l & G0 & E).
    assert (length ids = length ls) as Len by (rewrite <- Ids; apply map_length).
    assert (length ids <= 16) as L16.
    { destruct ids as [|i0 ids0]; [simpl; lia|]. assert (exists l0, sm_get (s_links s) i0 = Some l0) as (l0 & G0').
      { apply mapM_ok in Hls. inversion Hls as [|? x ? ? Hx]; subst. exists x. apply of_option_ok in Hx. exact Hx. }
      assert (sm_mem links2 i0 = true) as M.
      { assert (forall {Y} (g : Y -> key) (f : Y -> link -> res link) ys a b, foldM (fun links y => upd_link links (g y) (f y)) ys a = Ok b -> sm_mem a i0 = true -> sm_mem b i0 = true) as K.
        { intros Y g0 f0 ys a b Hf. pose proof (foldM_upd_shape _ _ _ _ _ Hf) as S. rewrite <- (shape_mem _ _ i0 S). auto. }
        refine (K _ fst (fun ft l => add_lane_change l (snd ft)) _ _ _ H2 _). refine (K _ (fun x => x) (fun _ l => Ok (set_group l _)) _ _ _ H1 _). apply sm_mem_get. eauto. }
      apply sm_mem_get in M. destruct M as (l2 & G2). destruct (fold_changes _ _ _ _ _ H2 G2) as (l3 & G3 & E4 & _). destruct (fold_groups _ _ _ _ _ _ H1 G3) as (l4 & _ & E5).
      cbn [existsb] in E5. rewrite key_eqb_refl in E5. cbn [orb] in E5. subst l3.
      destruct (lo_group _ _ _ (nk_link _ (st_net _ _ _ (i_st _ I')) _ _ G2) _ E4) as (GO & _). apply (go_len _ _ GO). }
    split; [lia|]. split.
    { intros i Hi. apply mapM_ok in Hls. apply In_nth_error in Hi. destruct Hi as (n & Hn).
      destruct (nth_error ls n) as [x|] eqn:Ex; [|apply nth_error_None in Ex; assert (n < length ids) by (apply nth_error_Some; congruence); lia].
      pose proof (Forall2_nth _ _ _ _ _ _ Hls Hn Ex) as Hx. apply of_option_ok in Hx. apply sm_mem_get. eauto. }
    exists l, (Group ids ps mask), lcs. split; auto. split; auto. split; auto. split; auto.
    destruct (existsb (key_eqb k) ids); subst l1; cbn [set_group lk_group lk_conflicts lk_changes] in *; auto.
  Qed.
End LaneEvo.

(** ** C26 over whole histories *)
Section LaneHistory.
  Context {A : Arith}.
  Lemma group_of_snoc ops o k : group_of (ops ++ [o]) k =
    match o with
    | OAddGroup ids mask => if existsb (key_eqb k) ids then Some (ids, mask) else group_of ops k
    | _ => group_of ops k
    end.
  Proof.
    induction ops as [|o0 ops IH]; cbn [group_of app]; [destruct o; auto|]. rewrite IH. destruct o; try reflexivity.
    destruct (existsb (key_eqb k) ids); reflexivity.
  Qed.
  Lemma existsb_key k ids : existsb (key_eqb k) ids = true <-> In k ids.
  Proof. rewrite existsb_exists. split; [intros (x & H & E); apply key_eqb_eq in E; congruence|intros H; exists k; rewrite key_eqb_refl; auto]. Qed.
  Lemma lane_step_in ids mask a b : lane_step ids mask a b -> In a ids /\ In b ids.
  Proof. intros (i & j & Ha & Hb & _). split; eapply nth_error_In; eauto. Qed.
  Lemma group_of_in ops k ids mask : group_of ops k = Some (ids, mask) -> In (OAddGroup ids mask) ops /\ In k ids.
  Proof.
    induction ops as [|o ops IH]; cbn [group_of]; [discriminate|]. destruct (group_of ops k) as [g|].
    - intros E. injection E as ->. destruct IH; auto. split; auto. right; auto.
    - destruct o; try discriminate. destruct (existsb (key_eqb k) ids0) eqn:X; [|discriminate]. injection 1 as <- <-. split; [left; auto|]. apply existsb_key; auto.
  Qed.

  Definition lanes_inv (s : sim) (ops : list op) : Prop :=
    (forall ids mask, In (OAddGroup ids mask) ops -> 2 <= length ids <= 16 /\ forall k, In k ids -> sm_mem (s_links s) k = true) /\
    forall k l, sm_get (s_links s) k = Some l ->
      option_map (fun g => (g_links g, g_mask g)) (lk_group l) = group_of ops k /\
      (forall b, In b (lk_changes l) <-> exists ids mask, In (OAddGroup ids mask) ops /\ lane_step ids mask k b).

  Lemma lanes_none s ops k : lanes_inv s ops -> sm_get (s_links s) k = None ->
    group_of ops k = None /\ forall b ids mask, In (OAddGroup ids mask) ops -> ~ lane_step ids mask k b.
  Proof.
    intros (P1 & _) G.
    assert (forall ids mask, In (OAddGroup ids mask) ops -> ~ In k ids) as Z.
    { intros ids mask H Hin. destruct (P1 _ _ H) as (_ & M). specialize (M _ Hin). apply sm_mem_get in M. destruct M. congruence. }
    split; [|intros b ids mask H St; apply lane_step_in in St; exact (Z _ _ H (proj1 St))].
    destruct (group_of ops k) as [[ids mask]|] eqn:E; auto. apply group_of_in in E. exfalso. exact (Z _ _ (proj1 E) (proj2 E)).
  Qed.

  Lemma lanes_exec e s o s' ops : Inv s -> exec e s o = Ok s' -> lanes_inv s ops -> lanes_inv s' (ops ++ [o]).
  Proof.
    intros I H P. destruct P as (P1 & P2) eqn:HP. clear HP. split.
    - intros ids mask Hin. rewrite in_app_iff in Hin. destruct Hin as [Hin|[->|[]]].
      + destruct (P1 _ _ Hin) as (L & M). split; auto. intros k Hk. eapply links_stay; eauto.
      + assert (exists k0 l0, sm_get (s_links s') k0 = Some l0) as (k0 & l0 & G0).
        { pose proof H as H'. cbn [exec] in H. unfold add_link_group in H. bok H ls Hls. bok H g Hg. unfold group_new in Hg. destruct (Nat.ltb_spec (length ls) 2); [discriminate Hg|].
          destruct ids as [|k0 ids]; [simpl in Hls; injection Hls as <-; simpl in *; lia|]. exists k0. apply sm_mem_get. eapply links_stay; eauto.
          apply mapM_ok in Hls. inversion Hls as [|? x ? ? Hx]; subst. apply of_option_ok in Hx. apply sm_mem_get. eauto. }
        destruct (exec_group _ _ _ _ _ _ _ I H G0) as (L & M & _). split; auto. intros k Hk. eapply links_stay; eauto.
    - intros k l' G. rewrite group_of_snoc.
      assert ((forall l, sm_get (s_links s) k = Some l -> lk_group l' = lk_group l -> lk_changes l' = lk_changes l -> (forall ids mask, o <> OAddGroup ids mask) ->
         option_map (fun g => (g_links g, g_mask g)) (lk_group l') = group_of ops k /\
         (forall b, In b (lk_changes l') <-> exists ids mask, In (OAddGroup ids mask) (ops ++ [o]) /\ lane_step ids mask k b))) as K.
      { intros l G0 E1 E2 No. destruct (P2 _ _ G0) as (Q1 & Q2). rewrite E1, E2. split; auto. intros b. rewrite Q2. split; intros (ids & mask & Hin & St); exists ids, mask; split; auto.
        - apply in_app_iff; auto.
        - apply in_app_iff in Hin. destruct Hin as [|[E|[]]]; auto. exfalso. eapply No; eauto. }
      assert ((sm_get (s_links s) k = None -> keepers l' = (None, [], []) -> (forall ids mask, o <> OAddGroup ids mask) ->
         option_map (fun g => (g_links g, g_mask g)) (lk_group l') = group_of ops k /\
         (forall b, In b (lk_changes l') <-> exists ids mask, In (OAddGroup ids mask) (ops ++ [o]) /\ lane_step ids mask k b))) as KN.
      { intros G0 E No. injection E as E1 E2 E3. destruct (lanes_none _ _ _ P G0) as (Q1 & Q2). rewrite E1, E2, Q1. split; auto. intros b. split; [intros []|].
        intros (ids & mask & Hin & St). apply in_app_iff in Hin. destruct Hin as [Hin|[E|[]]]; [eapply Q2; eauto|]. eapply No; eauto. }
      assert ((exists l, sm_get (s_links s) k = Some l /\ keepers l' = keepers l) \/ sm_get (s_links s) k = None /\ keepers l' = (None, [], []) -> (forall ids mask, o <> OAddGroup ids mask) ->
         option_map (fun g => (g_links g, g_mask g)) (lk_group l') = group_of ops k /\
         (forall b, In b (lk_changes l') <-> exists ids mask, In (OAddGroup ids mask) (ops ++ [o]) /\ lane_step ids mask k b)) as K'.
      { intros [(l & G0 & E)|(G0 & E)] No; auto. injection E as E1 E2 E3. eauto. }
      pose proof (exec_keepers _ _ _ _ _ _ I H G) as X. destruct o; try (apply K'; [exact X|discriminate]).
      + clear K KN K' X. destruct (exec_group _ _ _ _ _ _ _ I H G) as (L & M & l & g & lcs & G0 & Eg & Em & Ec & E1 & E2 & E3). destruct (P2 _ _ G0) as (Q1 & Q2). split.
        * rewrite E1. destruct (existsb (key_eqb k) ids); [|exact Q1]. simpl. congruence.
        * intros b. rewrite E3, in_app_iff, Q2, in_map_iff. subst ids mask.
          assert (length (g_links g) <= 16) as L16 by lia.
          destruct (changes_in g L16) as (lcs' & Ec' & Sp). assert (lcs' = lcs) by congruence. subst lcs'. split.
          -- intros [(ids & mask & Hin & St)|((x & y) & E & Hin)]; [exists ids, mask; split; auto; apply in_app_iff; auto|].
             apply filter_In in Hin. destruct Hin as (Hin & Ek). simpl in E, Ek. apply key_eqb_eq in Ek. subst x y. apply Sp in Hin.
             exists (g_links g), (g_mask g). split; auto. apply in_app_iff. right; left; auto.
          -- intros (ids & mask & Hin & St). apply in_app_iff in Hin. destruct Hin as [Hin|[E|[]]]; [left; eauto|]. injection E as <- <-. right. exists (k, b). split; auto.
             apply filter_In. split; [apply Sp; auto|]. simpl. apply key_eqb_refl.
      + cbn [exec] in H. unfold add_link_convergance in H. destruct (key_eqb a b); [injection H as <-; apply (K l'); auto; discriminate|].
        destruct (sm_get _ a); [|injection H as <-; apply (K l'); auto; discriminate]. destruct (sm_get _ b); [|injection H as <-; apply (K l'); auto; discriminate].
        bok H x Hx. destruct x; [|injection H as <-; apply (K l'); auto; discriminate]. bok H y Hy. injection H as <-. cbn [s_links] in G.
        destruct (fold_keeps (fun l => (lk_group l, lk_changes l)) fst (fun kc l => Ok (add_conflict l (snd kc))) _ _ _ _ _ Hy ltac:(intros ? ? ? E; injection E as <-; reflexivity) G) as (lz & G0 & E).
        injection E as E1 E2. apply (K lz); auto. discriminate.
  Qed.
  Lemma lanes_history s0 ops0 ops s : history s0 ops s -> Inv s0 -> lanes_inv s0 ops0 -> lanes_inv s (ops0 ++ ops).
  Proof.
    intros H. revert ops0. induction H as [s|e s o s1 ops s' H1 Hh IH]; intros ops0 I P; [rewrite app_nil_r; auto|].
    change (o :: ops) with ([o] ++ ops). rewrite app_assoc. apply IH; [eapply exec_Inv; eauto|]. eapply lanes_exec; eauto.
  Qed.
  Lemma lanes_all ops s : history sim_new ops s -> lanes_inv s ops.
  Proof.
    intros H. apply (lanes_history sim_new [] ops s H); [apply Inv_new|]. split; [intros ? ? []|]. intros k l G. simpl in G. rewrite sm_get_empty in G. discriminate G.
  Qed.
End LaneHistory.

(** The lanes a link reaches by lane changes, after any calls: those permitted by the masks. *)
Theorem C26_reachable_lanes :
  forall (A : Arith) ops s k l, history sim_new ops s -> link_at s k = Some l ->
    match group_of ops k with
    | None => reachable_lanes l = Ok [k] /\ reachable_from_lanes l = Ok [k]
    | Some (ids, mask) => NoDup ids ->
        exists to from, reachable_lanes l = Ok to /\ reachable_from_lanes l = Ok from /\
          (forall b, In b to <-> lane_reach ids mask k b) /\ (forall b, In b from <-> lane_reach ids mask b k)
    end.
Proof.
  intros A ops s k l H G. destruct (lanes_all _ _ H) as (P1 & P2). unfold link_at in G. destruct (P2 _ _ G) as (Q1 & _).
  assert (Inv s) as I by (eapply history_Inv; [exact H|apply Inv_new]). pose proof (nk_link _ (st_net _ _ _ (i_st _ I)) _ _ G) as LO.
  unfold reachable_lanes, reachable_from_lanes. destruct (lk_group l) as [g|] eqn:Eg; simpl in Q1; rewrite <- Q1; [|rewrite (lo_id _ _ _ LO); auto].
  intros N. destruct (lo_group _ _ _ LO _ Eg) as (GO & Hin). rewrite (lo_id _ _ _ LO). destruct (find_link_in g k Hin) as (i & -> & Hi). cbn [of_option bind].
  assert (length (g_links g) <= 16) as L by apply (go_len _ _ GO).
  destruct (lanes_from g i k N L Hi) as (to & E1 & S1). destruct (lanes_to g i k N L Hi) as (from & E2 & S2). exists to, from. auto.
Qed.
Print Assumptions C26_reachable_lanes.
(** The lane changes offered on a link are exactly those some call permits. *)
Theorem C26_lane_changes :
  forall (A : Arith) ops s k l b, history sim_new ops s -> link_at s k = Some l ->
    (In b (lk_changes l) <-> exists ids mask, In (OAddGroup ids mask) ops /\ lane_step ids mask k b).
Proof. intros A ops s k l b H G. destruct (lanes_all _ _ H) as (_ & P2). apply (P2 _ _ G). Qed.
Print Assumptions C26_lane_changes.

(** A link never offers more than two lane changes: a call that would add a third does not return. *)
Section Two.
  Context {A : Arith}.
  Definition two_changes (links : linkset) : Prop := forall k l, sm_get links k = Some l -> length (lk_changes l) <= 2.
  Lemma fold_two lcs (links links' : linkset) :
    foldM (fun links ft => upd_link links (fst ft) (fun l => add_lane_change l (snd ft))) lcs links = Ok links' -> two_changes links -> two_changes links'.
  Proof.
    intros H. revert links H. induction lcs as [|ft lcs IH]; intros links H P; cbn [foldM] in H; [injection H as <-; exact P|]. bok H ls Hls. apply (IH ls H).
    intros k l G. destruct (upd_get _ _ _ _ _ _ Hls G) as [(_ & l0 & G0 & E)|(_ & G0)]; [|eapply P; eauto].
    unfold add_lane_change in E. destruct (Nat.ltb_spec (length (lk_changes l0)) 2) as [L|]; [|discriminate E]. injection E as <-. cbn [lk_changes]. rewrite app_length. simpl. lia.
  Qed.
  Lemma exec_two e s o s' : Inv s -> exec e s o = Ok s' -> two_changes (s_links s) -> two_changes (s_links s').
  Proof.
    intros I H P. assert (match o with OAddGroup _ _ | OAddConvergence _ _ => True | _ => two_changes (s_links s') end) as X.
    { destruct o; try exact Logic.I; intros kx lx G; (destruct (exec_keepers _ _ _ _ _ _ I H G) as [(ly & G0 & E)|(_ & E)]; injection E as _ E _; rewrite E; [eapply P; eauto|simpl; lia]). }
    destruct o; try exact X.
    - cbn [exec] in H. unfold add_link_group in H. bok H ls Hls. bok H g Hg. bok H links1 H1. bok H lcs Hc. bok H links2 H2. injection H as <-. cbn [s_links with_links]. apply (fold_two _ _ _ H2).
      intros k l G. destruct (fold_groups _ _ _ _ _ _ H1 G) as (l0 & G0 & E). destruct (existsb (key_eqb k) ids); subst l; [cbn [set_group lk_changes]|]; eapply P; eauto.
    - cbn [exec] in H. unfold add_link_convergance in H. destruct (key_eqb a b); [injection H as <-; exact P|].
      destruct (sm_get _ a); [|injection H as <-; exact P]. destruct (sm_get _ b); [|injection H as <-; exact P].
      bok H x Hx. destruct x; [|injection H as <-; exact P]. bok H y Hy. injection H as <-. cbn [s_links]. intros k l' G.
      destruct (fold_keeps lk_changes fst (fun kc l => Ok (add_conflict l (snd kc))) _ _ _ _ _ Hy ltac:(intros ? ? ? E; injection E as <-; reflexivity) G) as (lz & G0 & ->). eapply P; eauto.
  Qed.
End Two.
Theorem C26_two_at_most :
  forall (A : Arith) s k l, reachable s -> link_at s k = Some l -> length (lk_changes l) <= 2.
Proof.
  intros A s k l R. apply reachable_history in R. destruct R as (ops & H). revert k l. change (two_changes (s_links s)).
  apply (history_pres (fun s => two_changes (s_links s))) with (2 := H); [intros; eapply exec_two; eauto|apply Inv_new|].
  intros k l G. simpl in G. rewrite sm_get_empty in G. discriminate G.
Qed.
Print Assumptions C26_two_at_most.

Lemma keys_eqb_eq a b : keys_eqb a b = true <-> a = b.
Proof.
  revert b. induction a as [|x a IH]; intros [|y b]; simpl; split; try discriminate; auto.
  - rewrite andb_true_iff, key_eqb_eq, IH. intros (-> & ->). auto.
  - injection 1 as -> ->. rewrite key_eqb_refl. simpl. apply IH. auto.
Qed.
(** Three lanes; changes from the first to the second, from the second to the third and back. *)
Definition ex_three : list (@op F64) :=
  [ OAddLink (ex_line 0 0 6 0) (fz 15); OAddLink (ex_line 0 3 6 3) (fz 15); OAddLink (ex_line 0 6 6 6) (fz 15);
    OAddGroup [nth_id 0; nth_id 1; nth_id 2] 26 ].
Definition lanes_b (s : @sim F64) (k : key) (to from chg : list key) : bool :=
  match sm_get (s_links s) k with
  | Some l => match reachable_lanes l, reachable_from_lanes l with
              | Ok t, Ok f => keys_eqb t to && keys_eqb f from && keys_eqb (lk_changes l) chg
              | _, _ => false
              end
  | None => false
  end.
Lemma ex_three_ok : okb (run ex_env sim_new ex_three) (fun s =>
  lanes_b s (nth_id 0) [nth_id 0; nth_id 1; nth_id 2] [nth_id 0] [nth_id 1] &&
  lanes_b s (nth_id 1) [nth_id 1; nth_id 2] [nth_id 0; nth_id 1; nth_id 2] [nth_id 2] &&
  lanes_b s (nth_id 2) [nth_id 1; nth_id 2] [nth_id 0; nth_id 1; nth_id 2] [nth_id 1]) = true.
Proof. vm_compute. reflexivity. Qed.
Example C26_example : exists s l, history (@sim_new F64) ex_three s /\ link_at s (nth_id 1) = Some l /\
  group_of ex_three (nth_id 1) = Some ([nth_id 0; nth_id 1; nth_id 2], 26%N) /\ NoDup [nth_id 0; nth_id 1; nth_id 2] /\
  lane_reach [nth_id 0; nth_id 1; nth_id 2] 26 (nth_id 0) (nth_id 2) /\ ~ lane_reach [nth_id 0; nth_id 1; nth_id 2] 26 (nth_id 1) (nth_id 0).
Proof.
  destruct (okb_ok _ _ ex_three_ok) as (s & H0 & H). pose proof (run_history _ _ _ _ H0) as Hh. apply andb_prop in H. destruct H as (H & H3). apply andb_prop in H. destruct H as (H1 & H2).
  assert (NoDup [nth_id 0; nth_id 1; nth_id 2]) as N by (repeat constructor; cbv; intuition discriminate).
  unfold lanes_b in H1, H2. destruct (sm_get (s_links s) (nth_id 0)) as [l0|] eqn:G0; [|discriminate H1]. destruct (sm_get (s_links s) (nth_id 1)) as [l|] eqn:G; [|discriminate H2].
  exists s, l. split; auto. split; [exact G|]. split; [reflexivity|]. split; [exact N|].
  pose proof (C26_reachable_lanes _ _ _ _ _ Hh G0) as X0. pose proof (C26_reachable_lanes _ _ _ _ _ Hh G) as X1.
  change (group_of ex_three (nth_id 0)) with (Some ([nth_id 0; nth_id 1; nth_id 2], 26%N)) in X0. change (group_of ex_three (nth_id 1)) with (Some ([nth_id 0; nth_id 1; nth_id 2], 26%N)) in X1. cbv iota beta in X0, X1.
  destruct (X0 N) as (t0 & f0 & E0 & E0' & S0 & _). destruct (X1 N) as (t1 & f1 & E1 & E1' & S1 & _). rewrite E0, E0' in H1. rewrite E1, E1' in H2.
  apply andb_prop in H1. destruct H1 as (H1 & _). apply andb_prop in H1. destruct H1 as (H1 & _). apply andb_prop in H2. destruct H2 as (H2 & _). apply andb_prop in H2. destruct H2 as (H2 & _).
  apply keys_eqb_eq in H1. apply keys_eqb_eq in H2. split; [apply S0; rewrite H1; simpl; auto|]. intros B. apply S1 in B. rewrite H2 in B. simpl in B. destruct B as [B|[B|[]]]; discriminate B.
Qed.
