(** * Routing: the search over the network, the routing table and the candidate paths *)
From Coq Require Import List Bool ZArith NArith Arith Lia Relation_Operators Operators_Properties.
From Verif Require Import Arith Base BaseProofs SlotMap SlotMapProofs Util Geom Light Accel Net Path Vehicle LinkOps Sim
  SpecSim SpecRoute NetInv SimInv StepEvo P_Lane DijProofs.
Import ListNotations.

Lemma flat_map_apart {X Y} (f : X -> list Y) l a b y : NoDup (flat_map f l) -> In a l -> In b l -> In y (f a) -> In y (f b) -> a = b.
Proof.
  induction l as [|x l IH]; [intros _ []|]. simpl. intros N Ha Hb Ya Yb.
  assert (forall z, In y (f x) -> In z l -> In y (f z) -> False) as K.
  { intros z H1 H2 H3. assert (In y (flat_map f l)) as H4 by (apply in_flat_map; eauto).
    clear -N H1 H4. induction (f x) as [|w m IH]; [destruct H1|]. simpl in N. inversion N; subst. destruct H1 as [->|H1]; auto. apply H2. apply in_or_app. auto. }
  assert (NoDup (flat_map f l)) as N2 by (clear -N; induction (f x); simpl in N; [auto|inversion N; auto]).
  destruct Ha as [<-|Ha]; destruct Hb as [<-|Hb]; auto; exfalso; eauto.
Qed.
Lemma flat_map_nodup {X Y} (f : X -> list Y) l a : NoDup (flat_map f l) -> In a l -> NoDup (f a).
Proof.
  induction l as [|x l IH]; [intros _ []|]. simpl. intros N [->|Ha].
  - clear -N. induction (f a) as [|w m IH]; constructor; simpl in N; inversion N; subst; [intros X1; apply H1; apply in_or_app; auto|apply IH; auto].
  - apply IH; auto. clear -N; induction (f x); simpl in N; [auto|inversion N; auto].
Qed.

(** A walk between lanes goes one way. *)
Lemma walk_monotone mask i m : clos_refl_trans nat (may_change mask) i m ->
  (i <= m /\ forall k, i <= k < m -> N.testbit mask (N.of_nat (2 * k + 1)) = true) \/
  (m <= i /\ forall k, m < k <= i -> N.testbit mask (N.of_nat (2 * k)) = true).
Proof.
  intros H. apply clos_rt_rtn1 in H. induction H as [|x y St _ IH]; [left; split; [lia|intros; lia]|].
  destruct St as [(-> & B)|(-> & B)].
  - destruct IH as [(L & F)|(L & F)].
    + destruct (Nat.eq_dec i (S y)) as [->|]; [|left; split; [lia|intros; apply F; lia]]. right. split; [lia|]. intros k Hk. replace k with (S y) by lia. auto.
    + right. split; [lia|]. intros k Hk. destruct (Nat.eq_dec k (S y)) as [->|]; auto. apply F. lia.
  - destruct IH as [(L & F)|(L & F)].
    + left. split; [lia|]. intros k Hk. destruct (Nat.eq_dec k x) as [->|]; auto. apply F. lia.
    + destruct (Nat.eq_dec i x) as [->|]; [|right; split; [lia|intros; apply F; lia]]. left. split; [lia|]. intros k Hk. replace k with x by lia. auto.
Qed.

Section RP.
  Context {A : Arith}.
  Definition cast_in_range : Prop := forall mx (x : num), (0 <= mx)%Z -> (0 <= ncast mx x <= mx)%Z.

  Lemma apart_group ops ids mask ids' mask' k : groups_apart ops -> In (OAddGroup ids mask) ops -> In (OAddGroup ids' mask') ops ->
    In k ids -> In k ids' -> ids = ids' /\ mask = mask'.
  Proof.
    intros N H1 H2 K1 K2. pose proof (flat_map_apart _ _ _ _ k N H1 H2 K1 K2) as E. injection E as -> ->. auto.
  Qed.
  Lemma apart_nodup ops ids mask : groups_apart ops -> In (OAddGroup ids mask) ops -> NoDup ids.
  Proof. intros N H. exact (flat_map_nodup _ _ _ N H). Qed.

  (** The network a history has built. *)
  Section Net.
    Variables (ops : list op) (s : sim) (links : linkset).
    Hypothesis Hist : history sim_new ops s.
    Hypothesis Same : same_net (s_links s) links.

    Lemma hist_net : net_ok links.
    Proof. apply (same_net_ok _ _ Same). apply (st_net _ _ _ (i_st _ (history_Inv _ _ _ Hist Inv_new))). Qed.
    (** What does not change during a step. *)
    Lemma hist_get k l : sm_get links k = Some l -> exists l0, sm_get (s_links s) k = Some l0 /\ lk_id l0 = lk_id l /\ lk_group l0 = lk_group l /\ lk_changes l0 = lk_changes l.
    Proof.
      intros G. destruct (same_net_get _ _ _ _ Same G) as (l0 & G0 & E). exists l0. split; auto. unfold lk_static in E. injection E as E1 E2 E3 E4 E5 E6 E7 E8 E9. auto.
    Qed.
    Lemma chg_iff a b : chg_of links a b <-> valid links a /\ exists ids mask, In (OAddGroup ids mask) ops /\ lane_step ids mask a b.
    Proof.
      unfold chg_of. split.
      - intros (l & G & H). split; [apply sm_mem_get; eauto|]. destruct (hist_get _ _ G) as (l0 & G0 & _ & _ & Ec). rewrite <- Ec in H. apply (C26_lane_changes _ _ _ _ _ b Hist G0). auto.
      - intros (V & X). apply sm_mem_get in V. destruct V as (l & G). exists l. split; auto. destruct (hist_get _ _ G) as (l0 & G0 & _ & _ & Ec). rewrite <- Ec. apply (C26_lane_changes _ _ _ _ _ b Hist G0). auto.
    Qed.
    Lemma chg_valid a b : chg_of links a b -> valid links a /\ valid links b.
    Proof.
      intros (l & G & H). split; [apply sm_mem_get; eauto|]. pose proof (lo_chg _ _ _ (nk_link _ hist_net _ _ G)) as F. rewrite Forall_forall in F. auto.
    Qed.
    Lemma succ_valid a b : succ_of links a b -> valid links a /\ valid links b.
    Proof.
      intros (l & G & H). split; [apply sm_mem_get; eauto|]. pose proof (lo_out _ _ _ (nk_link _ hist_net _ _ G)) as F. rewrite Forall_forall in F. auto.
    Qed.
    Lemma changes_valid a b : changes links a b -> valid links a -> valid links b.
    Proof. intros H. apply clos_rt_rtn1 in H. induction H as [|x y St _ IH]; auto. intros _. eapply chg_valid; eauto. Qed.
    Lemma valid_not_null k : valid links k -> k <> null_key.
    Proof.
      intros V ->. apply sm_mem_get in V. destruct V as (l & G). rewrite (sm_get_null _ (nk_wf _ hist_net)) in G. discriminate.
    Qed.

    Hypothesis Apart : groups_apart ops.

    (** Inside of a group, permitted lane changes are those of the group. *)
    Lemma changes_group a ids mask : In (OAddGroup ids mask) ops -> In a ids ->
      (forall x, In x ids -> valid links x) ->
      forall b, (changes links a b <-> lane_reach ids mask a b) /\ (changes links b a <-> lane_reach ids mask b a).
    Proof.
      intros Hg Ha Hv.
      assert (forall x y, In x ids \/ In y ids -> (chg_of links x y <-> lane_step ids mask x y)) as K.
      { intros x y Hx. rewrite chg_iff. split.
        - intros (_ & ids' & mask' & Hin & St). destruct (lane_step_in _ _ _ _ St) as (I1 & I2).
          destruct Hx as [Hx|Hx]; destruct (apart_group _ _ _ _ _ _ Apart Hg Hin Hx) as (-> & ->); auto.
        - intros St. destruct (lane_step_in _ _ _ _ St) as (I1 & _). split; [auto|eauto]. }
      intros b. split; split; intros H.
      - apply clos_rt_rtn1 in H. assert (In b ids /\ lane_reach ids mask a b) as (_ & R); [|exact R].
        induction H as [|x y St _ (Ix & IH)]; [split; auto; apply rt_refl|]. apply (K x y) in St; auto. split; [apply (lane_step_in _ _ _ _ St)|].
        eapply rt_trans; [exact IH|apply rt_step; auto].
      - apply clos_rt_rtn1 in H. assert (In b ids /\ changes links a b) as (_ & R); [|exact R].
        induction H as [|x y St _ (Ix & IH)]; [split; auto; apply rt_refl|]. split; [apply (lane_step_in _ _ _ _ St)|].
        eapply rt_trans; [exact IH|apply rt_step]. apply K; auto.
      - apply clos_rt_rt1n in H. assert (In b ids /\ lane_reach ids mask b a) as (_ & R); [|exact R].
        induction H as [|x y z St _ IH]; [split; auto; apply rt_refl|]. destruct (IH Ha) as (Iy & IH2). apply (K x y) in St; auto. split; [apply (lane_step_in _ _ _ _ St)|].
        eapply rt_trans; [apply rt_step; eauto|exact IH2].
      - apply clos_rt_rt1n in H. assert (In b ids /\ changes links b a) as (_ & R); [|exact R].
        induction H as [|x y z St _ IH]; [split; auto; apply rt_refl|]. destruct (IH Ha) as (Iy & IH2). split; [apply (lane_step_in _ _ _ _ St)|].
        eapply rt_trans; [apply rt_step, K; eauto|exact IH2].
    Qed.

    Lemma group_valid k l g : sm_get links k = Some l -> lk_group l = Some g -> forall x, In x (g_links g) -> valid links x.
    Proof.
      intros G Eg x Hx. destruct (lo_group _ _ _ (nk_link _ hist_net _ _ G) _ Eg) as (GO & _). pose proof (go_valid _ _ GO) as F. rewrite Forall_forall in F. auto.
    Qed.
    (** The group of a link is that of the call naming it. *)
    Lemma group_call k l g : sm_get links k = Some l -> lk_group l = Some g ->
      In (OAddGroup (g_links g) (g_mask g)) ops /\ In k (g_links g) /\ length (g_links g) <= 16.
    Proof.
      intros G Eg. destruct (hist_get _ _ G) as (l0 & G0 & _ & Eg0 & _). destruct (lanes_all _ _ Hist) as (_ & P2). destruct (P2 _ _ G0) as (Q1 & _). rewrite Eg0, Eg in Q1. simpl in Q1.
      destruct (lo_group _ _ _ (nk_link _ hist_net _ _ G) _ Eg) as (GO & Hin). split; [|split; [auto|apply (go_len _ _ GO)]].
      symmetry in Q1. apply group_of_in in Q1. apply Q1.
    Qed.
    Lemma no_group k l : sm_get links k = Some l -> lk_group l = None -> forall ids mask, In (OAddGroup ids mask) ops -> ~ In k ids.
    Proof.
      intros G Eg. destruct (hist_get _ _ G) as (l0 & G0 & _ & Eg0 & _). destruct (lanes_all _ _ Hist) as (_ & P2). destruct (P2 _ _ G0) as (Q1 & _). rewrite Eg0, Eg in Q1. simpl in Q1.
      clear -Q1. symmetry in Q1. induction ops as [|o ops' IH]; [intros ? ? []|]. simpl in Q1. destruct (group_of ops' k) eqn:E; [discriminate|].
      intros ids mask [->|H] Hk; [|eapply IH; eauto]. rewrite (proj2 (existsb_key k ids) Hk) in Q1. discriminate.
    Qed.
    Lemma lanes_changes k l : sm_get links k = Some l ->
      exists to from, reachable_lanes l = Ok to /\ reachable_from_lanes l = Ok from /\
        (forall b, In b to <-> changes links k b) /\ (forall b, In b from <-> changes links b k).
    Proof.
      intros G. destruct (hist_get _ _ G) as (l0 & G0 & Ei & Eg0 & _). pose proof (C26_reachable_lanes _ _ _ _ _ Hist G0) as C.
      unfold reachable_lanes, reachable_from_lanes in *. rewrite Ei, Eg0 in C. destruct (group_of ops k) as [(ids, mask)|] eqn:Eg.
      - apply group_of_in in Eg. destruct Eg as (Hg & Hk). destruct (C (apart_nodup _ _ _ Apart Hg)) as (to & from & E1 & E2 & S1 & S2).
        exists to, from. split; auto. split; auto.
        assert (forall x, In x ids -> valid links x) as Hv.
        { destruct (lk_group l) as [g|] eqn:El; [|exfalso; eapply no_group; eauto].
          destruct (group_call _ _ _ G El) as (Hg2 & Hk2 & _). destruct (apart_group _ _ _ _ _ _ Apart Hg Hg2 Hk Hk2) as (-> & _). eapply group_valid; eauto. }
        split; intros b; destruct (changes_group k ids mask Hg Hk Hv b) as (E3 & E4); [rewrite S1, E3|rewrite S2, E4]; reflexivity.
      - destruct C as (E1 & E2). exists [k], [k]. split; auto. split; auto.
        assert (forall x y, chg_of links x y -> x <> k /\ y <> k) as K.
        { intros x y H. apply chg_iff in H. destruct H as (_ & ids & mask & Hg & St). apply lane_step_in in St. destruct St as (I1 & I2).
          assert (lk_group l = None) as El.
          { destruct (lk_group l) as [g|] eqn:El; auto. destruct (lanes_all _ _ Hist) as (_ & P2). destruct (P2 _ _ G0) as (Q1 & _). rewrite Eg0 in Q1. simpl in Q1. congruence. }
          split; intros ->; eapply no_group; eauto. }
        split; intros b; split.
        + intros [->|[]]. apply rt_refl.
        + intros H. apply clos_rt_rt1n in H. inversion H as [|y z St]; subst; [left; auto|]. destruct (K _ _ St). congruence.
        + intros [->|[]]. apply rt_refl.
        + intros H. apply clos_rt_rtn1 in H. inversion H as [|y z St]; subst; [left; auto|]. destruct (K _ _ St). congruence.
    Qed.

    (** ** The search *)
    Lemma successors_ok a : valid links a -> exists es, successors links a = Ok es /\
      forall b w, In (b, w) es <-> exists x l, changes links a x /\ sm_get links x = Some l /\ In b (lk_out l) /\ w = lk_cost l.
    Proof.
      intros V. pose proof V as V0. apply sm_mem_get in V. destruct V as (l & G). destruct (lanes_changes _ _ G) as (to & from & E1 & _ & S1 & _).
      unfold successors, get_link. rewrite G. cbn [of_option bind]. rewrite E1. cbn [bind].
      assert (forall x, In x to -> exists lx, sm_get links x = Some lx) as Vx.
      { intros x Hx. apply S1 in Hx. apply sm_mem_get. eapply changes_valid; eauto. }
      destruct (mapM_total (fun k => bind (of_option PBadLink (sm_get links k)) (fun l => Ok (map (fun o => (o, lk_cost l)) (lk_out l)))) to) as (ess & E).
      { intros x Hx. destruct (Vx _ Hx) as (lx & ->). simpl. eauto. }
      rewrite E. cbn [bind]. exists (concat ess). split; auto. intros b w. rewrite in_concat. split.
      - intros (es & He & Hb). destruct (mapM_in _ _ _ _ E He) as (x & Hx & Ex). destruct (Vx _ Hx) as (lx & Gx). rewrite Gx in Ex. simpl in Ex. injection Ex as <-.
        apply in_map_iff in Hb. destruct Hb as (o & Eo & Ho). injection Eo as <- <-. exists x, lx. rewrite <- S1. auto.
      - intros (x & lx & Hx & Gx & Hb & ->). rewrite <- S1 in Hx. destruct (mapM_in_l _ _ _ _ E Hx) as (es & He & Ex). exists es. split; auto.
        cbv beta in Ex. rewrite Gx in Ex. simpl in Ex. injection Ex as <-. apply in_map_iff. eauto.
    Qed.

    Hypothesis Cast : forall k l, sm_get links k = Some l -> (0 <= lk_cost l)%Z.
    Lemma weights_ok a es b w : successors links a = Ok es -> In (b, w) es -> (0 <= w)%Z.
    Proof.
      intros H Hb. assert (valid links a) as V.
      { unfold successors, get_link in H. apply bind_ok in H. destruct H as (l & G & _). destruct (sm_get links a) eqn:E; [|discriminate G]. apply sm_mem_get. eauto. }
      destruct (successors_ok _ V) as (es' & E & S1). rewrite H in E. injection E as <-. apply S1 in Hb. destruct Hb as (x & l & _ & G & _ & ->). eauto.
    Qed.
    Lemma route_drive a p b z : route (successors links) a p b z -> drive links a p b z.
    Proof.
      induction 1 as [|a es b w p c z H Hb _ IH]; [constructor|]. assert (valid links a) as V.
      { unfold successors, get_link in H. apply bind_ok in H. destruct H as (l & G & _). destruct (sm_get links a) eqn:E; [|discriminate G]. apply sm_mem_get. eauto. }
      destruct (successors_ok _ V) as (es' & E & S1). rewrite H in E. injection E as <-. apply S1 in Hb. destruct Hb as (x & l & Hx & G & Ho & ->). eapply drive_on; eauto.
    Qed.
    Lemma drive_valid a p b z : drive links a p b z -> valid links a -> valid links b.
    Proof. induction 1 as [|a x l b p c z Hx G Ho _ IH]; auto. intros _. apply IH. eapply (succ_valid x b). exists l; auto. Qed.
    Lemma drive_route a p b z : drive links a p b z -> valid links a -> route (successors links) a p b z.
    Proof.
      induction 1 as [|a x l b p c z Hx G Ho _ IH]; intros V; [constructor|]. destruct (successors_ok _ V) as (es & E & S1).
      eapply route_step; [exact E|apply S1; eauto 10|]. apply IH. eapply (succ_valid x b). exists l; auto.
    Qed.
    Lemma leads_drive a d : leads links a d <-> exists p b z, drive links a p b z /\ changes links b d.
    Proof.
      split.
      - intros H. apply clos_rt_rt1n in H. induction H as [|x y z [(l & G & Ho)|Hc] _ (p & b & c & Hd & Hb)].
        + exists [x], x, 0%Z. split; [constructor|apply rt_refl].
        + exists (x :: p), b, (lk_cost l + c)%Z. split; auto. apply (drive_on links x x l y); auto. apply rt_refl.
        + inversion Hd as [q|q w lw b' p' c' z' Hx G Ho Hd']; subst.
          * exists [x], x, 0%Z. split; [constructor|]. eapply rt_trans; [apply rt_step; exact Hc|exact Hb].
          * exists (x :: p'), b, (lk_cost lw + z')%Z. split; auto. apply (drive_on links x w lw b'); auto. eapply rt_trans; [apply rt_step; exact Hc|exact Hx].
      - intros (p & b & z & Hd & Hb). assert (forall x y, changes links x y -> leads links x y) as K.
        { induction 1; [apply rt_step; right; auto|apply rt_refl|eapply rt_trans; eauto]. }
        induction Hd as [|a x l b p c z Hx G Ho _ IH]; [apply K; auto|]. eapply rt_trans; [apply K; exact Hx|]. eapply rt_trans; [apply rt_step; left; exists l; split; [exact G|exact Ho]|exact (IH Hb)].
    Qed.

    Lemma search_ok fuel pick src dst dl dsts : valid links src -> sm_get links dst = Some dl -> reachable_from_lanes dl = Ok dsts ->
      match dijkstra fuel pick src (successors links) (fun k => key_mem k dsts) with
      | Ok (Some (p, c)) => (exists b, drive links src p b c /\ changes links b dst) /\
                            forall p' b' c', drive links src p' b' c' -> changes links b' dst -> (c <= c')%Z
      | Ok None => ~ leads links src dst
      | Panic p => p = POverflow
      | OutOfFuel => True
      end.
    Proof.
      intros V G E. destruct (lanes_changes _ _ G) as (to & from & _ & E2 & _ & S2). rewrite E in E2. injection E2 as <-.
      assert (forall k, key_mem k dsts = true <-> changes links k dst) as KM by (intros k; unfold key_mem; rewrite <- S2; apply existsb_key).
      destruct (dijkstra fuel pick src (successors links) (fun k => key_mem k dsts)) as [[(p, c)|]|p|] eqn:D; auto.
      - apply dijkstra_some in D; [|exact weights_ok]. destruct D as ((k & Gk & Rk) & Mn). split.
        + exists k. split; [apply route_drive; auto|apply KM; auto].
        + intros p' b' c' Hd Hc. apply (Mn p' b' c'); [apply KM; auto|apply drive_route; auto].
      - intros Ld. apply leads_drive in Ld. destruct Ld as (p & b & z & Hd & Hc). pose proof (dijkstra_none _ _ _ weights_ok _ _ D p b z (drive_route _ _ _ _ Hd V)) as F.
        apply KM in Hc. cbv beta in F. congruence.
      - eapply dijkstra_panic; [| |exact D]; [exact V|].
        intros a es0. split; [intros q Hq; destruct (successors_ok a es0) as (es & E3 & _); congruence|].
        intros es b w E3 Hb. destruct (successors_ok a es0) as (es' & E4 & S1). rewrite E3 in E4. injection E4 as <-. apply S1 in Hb. destruct Hb as (x & l & _ & Gx & Ho & _).
        eapply (succ_valid x b). exists l; auto.
    Qed.
    Lemma search_ends : exists n, forall fuel pick src goal, n <= fuel -> valid links src ->
      dijkstra fuel pick src (successors links) goal <> OutOfFuel.
    Proof.
      exists (S (S (list_sum (map (deg (successors links)) (sm_keys links))) + S (length (sm_keys links)))). intros fuel pick src goal Lf V.
      apply (dijkstra_ends (successors links) goal src weights_ok (sm_keys links)); try lia.
      - apply nodup_keys.
      - apply in_keys; auto.
      - intros a es b w Ha E Hb. apply in_keys in Ha. apply in_keys. destruct (successors_ok a Ha) as (es' & E4 & S1). rewrite E in E4. injection E4 as <-.
        apply S1 in Hb. destruct Hb as (x & l & _ & Gx & Ho & _). eapply (succ_valid x b). exists l; auto.
      - intros a Ha. apply in_keys in Ha. destruct (successors_ok a Ha) as (es' & -> & _). discriminate.
    Qed.

    (** ** The routing table *)
    Definition inM (m : matrix) (k : key) : Prop := mx_get m k <> None.
    Lemma mx_get_insert m k d k' : k <> null_key -> mx_get (mx_insert m k d) k' = if key_eqb k k' then Some d else mx_get m k'.
    Proof. intros H. unfold mx_insert. replace (key_eqb k null_key) with false by (symmetry; apply key_eqb_neq; auto). reflexivity. Qed.
    Lemma inM_insert m k d k' : k <> null_key -> inM (mx_insert m k d) k' <-> k' = k \/ inM m k'.
    Proof. intros H. unfold inM. rewrite mx_get_insert by auto. destruct (key_eqb_spec k k') as [<-|N]; [split; [auto|discriminate]|]. split; [auto|intros [->|]; congruence]. Qed.
    Lemma inM_dec m k : {inM m k} + {~ inM m k}.
    Proof. unfold inM. destruct (mx_get m k); [left; discriminate|right; auto]. Qed.

    (** Exactly what one propagation adds. *)
    Lemma back_in m id m' k : propagate_back links m id = Ok m' ->
      (inM m' k <-> inM m k \/ (k = id /\ exists o, succ_of links id o /\ inM m o)).
    Proof.
      unfold propagate_back. intros H. apply bind_ok in H. destruct H as (l & G & H). unfold get_link in G. destruct (sm_get links id) as [l'|] eqn:Gl; [|discriminate G]. injection G as ->.
      assert (id <> null_key) as Nn by (apply valid_not_null, sm_mem_get; eauto).
      set (ds := flat_map (fun o => match mx_get m o with Some d => [d] | None => [] end) (lk_out l)) in H.
      assert ((exists d, In d ds) <-> exists o, succ_of links id o /\ inM m o) as K.
      { unfold ds. split.
        - intros (d & Hd). apply in_flat_map in Hd. destruct Hd as (o & Ho & Hd). exists o. split; [exists l; auto|]. unfold inM. destruct (mx_get m o); [discriminate|destruct Hd].
        - intros (o & (l2 & G2 & Ho) & Io). rewrite Gl in G2. injection G2 as <-. unfold inM in Io. destruct (mx_get m o) as [d|] eqn:Eo; [|congruence]. exists d. apply in_flat_map. exists o. rewrite Eo. split; [auto|left; auto]. }
      unfold reduce in H. destruct ds as [|d ds'] eqn:Ed.
      - injection H as <-. split; [auto|]. intros [|(-> & X)]; auto. apply K in X. destruct X as (d & []).
      - injection H as <-. rewrite inM_insert by auto. split; [intros [->|]; auto|intros [|(-> & _)]; auto].
        right. split; auto. apply K. exists d. left; auto.
    Qed.
    Lemma across_in m f t m' k : propagate_across links m (f, t) = Ok m' -> valid links f -> (inM m' k <-> inM m k \/ (k = f /\ inM m t)).
    Proof.
      unfold propagate_across. cbn [fst snd]. intros H Vf. pose proof (valid_not_null _ Vf) as Nn. destruct (mx_get m t) as [td|] eqn:Et.
      - apply bind_ok in H. destruct H as (l & G & H). injection H as <-. rewrite inM_insert by auto. assert (inM m t) by (unfold inM; congruence). tauto.
      - injection H as <-. assert (~ inM m t) by (unfold inM; congruence). tauto.
    Qed.
    Lemma backs_mono ids m m' k : foldM (propagate_back links) ids m = Ok m' -> inM m k -> inM m' k.
    Proof. intros H I. eapply (foldM_inv (fun m => inM m k)); [|exact H|exact I]. intros m1 id m2 _ I1 E. apply (back_in _ _ _ k) in E. tauto. Qed.
    Lemma backs_hit ids m m' x : foldM (propagate_back links) ids m = Ok m' -> In x ids -> (exists o, succ_of links x o /\ inM m o) -> inM m' x.
    Proof.
      revert m. induction ids as [|i ids IH]; [intros m H []|]. intros m H [->|Hx] (o & So & Io); simpl in H; apply bind_ok in H; destruct H as (m1 & H1 & H).
      - eapply backs_mono; [exact H|]. apply (back_in _ _ _ x H1). right. eauto.
      - apply (IH m1); auto. exists o. split; auto. apply (back_in _ _ _ o H1). auto.
    Qed.
    Lemma across_mono lcs m m' k : foldM (propagate_across links) lcs m = Ok m' -> (forall f t, In (f, t) lcs -> valid links f) -> inM m k -> inM m' k.
    Proof.
      revert m. induction lcs as [|(f, t) lcs IH]; intros m H V I; simpl in H; [injection H as <-; auto|]. apply bind_ok in H. destruct H as (m1 & H1 & H).
      apply (IH m1); auto; [intros; eapply V; right; eauto|]. apply (across_in _ _ _ _ k H1); auto. eapply V. left; auto.
    Qed.

    (** The order of the lane changes suffices to reach every lane. *)
    Section Sweep.
      Variable at_ : nat -> key.
      Variable f : nat -> bool.
      Lemma sweep_right N m m' : foldM (propagate_across links) (map (fun i => (at_ i, at_ (i + 1))) (filter f (rev (seq 0 N)))) m = Ok m' ->
        (forall i, i < N -> valid links (at_ i)) ->
        forall i j, i <= j <= N -> (forall k, i <= k < j -> f k = true) -> inM m (at_ j) -> inM m' (at_ i).
      Proof.
        revert m. induction N as [|N IH]; intros m H V i j L F I.
        - simpl in H. injection H as <-. replace i with j by lia. auto.
        - rewrite seq_S, rev_app_distr in H. cbn [rev app] in H.
          replace (0 + N) with N in H by lia.
          assert (forall i, i < N -> valid links (at_ i)) as V' by (intros; apply V; lia).
          cbn [filter] in H. destruct (f N) eqn:FN.
          + cbn [map foldM] in H. apply bind_ok in H. destruct H as (m1 & H1 & H).
            assert (forall k, inM m1 k <-> inM m k \/ (k = at_ N /\ inM m (at_ (N + 1)))) as K by (intros k; apply (across_in _ _ _ _ k H1), V; lia).
            destruct (Nat.eq_dec j (S N)) as [->|].
            * destruct (Nat.eq_dec i (S N)) as [->|].
              -- eapply across_mono; [exact H| |apply K; auto]. intros g t Hin. apply in_map_iff in Hin. destruct Hin as (q & E & Hq). injection E as <- <-. apply filter_In in Hq. destruct Hq as (Hq & _). apply in_rev in Hq. apply in_seq in Hq. apply V'. lia.
              -- eapply (IH m1 H V' i N); [lia|intros; apply F; lia|]. apply K. right. split; auto. rewrite Nat.add_1_r. auto.
            * eapply (IH m1 H V' i j); [lia|auto|]. apply K. auto.
          + destruct (Nat.eq_dec j (S N)) as [->|].
            * destruct (Nat.eq_dec i (S N)) as [->|].
              -- eapply across_mono; [exact H| |auto]. intros g t Hin. apply in_map_iff in Hin. destruct Hin as (q & E & Hq). injection E as <- <-. apply filter_In in Hq. destruct Hq as (Hq & _). apply in_rev in Hq. apply in_seq in Hq. apply V'. lia.
              -- rewrite F in FN by lia. discriminate.
            * eapply (IH m H V' i j); [lia|auto|auto].
      Qed.
      Lemma sweep_left N a m m' : foldM (propagate_across links) (map (fun i => (at_ i, at_ (i - 1))) (filter f (seq a N))) m = Ok m' ->
        (forall i, a <= i < a + N -> valid links (at_ i)) -> 1 <= a ->
        forall i j, a - 1 <= j <= i -> i < a + N -> (forall k, j < k <= i -> f k = true) -> inM m (at_ j) -> inM m' (at_ i).
      Proof.
        revert a m. induction N as [|N IH]; intros a m H V La i j L1 L2 F I.
        - simpl in H. injection H as <-. replace i with j by lia. auto.
        - assert (forall i, S a <= i < S a + N -> valid links (at_ i)) as V' by (intros; apply V; lia).
          assert (forall g t, In (g, t) (map (fun i => (at_ i, at_ (i - 1))) (filter f (seq (S a) N))) -> valid links g) as Vs.
          { intros g t Hin. apply in_map_iff in Hin. destruct Hin as (q & E & Hq). injection E as <- <-. apply filter_In in Hq. destruct Hq as (Hq & _). apply in_seq in Hq. apply V'. lia. }
          cbn [seq filter] in H. destruct (f a) eqn:FN.
          + cbn [map foldM] in H. apply bind_ok in H. destruct H as (m1 & H1 & H).
            assert (forall k, inM m1 k <-> inM m k \/ (k = at_ a /\ inM m (at_ (a - 1)))) as K by (intros k; apply (across_in _ _ _ _ k H1), V; lia).
            destruct (Nat.eq_dec j (a - 1)) as [->|].
            * destruct (Nat.eq_dec i (a - 1)) as [->|].
              -- eapply across_mono; [exact H|exact Vs|apply K; auto].
              -- eapply (IH (S a) m1 H V' ltac:(lia) i a); [lia|lia|intros; apply F; lia|]. apply K. right. auto.
            * eapply (IH (S a) m1 H V' ltac:(lia) i j); [lia|lia|auto|]. apply K. auto.
          + destruct (Nat.eq_dec j (a - 1)) as [->|].
            * destruct (Nat.eq_dec i (a - 1)) as [->|].
              -- eapply across_mono; [exact H|exact Vs|auto].
              -- rewrite F in FN by lia. discriminate.
            * eapply (IH (S a) m H V' ltac:(lia) i j); [lia|lia|auto|auto].
      Qed.
    End Sweep.

    Lemma step_sound m id m' dst : matrix_step links m id = Ok m' -> (forall k, inM m k -> leads links k dst) -> forall k, inM m' k -> leads links k dst.
    Proof.
      unfold matrix_step. intros H Hm. apply bind_ok in H. destruct H as (l & G & H). unfold get_link in G. destruct (sm_get links id) as [l'|] eqn:Gl; [|discriminate G]. injection G as ->.
      apply bind_ok in H. destruct H as (m1 & H1 & H).
      assert (forall k, inM m1 k -> leads links k dst) as Hm1.
      { eapply (foldM_inv (fun m => forall k, inM m k -> leads links k dst)); [|exact H1|exact Hm]. intros ma i mb _ Ha E k Hk. apply (back_in _ _ _ k E) in Hk.
        destruct Hk as [|(-> & o & So & Io)]; auto. eapply rt_trans; [apply rt_step; left; exact So|apply Ha; auto]. }
      destruct (lk_group l) as [g|] eqn:Eg; [|injection H as <-; auto]. apply bind_ok in H. destruct H as (lcs & Hl & H).
      destruct (group_call _ _ _ Gl Eg) as (Hg & _ & L16). destruct (changes_in g L16) as (lcs' & E & S1). rewrite Hl in E. injection E as <-.
      eapply (foldM_inv (fun m => forall k, inM m k -> leads links k dst)); [|exact H|exact Hm1]. intros ma (f, t) mb Hin Ha E k Hk. apply S1 in Hin.
      assert (valid links f) as Vf by (eapply group_valid; eauto; apply (lane_step_in _ _ _ _ Hin)).
      apply (across_in _ _ _ _ k E Vf) in Hk. destruct Hk as [|(-> & It)]; auto. eapply rt_trans; [apply rt_step; right; apply chg_iff; split; [exact Vf|eauto]|apply Ha; auto].
    Qed.
    Lemma step_mono m id m' k : matrix_step links m id = Ok m' -> inM m k -> inM m' k.
    Proof.
      unfold matrix_step. intros H Hm. apply bind_ok in H. destruct H as (l & G & H). unfold get_link in G. destruct (sm_get links id) as [l'|] eqn:Gl; [|discriminate G]. injection G as ->.
      apply bind_ok in H. destruct H as (m1 & H1 & H). apply (backs_mono _ _ _ k) in H1; auto.
      destruct (lk_group l) as [g|] eqn:Eg; [|injection H as <-; auto]. apply bind_ok in H. destruct H as (lcs & Hl & H).
      destruct (group_call _ _ _ Gl Eg) as (_ & _ & L16). destruct (changes_in g L16) as (lcs' & E & S1). rewrite Hl in E. injection E as <-.
      eapply across_mono; [exact H| |exact H1]. intros f t Hin. apply S1 in Hin. eapply group_valid; eauto; apply (lane_step_in _ _ _ _ Hin).
    Qed.
    Lemma step_hit m id m' x : matrix_step links m id = Ok m' -> changes links id x ->
      inM m x \/ (exists o, succ_of links x o /\ inM m o) -> inM m' id.
    Proof.
      unfold matrix_step. intros H Hc Hx. apply bind_ok in H. destruct H as (l & G & H). unfold get_link in G. destruct (sm_get links id) as [l'|] eqn:Gl; [|discriminate G]. injection G as ->.
      apply bind_ok in H. destruct H as (m1 & H1 & H). unfold group_links in H1. destruct (lk_group l) as [g|] eqn:Eg.
      - apply bind_ok in H. destruct H as (lcs & Hl & H). destruct (group_call _ _ _ Gl Eg) as (Hg & Hid & L16).
        apply (changes_group id _ _ Hg Hid (group_valid _ _ _ Gl Eg) x) in Hc.
        apply In_nth_error in Hid. destruct Hid as (i & Hi). pose proof (apart_nodup _ _ _ Apart Hg) as N.
        unfold lane_reach in Hc. rewrite (lift_reach (g_links g) (may_change (g_mask g)) (lane_step (g_links g) (g_mask g)) i id N Hi) in Hc by (intros; reflexivity).
        destruct Hc as (j & Hij & Ej).
        assert (inM m1 x) as I1.
        { destruct Hx as [Hx|Hx]; [eapply backs_mono; eauto|]. eapply backs_hit; eauto. eapply nth_error_In; eauto. }
        assert (clos_refl_trans nat (may_change (g_mask g)) i j) as Hij'.
        { clear -Hij. induction Hij as [a b (_ & _ & H)|a|a b c _ IH1 _ IH2]; [apply rt_step; auto|apply rt_refl|eapply rt_trans; eauto]. }
        apply walk_monotone in Hij'. assert (i < length (g_links g)) as Li by (apply nth_error_Some; congruence). assert (j < length (g_links g)) as Lj by (apply nth_error_Some; congruence).
        unfold g_lane_changes in Hl.
        rewrite (filterM_ok (fun i => N.testbit (g_mask g) (N.of_nat (2 * i + 1)))) in Hl.
        2:{ intros y Hy. apply in_rev in Hy. apply in_seq in Hy. apply (lc_bit_ok g y DRight). lia. }
        cbn [bind] in Hl. rewrite (filterM_ok (fun i => N.testbit (g_mask g) (N.of_nat (2 * i + 0)))) in Hl.
        2:{ intros y Hy. apply in_seq in Hy. apply (lc_bit_ok g y DLeft). lia. }
        cbn [bind] in Hl. injection Hl as <-. set (at_ := fun i => nth i (g_links g) null_key) in *.
        assert (forall k y, nth_error (g_links g) k = Some y -> at_ k = y) as At by (intros k y Ey; apply nth_error_nth; auto).
        assert (forall k, k < length (g_links g) -> valid links (at_ k)) as Va by (intros k Hk; eapply group_valid; eauto; apply nth_In; auto).
        rewrite foldM_app in H. apply bind_ok in H. destruct H as (m2 & H2 & H).
        rewrite <- (At _ _ Hi). rewrite <- (At _ _ Ej) in I1.
        assert (forall k, inM m1 k -> inM m2 k) as M12.
        { intros k Ik. eapply across_mono; [exact H2| |exact Ik]. intros f t Hin. apply in_map_iff in Hin. destruct Hin as (q & E & Hq). injection E as <- <-. apply filter_In in Hq. destruct Hq as (Hq & _). apply in_rev in Hq. apply in_seq in Hq. apply Va. lia. }
        destruct Hij' as [(L & F)|(L & F)].
        + eapply across_mono; [exact H| |].
          * intros f t Hin. apply in_map_iff in Hin. destruct Hin as (q & E & Hq). injection E as <- <-. apply filter_In in Hq. destruct Hq as (Hq & _). apply in_seq in Hq. apply Va. lia.
          * eapply (sweep_right at_ _ _ _ _ H2) with (j := j); [intros; apply Va; lia|lia|exact F|exact I1].
        + eapply (sweep_left at_ _ _ _ _ _ H) with (j := j); [intros; apply Va; lia|lia|lia|lia| |apply M12; exact I1].
          intros k Hk. cbv beta. rewrite Nat.add_0_r. apply F. exact Hk.
      - injection H as <-. destruct (lanes_changes _ _ Gl) as (to & _ & E1 & _ & S1 & _). unfold reachable_lanes in E1. rewrite Eg in E1. injection E1 as <-.
        apply S1 in Hc. rewrite (lo_id _ _ _ (nk_link _ hist_net _ _ Gl)) in Hc. destruct Hc as [<-|[]].
        destruct Hx as [Hx|Hx]; [eapply backs_mono; eauto|]. eapply backs_hit; eauto. left; auto.
    Qed.

    Lemma table_sound dst p m : valid links dst -> calc_lane_matrix links dst p = Ok m -> forall k, inM m k -> leads links k dst.
    Proof.
      unfold calc_lane_matrix. intros Vd H. eapply (foldM_inv (fun m => forall k, inM m k -> leads links k dst)); [|exact H|].
      - intros ma id mb _ Ha E. eapply step_sound; eauto.
      - intros k Hk. apply inM_insert in Hk; [|apply valid_not_null; auto]. destruct Hk as [->|Hk]; [apply rt_refl|]. unfold inM in Hk. simpl in Hk. congruence.
    Qed.
    Lemma table_hit dst src p b z m : valid links dst -> calc_lane_matrix links dst p = Ok m -> drive links src p b z -> changes links b dst -> inM m src /\ inM m dst.
    Proof.
      unfold calc_lane_matrix. intros Vd H D Hb. set (m0 := mx_insert [] dst dists_exit) in H.
      assert (inM m0 dst) as I0 by (apply inM_insert; [apply valid_not_null; auto|auto]).
      split; [|eapply (foldM_inv (fun m => inM m dst)); [|exact H|exact I0]; intros ma id mb _ Ha E; eapply step_mono; eauto].
      revert m H. induction D as [a|a x l b p c z Hx G Ho D IH]; intros m H.
      - simpl in H. apply bind_ok in H. destruct H as (m1 & H1 & H). injection H as <-. eapply step_hit; eauto.
      - cbn [rev] in H. rewrite foldM_app in H. apply bind_ok in H. destruct H as (m1 & H1 & H). simpl in H. apply bind_ok in H. destruct H as (m2 & H2 & H). injection H as <-.
        specialize (IH Hb _ H1). eapply step_hit; [exact H2|exact Hx|]. right. exists b. split; auto. exists l; auto.
    Qed.

    (** Routing to a destination. *)
    Lemma reroute_ok e pf pf' : valid links (pf_src pf) -> valid links (pf_dst pf) -> reroute e links pf = Ok pf' ->
      pf_src pf' = pf_src pf /\ pf_dst pf' = pf_dst pf /\
      (leads links (pf_src pf) (pf_dst pf) -> inM (pf_matrix pf') (pf_src pf) /\ forall k, inM (pf_matrix pf') k -> leads links k (pf_dst pf)) /\
      (~ leads links (pf_src pf) (pf_dst pf) -> pf' = pf).
    Proof.
      intros Vs Vd H. unfold reroute in H.
      replace (key_eqb (pf_src pf) null_key) with false in H by (symmetry; apply key_eqb_neq, valid_not_null; auto).
      replace (key_eqb (pf_dst pf) null_key) with false in H by (symmetry; apply key_eqb_neq, valid_not_null; auto). cbn [orb] in H.
      apply bind_ok in H. destruct H as (dl & G & H). unfold get_link in G. destruct (sm_get links (pf_dst pf)) as [dl'|] eqn:Gd; [|discriminate G]. injection G as ->.
      apply bind_ok in H. destruct H as (dsts & Hd & H). apply bind_ok in H. destruct H as (r & Hr & H).
      pose proof (search_ok (e_fuel e) (e_pick e links (pf_src pf) (pf_dst pf)) _ _ _ _ Vs Gd Hd) as S. rewrite Hr in S. destruct r as [(p, c)|].
      - destruct S as ((b & D & Hb) & _). apply bind_ok in H. destruct H as (m & Hm & H). injection H as <-. cbn [pf_src pf_dst pf_matrix]. split; auto. split; auto. split.
        + intros _. split; [apply (table_hit _ _ _ _ _ _ Vd Hm D Hb)|exact (table_sound _ _ _ Vd Hm)].
        + intros NL. exfalso. apply NL. apply leads_drive. eauto.
      - injection H as <-. split; auto. split; auto. split; auto. intros L. contradiction.
    Qed.
  End Net.
End RP.
