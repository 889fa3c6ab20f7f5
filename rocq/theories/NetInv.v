(** * Well-formed networks, and the safety of the routing functions on them *)
From Coq Require Import List Bool ZArith NArith Arith Lia.
From Verif Require Import Arith Base BaseProofs SlotMap Util Geom Light Accel Net Path Vehicle LinkOps Sim SpecSim SlotMapProofs Safe.
From Verif Require SpecRoute DijProofs.
Import ListNotations.

Section NetInv.
  Context {A : Arith}.

  (** The ordered pairs of different links, row by row. *)
  Definition pairs (ids : list key) : list (key * key) :=
    filter (fun sd => negb (key_eqb (fst sd) (snd sd))) (list_prod ids ids).

  Record group_ok (V : key -> Prop) (g : group) : Prop := {
    go_len : 2 <= length (g_links g) <= 16;
    go_valid : Forall V (g_links g);
    go_projs : Forall2 (fun sd p => pj_src p = fst sd /\ pj_dst p = snd sd) (pairs (g_links g)) (g_projs g)
  }.

  Record link_ok (V : key -> Prop) (k : key) (l : link) : Prop := {
    lo_id : lk_id l = k;
    lo_in : Forall V (lk_in l);
    lo_out : Forall V (lk_out l);
    lo_chg : Forall V (lk_changes l);
    lo_group : forall g, lk_group l = Some g -> group_ok V g /\ In k (g_links g);
    lo_conf : Forall (fun c => V (cf_link c)) (lk_conflicts l);
    lo_last : lk_last l < length (lk_conflicts l) \/ lk_last l = 0;
    lo_segs : lc_segments (lk_curve l) <> []
  }.

  Record net_ok (links : linkset) : Prop := {
    nk_wf : sm_wf links;
    nk_link : forall k l, sm_get links k = Some l -> link_ok (valid links) k l
  }.

  Lemma valid_get links k : valid links k <-> exists l, sm_get links k = Some l.
  Proof. apply sm_mem_get. Qed.
  Lemma get_valid links k l : sm_get links k = Some l -> valid links k.
  Proof. intros; apply valid_get; eauto. Qed.

  Lemma group_ok_mono (V V' : key -> Prop) g : (forall k, V k -> V' k) -> group_ok V g -> group_ok V' g.
  Proof. intros H []; split; auto. eapply Forall_impl; eauto. Qed.
  Lemma link_ok_mono (V V' : key -> Prop) k l : (forall k, V k -> V' k) -> link_ok V k l -> link_ok V' k l.
  Proof.
    intros H []; split; auto; try (eapply Forall_impl; [|eauto]; simpl; auto).
    intros g Hg. destruct (lo_group0 g Hg). split; auto. eapply group_ok_mono; eauto.
  Qed.

  Lemma net_ok_empty : net_ok sm_empty.
  Proof. split; [apply sm_wf_empty|]. intros k l H. rewrite sm_get_empty in H. discriminate. Qed.

  Lemma valid_set links k l k' : valid (sm_set links k l) k' <-> valid links k'.
  Proof. unfold valid. rewrite sm_mem_set. tauto. Qed.

  Lemma net_ok_set links k l : net_ok links -> link_ok (valid links) k l -> net_ok (sm_set links k l).
  Proof.
    intros N L. split; [apply sm_wf_set, N|]. intros k' l' H. rewrite sm_get_set in H.
    assert (link_ok (valid links) k' l') as L'.
    { destruct (key_eqb_spec k k'); simpl in H.
      - subst. destruct (sm_mem links k'); [inversion H; subst; auto|]. apply N; auto.
      - apply N; auto. }
    eapply link_ok_mono; [|exact L']. intros. apply valid_set; auto.
  Qed.

  Lemma net_ok_insert links l : net_ok links ->
    link_ok (valid (sm_insert links l)) (sm_next_key links) l -> net_ok (sm_insert links l).
  Proof.
    intros N L. split; [apply sm_wf_insert, N|]. intros k' l' H. rewrite sm_get_insert in H by apply N.
    destruct (key_eqb_spec (sm_next_key links) k'); [inversion H; subst; auto|].
    eapply link_ok_mono; [|apply N; eauto]. intros k Hk. apply valid_get. rewrite sm_get_insert by apply N.
    destruct (key_eqb _ _); eauto. apply valid_get; auto.
  Qed.

  (** The network only grows. *)
  Record net_le (links links' : linkset) : Prop := {
    nl_valid : forall k, valid links k -> valid links' k;
    nl_succ : forall a b, succ_of links a b -> succ_of links' a b;
    nl_chg : forall a b, chg_of links a b -> chg_of links' a b
  }.
  Lemma net_le_refl links : net_le links links. Proof. split; auto. Qed.
  Lemma net_le_trans a b c : net_le a b -> net_le b c -> net_le a c.
  Proof. intros [] []; split; auto. Qed.

  Lemma net_le_set links k l l' : sm_get links k = Some l ->
    incl (lk_out l) (lk_out l') -> incl (lk_changes l) (lk_changes l') -> net_le links (sm_set links k l').
  Proof.
    intros H Ho Hc. split.
    - intros. apply valid_set; auto.
    - intros a b (la & Ha & Hb). unfold succ_of. rewrite sm_get_set. destruct (key_eqb_spec k a); simpl; eauto.
      subst. replace (sm_mem links a) with true by (symmetry; apply sm_mem_get; eauto). rewrite H in Ha. inversion Ha; subst. eauto.
    - intros a b (la & Ha & Hb). unfold chg_of. rewrite sm_get_set. destruct (key_eqb_spec k a); simpl; eauto.
      subst. replace (sm_mem links a) with true by (symmetry; apply sm_mem_get; eauto). rewrite H in Ha. inversion Ha; subst. eauto.
  Qed.
  Lemma net_le_insert links l : sm_wf links -> net_le links (sm_insert links l).
  Proof.
    intros W. assert (forall k l0, sm_get links k = Some l0 -> sm_get (sm_insert links l) k = Some l0) as K.
    { intros k l0 H. rewrite sm_get_insert by auto. destruct (key_eqb_spec (sm_next_key links) k); auto.
      subst. rewrite next_key_fresh in H by auto. discriminate. }
    split.
    - intros k H. apply valid_get in H. destruct H as (l0 & H). apply valid_get. eauto.
    - intros a b (la & Ha & Hb). exists la; auto.
    - intros a b (la & Ha & Hb). exists la; auto.
  Qed.

  Lemma chain_mono links links' r : net_le links links' -> chain links r -> chain links' r.
  Proof.
    intros L. induction r as [|a r IH]; simpl; auto. intros (Hv & Hs & Hc). repeat split; auto.
    - apply L; auto.
    - destruct r; auto. apply L; auto.
  Qed.
  Lemma chain_valid links r k : chain links r -> In k r -> valid links k.
  Proof. induction r as [|a r IH]; simpl; [tauto|]. intros (Hv & _ & Hc) [->|]; auto. Qed.
  Lemma chain_app links r a b : chain links (r ++ [a]) -> valid links b -> succ_of links a b -> chain links (r ++ [a; b]).
  Proof.
    induction r as [|x r IH]; simpl.
    - intros (Hv & _ & _) Hb Hs. repeat split; auto.
    - intros (Hv & Hs & Hc) Hb Hab. split; auto. split; auto. destruct r; simpl in *; auto.
  Qed.

  Section Routing.
    Variable E : panic -> Prop.
    Variable links : linkset.
    Hypothesis N : net_ok links.

    Lemma get_link_safe k : valid links k -> safe E (get_link links k) (fun l => sm_get links k = Some l).
    Proof. intros H. apply valid_get in H. destruct H as (l & H). unfold get_link. rewrite H. simpl. auto. Qed.

    Lemma find_link_in g k : In k (g_links g) -> exists i, find_link g k = Some i /\ nth_error (g_links g) i = Some k.
    Proof.
      intros H. unfold find_link. destruct (position _ _) as [i|] eqn:P.
      - exists i. split; auto. apply position_some in P. destruct P as (x & Hx & Ex). apply key_eqb_eq in Ex. congruence.
      - eapply position_none in P; eauto. rewrite key_eqb_refl in P. discriminate.
    Qed.
    Lemma find_link_some g k i : find_link g k = Some i -> nth_error (g_links g) i = Some k.
    Proof.
      unfold find_link. intros P. apply position_some in P. destruct P as (x & Hx & Ex). apply key_eqb_eq in Ex. congruence.
    Qed.
    Lemma find_link_none g k : find_link g k = None -> ~ In k (g_links g).
    Proof.
      unfold find_link. intros P H. eapply position_none in P; eauto. rewrite key_eqb_refl in P. discriminate.
    Qed.

    Lemma walk_left_safe test i : (forall j, 0 < j <= i -> safe E (test j) (fun _ => True)) ->
      safe E (walk_left test i) (fun j => j <= i).
    Proof.
      induction i; intros H; simpl; auto. eapply safe_bind; [apply H; lia|]. intros [] _ _; simpl; auto.
      eapply safe_weaken; [apply IHi; intros; apply H; lia|]. intros; simpl in *; lia.
    Qed.
    Lemma walk_right_safe test todo i : (forall j, i <= j < i + todo -> safe E (test j) (fun _ => True)) ->
      safe E (walk_right test todo i) (fun j => i <= j <= i + todo).
    Proof.
      revert i; induction todo; intros i H; simpl; [lia|]. eapply safe_bind; [apply H; lia|]. intros [] _ _; simpl; [|lia].
      eapply safe_weaken; [apply IHtodo; intros; apply H; lia|]. intros; simpl in *; lia.
    Qed.
    Lemma lc_bit_safe g i d : i < 16 -> safe E (lc_bit g i d) (fun _ => True).
    Proof.
      intros H. unfold lc_bit. destruct (Nat.ltb_spec (2 * i + match d with DLeft => 0 | DRight => 1 end) 32); simpl; auto.
      destruct d; lia.
    Qed.

    Lemma slice_incl {X} a b (l : list X) : incl (slice a b l) l.
    Proof. unfold slice. intros x H. eapply skipn_in, firstn_in, H. Qed.

    Lemma g_reachable_lanes_safe V g i : group_ok V g -> i < length (g_links g) ->
      safe E (g_reachable_lanes g i) (fun ks => incl ks (g_links g)).
    Proof.
      intros G Hi. destruct (go_len _ _ G). unfold g_reachable_lanes.
      eapply safe_bind; [apply walk_left_safe; intros; apply lc_bit_safe; lia|]. intros a _ Ha.
      eapply safe_bind; [apply walk_right_safe; intros; apply lc_bit_safe; lia|]. intros b _ Hb. simpl. apply slice_incl.
    Qed.
    Lemma g_reachable_from_lanes_safe V g i : group_ok V g -> i < length (g_links g) ->
      safe E (g_reachable_from_lanes g i) (fun ks => incl ks (g_links g)).
    Proof.
      intros G Hi. destruct (go_len _ _ G). unfold g_reachable_from_lanes.
      eapply safe_bind; [apply walk_left_safe; intros; apply lc_bit_safe; lia|]. intros a _ Ha.
      eapply safe_bind; [apply walk_right_safe; intros; apply lc_bit_safe; lia|]. intros b _ Hb. simpl. apply slice_incl.
    Qed.

    Lemma reachable_lanes_safe k l : sm_get links k = Some l ->
      safe E (reachable_lanes l) (Forall (valid links)).
    Proof.
      intros H. pose proof (nk_link _ N _ _ H) as L. unfold reachable_lanes. destruct (lk_group l) as [g|] eqn:G.
      - destruct (lo_group _ _ _ L g G) as (Gk & Hin). rewrite <- (lo_id _ _ _ L) in Hin.
        destruct (find_link_in g _ Hin) as (i & Hf & Hn). rewrite Hf. simpl.
        eapply safe_weaken; [eapply g_reachable_lanes_safe; eauto|].
        + apply nth_error_Some. congruence.
        + intros ks _ Hk. rewrite Forall_forall. intros x Hx. pose proof (go_valid _ _ Gk) as F. rewrite Forall_forall in F. auto.
      - simpl. constructor; auto. rewrite (lo_id _ _ _ L). eapply get_valid; eauto.
    Qed.
    Lemma reachable_from_lanes_safe k l : sm_get links k = Some l ->
      safe E (reachable_from_lanes l) (Forall (valid links)).
    Proof.
      intros H. pose proof (nk_link _ N _ _ H) as L. unfold reachable_from_lanes. destruct (lk_group l) as [g|] eqn:G.
      - destruct (lo_group _ _ _ L g G) as (Gk & Hin). rewrite <- (lo_id _ _ _ L) in Hin.
        destruct (find_link_in g _ Hin) as (i & Hf & Hn). rewrite Hf. simpl.
        eapply safe_weaken; [eapply g_reachable_from_lanes_safe; eauto|].
        + apply nth_error_Some. congruence.
        + intros ks _ Hk. rewrite Forall_forall. intros x Hx. pose proof (go_valid _ _ Gk) as F. rewrite Forall_forall in F. auto.
      - simpl. constructor; auto. rewrite (lo_id _ _ _ L). eapply get_valid; eauto.
    Qed.

    Lemma g_lane_changes_in g lcs : g_lane_changes g = Ok lcs ->
      forall ft, In ft lcs -> In (fst ft) (g_links g) /\ In (snd ft) (g_links g).
    Proof.
      unfold g_lane_changes. intros H. inv_bind.
      assert (incl x (rev (seq 0 (length (g_links g) - 1)))) as I1.
      { clear Hx0. pose proof (safe_filterM (fun _ => True) (fun i => lc_bit g i DRight) (rev (seq 0 (length (g_links g) - 1)))) as S.
        rewrite Hx in S. apply S. intros. destruct (lc_bit _ _ _); simpl; auto. }
      assert (incl x0 (seq 1 (length (g_links g) - 1))) as I2.
      { pose proof (safe_filterM (fun _ => True) (fun i => lc_bit g i DLeft) (seq 1 (length (g_links g) - 1))) as S.
        rewrite Hx0 in S. apply S. intros. destruct (lc_bit _ _ _); simpl; auto. }
      intros ft Hft. apply in_app_iff in Hft. rewrite !in_map_iff in Hft.
      destruct Hft as [(i & <- & Hi)|(i & <- & Hi)]; simpl.
      - apply I1 in Hi. rewrite <- in_rev, in_seq in Hi. split; apply nth_In; lia.
      - apply I2 in Hi. rewrite in_seq in Hi. split; apply nth_In; lia.
    Qed.
    Lemma g_lane_changes_safe V g : group_ok V g -> safe E (g_lane_changes g) (fun _ => True).
    Proof.
      intros G. destruct (go_len _ _ G). unfold g_lane_changes.
      eapply safe_bind; [apply safe_filterM; intros i Hi; apply lc_bit_safe; rewrite <- in_rev, in_seq in Hi; lia|]. intros.
      eapply safe_bind; [apply safe_filterM; intros i Hi; apply lc_bit_safe; rewrite in_seq in Hi; lia|]. intros. simpl. auto.
    Qed.

    Lemma successors_safe k : valid links k -> safe E (successors links k) (Forall (fun kw => valid links (fst kw))).
    Proof.
      intros H. unfold successors. eapply safe_bind; [apply get_link_safe; auto|]. intros l _ Hl. simpl in Hl.
      eapply safe_bind; [eapply reachable_lanes_safe; eauto|]. intros lanes _ HF.
      eapply safe_bind.
      - apply (safe_mapM_all E (Forall (fun kw : key * Z => valid links (fst kw)))). intros x Hx.
        rewrite Forall_forall in HF. eapply safe_bind; [apply get_link_safe; auto|]. intros lx _ Hlx. simpl in *.
        pose proof (lo_out _ _ _ (nk_link _ N _ _ Hlx)) as F. rewrite Forall_forall in *. intros kw Hkw.
        apply in_map_iff in Hkw. destruct Hkw as (o & <- & Ho). simpl. auto.
      - intros ess _ Hess. simpl. rewrite Forall_forall in *. intros kw Hkw. apply in_concat in Hkw.
        destruct Hkw as (es & Hes & Hkw). apply Hess in Hes. rewrite Forall_forall in Hes. auto.
    Qed.

    (** Every node of the table, of the heap and of the result is valid. *)
    Definition tab_ok (t : dtable) : Prop :=
      forall k o c, dt_get t k = Some (o, c) -> valid links k /\ match o with Some p => valid links p | None => True end.
    Lemma dt_get_set t k v k' : dt_get (dt_set t k v) k' = if key_eqb k k' then Some v else dt_get t k'.
    Proof.
      induction t as [|[k1 v1] t IH]; simpl; auto.
      destruct (key_eqb_spec k1 k); simpl.
      - subst. destruct (key_eqb k k'); auto.
      - destruct (key_eqb_spec k1 k'); auto. subst. destruct (key_eqb_spec k k'); auto. congruence.
    Qed.
    Lemma heap_pop_in pick h e h' : heap_pop pick h = Some (e, h') -> In e h /\ incl h' h.
    Proof.
      unfold heap_pop. destruct (heap_min h); try discriminate.
      match goal with |- context [nth_error h ?i] => destruct (nth_error h i) eqn:E1; try discriminate end.
      all: intros H; inversion H; subst; clear H; split; [eapply nth_error_In; eauto|].
      intros x Hx. unfold remove_at in Hx. apply in_app_iff in Hx. destruct Hx as [Hx|Hx]; [eapply firstn_in|eapply skipn_in]; eauto.
    Qed.

    Lemma relax_safe node cost es t h : E POverflow -> valid links node -> Forall (fun kw => valid links (fst kw)) es ->
      tab_ok t -> Forall (fun e => valid links (snd e)) h ->
      safe E (dij_relax node cost es t h) (fun th => tab_ok (fst th) /\ Forall (fun e => valid links (snd e)) (snd th)).
    Proof.
      intros EO Hn. revert t h; induction es as [|[s w] es IH]; intros t h Hes Ht Hh; simpl; auto.
      inversion Hes; subst. simpl in *. destruct (Z.ltb usize_max (cost + w)); simpl; auto.
      destruct (match dt_get t s with Some (_, c') => _ | None => _ end); apply IH; auto.
      - intros k o c Hk. rewrite dt_get_set in Hk. destruct (key_eqb_spec s k); eauto. inversion Hk; subst. auto.
      - apply Forall_app. split; auto.
    Qed.
    Lemma dij_run_safe fuel pick goal t h : E POverflow -> tab_ok t -> Forall (fun e => valid links (snd e)) h ->
      safe E (dij_run fuel pick (successors links) goal t h)
        (fun r => match r with None => True | Some (n, t) => valid links n /\ goal n = true /\ tab_ok t end).
    Proof.
      intros EO. revert pick t h; induction fuel; intros pick t h Ht Hh; simpl; auto.
      destruct (heap_pop (pick O) h) as [[[cost node] h']|] eqn:P; simpl; auto.
      apply heap_pop_in in P. destruct P as (Hin & Hincl). rewrite Forall_forall in Hh.
      assert (valid links node) as Hv by (apply Hh in Hin; auto).
      assert (Forall (fun e => valid links (snd e)) h') as Hh'. { apply Forall_forall. auto. }
      destruct (goal node) eqn:Hg; simpl; auto.
      destruct (match dt_get t node with Some (_, c) => _ | None => _ end); [apply IHfuel; auto|].
      eapply safe_bind; [apply successors_safe; auto|]. intros es _ Hes.
      eapply safe_bind; [apply relax_safe; auto|]. intros [t2 h2] _ (H1 & H2). simpl in *. apply IHfuel; auto.
    Qed.
    Lemma dij_path_safe fuel t node acc : tab_ok t -> valid links node -> Forall (valid links) acc ->
      safe E (dij_path fuel t node acc) (Forall (valid links)).
    Proof.
      intros Ht. revert node acc; induction fuel; intros node acc Hn Hacc; simpl; auto.
      destruct (dt_get t node) as [[[p|] c]|] eqn:G; simpl; auto.
      apply IHfuel; auto. apply Ht in G. tauto.
    Qed.
    Lemma dijkstra_safe_weak fuel pick start goal : E POverflow -> valid links start ->
      safe E (dijkstra fuel pick start (successors links) goal)
        (fun r => match r with None => True | Some (p, _) => Forall (valid links) p end).
    Proof.
      intros EO H. unfold dijkstra. eapply safe_bind; [apply (dij_run_safe _ _ _ _ _ EO)|].
      - intros k o c. simpl. destruct (key_eqb_spec start k); [|discriminate]. intros E1. inversion E1; subst. auto.
      - constructor; auto.
      - intros [[node t]|] _; simpl; auto. intros (Hn & _ & Ht). eapply safe_bind; [apply dij_path_safe; auto|].
        intros p _ Hp. simpl. auto.
    Qed.

    (** Without overflow if the costs are low. *)
    Lemma costs_dec : costs_too_high links \/ forall k l, sm_get links k = Some l -> (0 <= lk_cost l /\ Z.of_nat (length (sm_keys links)) * lk_cost l <= usize_max)%Z.
    Proof.
      set (n := Z.of_nat (length (sm_keys links))). set (bad := fun kl : key * link => ((lk_cost (snd kl) <? 0) || (usize_max <? n * lk_cost (snd kl)))%Z).
      destruct (existsb bad (sm_entries links)) eqn:B.
      - left. apply existsb_exists in B. destruct B as ((k, l) & Hin & B). exists k, l. split; [apply in_entries; auto; apply N|]. unfold bad in B. cbn [snd] in B. apply orb_true_iff in B. destruct B as [B|B]; apply Z.ltb_lt in B; auto.
      - right. intros k l Hk. assert (bad (k, l) = false) as X.
        { destruct (bad (k, l)) eqn:Y; auto. rewrite <- B. symmetry. apply existsb_exists. exists (k, l). split; auto. apply in_entries; auto; apply N. }
        unfold bad in X. cbn [snd] in X. apply orb_false_iff in X. destruct X as (X1 & X2). apply Z.ltb_ge in X1, X2. auto.
    Qed.
    Lemma successors_cost a es b w : successors links a = Ok es -> In (b, w) es -> exists k l, sm_get links k = Some l /\ w = lk_cost l.
    Proof.
      unfold successors. intros H Hin. inv_bind. apply in_concat in Hin. destruct Hin as (ds & Hds & Hin).
      assert (forall xs ys, mapM (fun k => bind (get_link links k) (fun l => Ok (map (fun o => (o, lk_cost l)) (lk_out l)))) xs = Ok ys -> In ds ys -> exists k l, sm_get links k = Some l /\ w = lk_cost l) as K; [|eauto].
      induction xs as [|z xs IH]; intros ys H Hy; simpl in H; [injection H as <-; destruct Hy|]. unfold get_link in H. destruct (sm_get links z) as [lz|] eqn:Gz; [|discriminate H]. simpl in H.
      destruct (mapM _ xs) as [ys'| |] eqn:M; try discriminate H. simpl in H. injection H as <-. destruct Hy as [<-|Hy]; [|eapply IH; eauto].
      apply in_map_iff in Hin. destruct Hin as (o & Eo & _). injection Eo as _ <-. eauto.
    Qed.
    Variable EO : costs_too_high links -> E POverflow.
    Lemma dijkstra_safe fuel pick start goal : valid links start ->
      safe E (dijkstra fuel pick start (successors links) goal)
        (fun r => match r with None => True | Some (p, _) => Forall (valid links) p end).
    Proof.
      intros Hs. destruct costs_dec as [B|G]; [apply dijkstra_safe_weak; auto|].
      assert (forall a es b w, successors links a = Ok es -> In (b, w) es -> (0 <= w)%Z) as W. { intros a es b w H1 H2. destruct (successors_cost _ _ _ _ H1 H2) as (k & l & Hk & ->). apply (G k l Hk). }
      assert (forall a es b w, valid links a -> successors links a = Ok es -> In (b, w) es -> valid links b) as Cl.
      { intros a es b w Va H1 H2. pose proof (successors_safe a Va) as S. rewrite H1 in S. simpl in S. rewrite Forall_forall in S. apply (S _ H2). }
      destruct (dijkstra fuel pick start (successors links) goal) as [[(p, c)|]|q|] eqn:D; simpl; auto.
      - destruct (DijProofs.dijkstra_some _ _ _ W _ _ _ _ D) as ((k & _ & Rk) & _). clear - Rk Hs Cl. induction Rk as [a|a es b w p k c Sa Hb Rk IH]; constructor; auto. apply IH. eauto.
      - set (n := Z.of_nat (length (sm_keys links))). assert (In start (sm_keys links)) as Hin by (apply in_keys; exact Hs).
        assert (1 <= n)%Z as Hn. { unfold n. destruct (sm_keys links); [destruct Hin|simpl length; lia]. }
        assert (exists a, In a (sm_keys links) /\ successors links a = Panic q) as (a & Ha & Ea).
        2:{ apply in_keys in Ha. pose proof (successors_safe a Ha) as S. rewrite Ea in S. exact S. }
        revert D. apply (DijProofs.dijkstra_low (successors links) goal start W (sm_keys links)) with (W := (usize_max / n)%Z).
        + exact Hin.
        + intros a es b w Ha H1 H2. apply in_keys. apply in_keys in Ha. exact (Cl _ _ _ _ Ha H1 H2).
        + apply Z.div_pos; [unfold usize_max; lia|lia].
        + intros a es b w _ H1 H2. destruct (successors_cost _ _ _ _ H1 H2) as (k & l & Hk & ->). apply Z.div_le_lower_bound; [lia|]. apply (G k l Hk).
        + fold n. apply Z.mul_div_le. lia.
    Qed.

    (** The lane matrix *)
    Lemma propagate_back_safe m id : valid links id -> safe E (propagate_back links m id) (fun _ => True).
    Proof.
      intros H. unfold propagate_back. eapply safe_bind; [apply get_link_safe; auto|]. intros l _ _.
      destruct (reduce _ _); simpl; auto.
    Qed.
    Lemma propagate_across_safe m ft : valid links (fst ft) -> safe E (propagate_across links m ft) (fun _ => True).
    Proof.
      intros H. unfold propagate_across. destruct (mx_get m (snd ft)); simpl; auto.
      eapply safe_bind; [apply get_link_safe; auto|]. intros l _ _. simpl. auto.
    Qed.
    Lemma matrix_step_safe m id : valid links id -> safe E (matrix_step links m id) (fun _ => True).
    Proof.
      intros H. unfold matrix_step. eapply safe_bind; [apply get_link_safe; auto|]. intros l _ Hl. simpl in Hl.
      pose proof (nk_link _ N _ _ Hl) as L. unfold group_links.
      eapply safe_bind with (Q := fun _ => True).
      - apply safe_foldM; auto. intros m' x Hx _. apply propagate_back_safe.
        destruct (lk_group l) as [g|] eqn:G.
        + destruct (lo_group _ _ _ L g G) as (Gk & _). pose proof (go_valid _ _ Gk) as F. rewrite Forall_forall in F. auto.
        + destruct Hx as [<-|[]]; auto.
      - intros m' _ _. destruct (lk_group l) as [g|] eqn:G; simpl; auto.
        destruct (lo_group _ _ _ L g G) as (Gk & _).
        eapply safe_bind; [eapply g_lane_changes_safe; eauto|]. intros lcs Hlcs _.
        apply safe_foldM; auto. intros m2 x Hx _. apply propagate_across_safe.
        pose proof (go_valid _ _ Gk) as F. rewrite Forall_forall in F. apply F.
        eapply (g_lane_changes_in g lcs Hlcs x Hx).
    Qed.
    Lemma calc_lane_matrix_safe dst route : Forall (valid links) route ->
      safe E (calc_lane_matrix links dst route) (fun _ => True).
    Proof.
      intros H. unfold calc_lane_matrix. apply safe_foldM; auto. intros m x Hx _. apply matrix_step_safe.
      rewrite <- in_rev in Hx. rewrite Forall_forall in H. auto.
    Qed.

    Definition pf_dst_ok (pf : pathfind) : Prop := pf_dst pf = null_key \/ valid links (pf_dst pf).
    Lemma reroute_safe e pf : valid links (pf_src pf) -> pf_dst_ok pf ->
      safe E (reroute e links pf) (fun pf' => pf_src pf' = pf_src pf /\ pf_dst pf' = pf_dst pf /\ pf_paths pf' = pf_paths pf).
    Proof.
      intros Hs Hd. unfold reroute. destruct (key_eqb (pf_src pf) null_key || key_eqb (pf_dst pf) null_key) eqn:E1; simpl; auto.
      apply orb_false_iff in E1. destruct E1 as (_ & E1). apply key_eqb_neq in E1.
      assert (valid links (pf_dst pf)) as Hv by (destruct Hd; congruence || auto).
      eapply safe_bind; [apply get_link_safe; auto|]. intros dl _ Hdl. simpl in Hdl.
      eapply safe_bind; [eapply reachable_from_lanes_safe; eauto|]. intros dsts _ _.
      eapply safe_bind; [apply dijkstra_safe; auto|]. intros [[route c]|] _ Hr; simpl; auto.
      eapply safe_bind; [apply calc_lane_matrix_safe; auto|]. intros m _ _. simpl. auto.
    Qed.

    (** Paths *)
    Definition path_from (first : key) (p : path) : Prop :=
      chain links (pt_links p) /\ hd_error (pt_links p) = Some first /\ length (pt_links p) <= 8.
    Lemma make_paths_inner_safe room mx dst first pre id dist :
      chain links (pre ++ [id]) -> hd_error (pre ++ [id]) = Some first -> length pre + room <= 7 ->
      safe E (make_paths_inner room links mx dst pre id dist) (fun r => Forall (path_from first) (snd r)).
    Proof.
      revert pre id dist; induction room; intros pre id dist Hc Hh Hl.
      - simpl. destruct (mx_get mx id); simpl; auto. constructor; auto. repeat split; auto. simpl. rewrite app_length. simpl. lia.
      - cbn [make_paths_inner]. destruct (mx_get mx id) as [d|]; simpl; auto.
        assert (path_from first (Path (pre ++ [id]) (dists_offset d dist) (key_eqb id dst))) as Hleaf.
        { repeat split; auto. simpl. rewrite app_length. simpl. lia. }
        destruct (nltb dist PLAN_DIST); simpl; auto.
        assert (valid links id) as Hid by (eapply chain_valid; eauto; rewrite in_app_iff; simpl; auto).
        eapply safe_bind; [apply get_link_safe; auto|]. intros l _ Hlk. simpl in Hlk.
        eapply safe_bind.
        + apply (safe_mapM_all E (fun r => Forall (path_from first) (snd r))). intros s Hs. apply IHroom.
          * rewrite <- app_assoc. simpl. apply chain_app; auto.
            -- pose proof (lo_out _ _ _ (nk_link _ N _ _ Hlk)) as F. rewrite Forall_forall in F. auto.
            -- exists l; auto.
          * destruct pre; simpl in *; auto.
          * rewrite app_length. simpl. lia.
        + intros rs _ Hrs. assert (Forall (path_from first) (concat (map snd rs))) as Hsub.
          { clear -Hrs. induction Hrs; simpl; auto. apply Forall_app; auto. }
          destruct (existsb fst rs); simpl; auto. apply Forall_app; auto.
    Qed.

    (** Candidate paths of a vehicle on [src]. *)
    Definition path_ok (src : key) (p : path) : Prop :=
      exists first, path_from first p /\ (first = src \/ chg_of links src first).
    Lemma make_paths_safe pf : valid links (pf_src pf) ->
      safe E (make_paths links pf) (fun pf' => pf_src pf' = pf_src pf /\ pf_dst pf' = pf_dst pf /\ pf_matrix pf' = pf_matrix pf
                                              /\ Forall (path_ok (pf_src pf)) (pf_paths pf')).
    Proof.
      intros Hs. unfold make_paths. eapply safe_bind.
      - apply (make_paths_inner_safe 7 (pf_matrix pf) (pf_dst pf) (pf_src pf) [] (pf_src pf) n0); simpl; auto.
      - intros r0 _ Hr0. eapply safe_bind; [apply get_link_safe; auto|]. intros l _ Hl. simpl in Hl.
        eapply safe_bind.
        + apply (safe_mapM_all E (fun r => Forall (path_ok (pf_src pf)) (snd r))). intros s Hs1.
          eapply safe_weaken.
          * apply (make_paths_inner_safe 7 (pf_matrix pf) (pf_dst pf) s [] s n0); simpl; auto.
            repeat split; auto. pose proof (lo_chg _ _ _ (nk_link _ N _ _ Hl)) as F. rewrite Forall_forall in F. auto.
          * intros r _ Hr. eapply Forall_impl; [|exact Hr]. intros p Hp. exists s. split; auto. right. exists l; auto.
        + intros rs _ Hrs. simpl. repeat split; auto. apply Forall_app. split.
          * eapply Forall_impl; [|exact Hr0]. intros p Hp. exists (pf_src pf). auto.
          * clear -Hrs. induction Hrs; simpl; auto. apply Forall_app; auto.
    Qed.

    Lemma set_origin_safe e pf id : valid links id -> pf_dst_ok pf ->
      safe E (set_origin e links pf id) (fun pf' => pf_src pf' = id /\ pf_dst pf' = pf_dst pf /\ Forall (path_ok id) (pf_paths pf')).
    Proof.
      intros Hid Hd. unfold set_origin.
      eapply safe_bind with (Q := fun pf' => pf_src pf' = id /\ pf_dst pf' = pf_dst pf).
      - cbn [pf_matrix]. destruct (mx_get (pf_matrix pf) id); simpl; auto.
        eapply safe_weaken; [apply reroute_safe; auto|]. simpl. intros pf' _ (H1 & H2 & _). auto.
      - intros pf' _ (H1 & H2). eapply safe_weaken; [apply make_paths_safe; congruence|].
        simpl. intros pf2 _ (H3 & H4 & _ & H5). repeat split; congruence.
    Qed.
    Lemma pf_set_destination_safe e pf id : valid links (pf_src pf) -> valid links id ->
      safe E (pf_set_destination e links pf id)
        (fun pf' => pf_src pf' = pf_src pf /\ pf_dst pf' = id /\ Forall (path_ok (pf_src pf)) (pf_paths pf')).
    Proof.
      intros Hs Hid. unfold pf_set_destination.
      eapply safe_bind; [apply reroute_safe; auto; right; simpl; auto|]. simpl. intros pf1 _ (H1 & H2 & _).
      eapply safe_weaken; [apply make_paths_safe; congruence|]. simpl. intros pf2 _ (H3 & H4 & _ & H5).
      rewrite H1 in *. repeat split; congruence || auto.
    Qed.
  End Routing.

  Lemma path_from_mono links links' first p : net_le links links' -> path_from links first p -> path_from links' first p.
  Proof. intros L (H1 & H2 & H3). repeat split; auto. eapply chain_mono; eauto. Qed.
  Lemma path_ok_mono links links' src p : net_le links links' -> path_ok links src p -> path_ok links' src p.
  Proof.
    intros L (f & H1 & H2). exists f. split; [eapply path_from_mono; eauto|]. destruct H2; auto. right. apply L; auto.
  Qed.
End NetInv.
