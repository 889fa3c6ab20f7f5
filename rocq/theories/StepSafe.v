(** * The phases of a step preserve the invariant and panic only for the listed causes *)
From Coq Require Import List Bool ZArith NArith Arith Lia Permutation ListDec.
From Verif Require Import Arith Base BaseProofs SlotMap Util Geom Light Accel Net Path Vehicle LinkOps Sim SpecSim SlotMapProofs Safe NetInv SimInv AccSafe SimSafe LightProofs SpecLight.
Import ListNotations.

(** Association lists *)
Fixpoint lookup {V} (es : list (key * V)) (k : key) : option V :=
  match es with
  | [] => None
  | (k', v) :: es => if key_eqb k' k then Some v else lookup es k
  end.
Lemma lookup_in {V} (es : list (key * V)) k v : lookup es k = Some v -> In (k, v) es.
Proof.
  induction es as [|[k' v'] es IH]; simpl; [discriminate|]. destruct (key_eqb_spec k' k); auto.
  intros H. inversion H; subst. auto.
Qed.
Lemma in_lookup {V} (es : list (key * V)) k v : NoDup (map fst es) -> In (k, v) es -> lookup es k = Some v.
Proof.
  induction es as [|[k' v'] es IH]; simpl; [tauto|]. intros N [H|H]; inversion N; subst.
  - inversion H; subst. rewrite key_eqb_refl. auto.
  - destruct (key_eqb_spec k' k); auto. subst. exfalso. apply H2. apply in_map_iff. exists (k, v). auto.
Qed.
Lemma lookup_entries {V} (m : slotmap V) k : lookup (sm_entries m) k = sm_get m k.
Proof.
  destruct (sm_get m k) as [v|] eqn:G.
  - apply in_lookup; [apply nodup_keys|]. apply in_entries. auto.
  - destruct (lookup (sm_entries m) k) as [v|] eqn:L; auto. apply lookup_in, in_entries in L. congruence.
Qed.
Lemma lookup_app {V} (a b : list (key * V)) k : lookup (a ++ b) k = match lookup a k with Some v => Some v | None => lookup b k end.
Proof. induction a as [|[k' v'] a IH]; simpl; auto. destruct (key_eqb k' k); auto. Qed.
Lemma lookup_change {V} (a b : list (key * V)) k v v' x : k <> x -> lookup (a ++ (k, v) :: b) x = lookup (a ++ (k, v') :: b) x.
Proof. intros H. rewrite !lookup_app. simpl. destruct (key_eqb_spec k x); congruence || auto. Qed.
Lemma lookup_here {V} (a b : list (key * V)) k v : NoDup (map fst (a ++ (k, v) :: b)) -> lookup (a ++ (k, v) :: b) k = Some v.
Proof. intros N. apply in_lookup; auto. rewrite in_app_iff. simpl. auto. Qed.
Lemma key_mem_in k l : key_mem k l = true <-> In k l.
Proof.
  unfold key_mem. rewrite existsb_exists. split.
  - intros (x & H & E). apply key_eqb_eq in E. subst; auto.
  - intros H. exists k. split; auto. apply key_eqb_refl.
Qed.
Lemma key_mem_out k l : key_mem k l = false <-> ~ In k l.
Proof. rewrite <- key_mem_in. destruct (key_mem k l); intuition congruence. Qed.

Section StepSafe.
  Context {A : Arith}.
  Variable E : panic -> Prop.

  (** ** Lane changes *)
  Lemma g_projection_safe links lid l g new : net_ok links -> sm_get links lid = Some l -> lk_group l = Some g ->
    lid <> new -> (~ In new (g_links g) -> E PNotInGroup) -> (~ NoDup (g_links g) -> E PIndex) ->
    safe E (g_projection g (lk_id l) new) (fun p => In p (g_projs g)).
  Proof.
    intros N H Hg Hne E1 E2. pose proof (nk_link _ N _ _ H) as L. destruct (lo_group _ _ _ L g Hg) as (G & Hin).
    rewrite (lo_id _ _ _ L). unfold g_projection. destruct (find_link_in g lid Hin) as (i & Hf & Hn). rewrite Hf. simpl.
    destruct (find_link g new) as [j|] eqn:Hj; simpl.
    - apply find_link_some in Hj. apply safe_option; [intros p Hp; eapply nth_error_In; eauto|].
      intros Hnone. apply E2. intros Nd. apply nth_error_None in Hnone.
      rewrite <- (Forall2_len _ _ _ (go_projs _ _ G)), (pairs_length _ Nd) in Hnone.
      assert (i < length (g_links g)) by (apply nth_error_Some; congruence).
      assert (j < length (g_links g)) by (apply nth_error_Some; congruence).
      assert (i <> j) by (intros ->; congruence). destruct (go_len _ _ G). nia.
    - apply E1. apply find_link_none; auto.
  Qed.

  Lemma evaluate_path_safe links seq k v p : net_ok links -> (forall q, q <> PNanCompare -> net_cause links q -> E q) -> vbase links seq k v ->
    path_ok links (pf_src (v_pathfind v)) p -> safe E (evaluate_path links v p) (fun _ => True).
  Proof.
    intros N HE B (first & (Hc & Hh & _) & Hf). unfold evaluate_path. rewrite (vb_src _ _ _ _ B). simpl. rewrite Hh. simpl.
    destruct (key_eqb_spec (pf_src (v_pathfind v)) first); simpl; auto.
    destruct Hf as [|Hf]; [congruence|]. destruct Hf as (l & Hl & Hin).
    unfold get_link. rewrite Hl. simpl. eapply safe_bind with (Q := fun _ => True); [|simpl; auto].
    unfold link_project_approx. destruct (lk_group l) as [g|] eqn:Hg.
    - eapply safe_bind; [eapply g_projection_safe; eauto|].
      + intros Hnin. apply HE; [discriminate|]. simpl. exists (pf_src (v_pathfind v)), l, first. rewrite Hg. auto.
      + intros Hnd. apply HE; [discriminate|]. simpl. exists (pf_src (v_pathfind v)), l, g. auto.
      + intros pj _ Hpj. simpl in Hpj. unfold proj_approx. eapply safe_bind; [apply proj_sample_safe|simpl; auto].
        intros Hem. apply HE; [discriminate|]. simpl. exists (pf_src (v_pathfind v)), l, g, pj. auto.
    - simpl. apply HE; [discriminate|]. simpl. exists (pf_src (v_pathfind v)), l, first. rewrite Hg. auto.
  Qed.

  Lemma min_by_key_in {X} (b : X * Z) l : min_by_key b l = fst b \/ exists c, In (min_by_key b l, c) l.
  Proof.
    revert b; induction l as [|y l IH]; intros b; simpl; auto.
    destruct (IH (if Z.ltb (snd y) (snd b) then y else b)) as [->|(c & H)]; [|eauto].
    destruct (Z.ltb _ _); auto. right. exists (snd y). left. destruct y; auto.
  Qed.
  Lemma choose_path_safe links seq k v : net_ok links -> (forall q, q <> PNanCompare -> net_cause links q -> E q) -> vbase links seq k v ->
    safe E (choose_path links v) (fun o => match o with Some p => In p (pf_paths (v_pathfind v)) | None => True end).
  Proof.
    intros N HE B. unfold choose_path. destruct (v_lane_change v); simpl; auto.
    eapply safe_bind.
    - apply (safe_mapM E (fun p pc => fst pc = p)). intros p Hp. pose proof (vb_paths _ _ _ _ B) as F. rewrite Forall_forall in F.
      eapply safe_bind; [eapply evaluate_path_safe; eauto|]. simpl; auto.
    - intros l _ Hl. assert (forall pc, In pc l -> In (fst pc) (pf_paths (v_pathfind v))) as K.
      { clear -Hl. induction Hl; simpl; [tauto|]. intros pc [->|H1]; subst; auto. }
      destruct l as [|x l]; simpl; auto. destruct (keys_eqb _ _); auto.
      destruct (min_by_key_in x l) as [->|(c & H)]; [apply K; simpl; auto|]. apply (K (min_by_key x l, c)). simpl; auto.
  Qed.

  Lemma matched_head x a b : 1 <= matched (x :: a) (x :: b).
  Proof. simpl. rewrite key_eqb_refl. lia. Qed.
  Lemma matched_le a b : matched a b <= length b.
  Proof. revert b; induction a as [|x a IH]; intros [|y b]; simpl; try lia. destruct (key_eqb x y); [specialize (IH b)|]; lia. Qed.

  Lemma vbase_set_path links seq k v p first : vbase links seq k v -> path_from links first p -> v_link v = Some first ->
    vbase links seq k (set_path v p).
  Proof.
    intros B (Hc & Hh & _) Hl. destruct B. split; simpl; auto.
    - unfold v_link in Hl. destruct (v_route v) as [|a r]; [discriminate|]. simpl in Hl. inversion Hl; subst a.
      destruct (pt_links p) as [|b q] eqn:Eq; [discriminate|]. simpl in Hh. inversion Hh; subst b.
      pose proof (matched_head first r q). pose proof (matched_le (first :: r) (first :: q)). simpl in *. lia.
    - unfold v_link in Hl. rewrite Hh, <- Hl. auto.
  Qed.

  Definition change_ok (links : linkset) (vs : vehset) (vp : key * path) : Prop :=
    sm_mem vs (fst vp) = true /\ exists first, path_from links first (snd vp) /\ exists cur, chg_of links cur first.

  Lemma choose_all_safe links vs seq : St links vs seq -> flags0 vs -> (forall q, q <> PNanCompare -> net_cause links q -> E q) ->
    safe E (sm_mapS (choose_one links) vs []) (fun r =>
      St links (snd r) seq /\ flags0 (snd r) /\ same_shape vs (snd r) /\ Forall (change_ok links (snd r)) (fst r)).
  Proof.
    intros [N W V O] F0 HE. eapply safe_weaken.
    - apply (safe_mapS_pt E (choose_one links) (Forall (change_ok links vs))
               (fun k v v' => (v' = v \/ exists p first, v' = set_path v p /\ path_from links first p /\ v_link v = Some first))); auto.
      intros acc k v Hk Hacc. pose proof (V _ _ Hk) as B. unfold choose_one.
      eapply safe_bind; [eapply choose_path_safe; eauto|]. intros [p|] _ Hp; simpl; auto.
      pose proof (vb_paths _ _ _ _ B) as F. rewrite Forall_forall in F. destruct (F _ Hp) as (first & Pf & Hf).
      destruct (vbase_link _ _ _ _ B) as (cur & Hcur & _). rewrite Hcur. simpl.
      destruct Pf as (P1 & P2 & P3). rewrite P2. simpl. destruct (key_eqb_spec cur first); simpl.
      + subst. split; auto. right. exists p, first. repeat split; auto.
      + split; auto. apply Forall_app. split; auto. constructor; auto. split; simpl.
        * rewrite (vb_id _ _ _ _ B). apply sm_mem_get. eauto.
        * exists first. split; [repeat split; auto|]. destruct Hf as [Hf|Hf]; [|eauto]. exfalso.
          pose proof (vb_src _ _ _ _ B) as Hs. unfold v_link in Hcur. congruence.
    - intros [acc vs'] _ (H1 & Sh & H2 & H3). simpl in *.
      assert (forall k v', sm_get vs' k = Some v' -> exists v, sm_get vs k = Some v /\ vbase links seq k v' /\ v_link v' = v_link v /\ v_flag v' = v_flag v) as K.
      { intros k v' Hk. destruct (H3 _ _ Hk) as (v & Hv & HP). exists v. split; auto. pose proof (V _ _ Hv) as B.
        destruct HP as [->|(p & first & -> & Pf & Hl)]; auto. split; [eapply vbase_set_path; eauto|].
        split; auto. destruct Pf as (_ & Hh & _). unfold v_link in *. simpl. congruence. }
      split; [split|]; auto.
      + eapply shape_wf; eauto.
      + intros k v' Hk. destruct (K _ _ Hk) as (v & _ & B & _). auto.
      + eapply Occ_ext; [|exact O]. intros k. unfold at_of.
        destruct (sm_get vs' k) as [v'|] eqn:G.
        * destruct (K _ _ G) as (v & Hv & _ & Hl & _). rewrite Hv. auto.
        * destruct (sm_get vs k) as [v|] eqn:G2; auto. destruct (H2 _ _ G2) as (v' & Hv' & _). congruence.
      + split; [|split; auto].
        * intros k v' Hk. destruct (K _ _ Hk) as (v & Hv & _ & _ & Hf). rewrite Hf. eauto.
        * eapply Forall_impl; [|exact H1]. intros vp (Hm & Hp). split; auto. rewrite <- (shape_mem _ _ _ Sh). auto.
  Qed.

  Lemma path_from_same links links' first p : same_net links links' -> path_from links first p -> path_from links' first p.
  Proof. intros S. apply path_from_mono. apply same_net_le; auto. Qed.

  Lemma exec_change_safe e s vp :
    St (s_links s) (s_vehicles s) (s_seq s) -> flags0 (s_vehicles s) -> change_ok (s_links s) (s_vehicles s) vp ->
    (has_nan -> E PNanCompare) -> ((exists a b, chg_of (s_links s) a b /\ not_found (s_links s) b) -> E PProjection) -> (costs_too_high (s_links s) -> E POverflow) ->
    safe E (exec_change e s vp) (fun s' =>
      St (s_links s') (s_vehicles s') (s_seq s') /\ flags0 (s_vehicles s') /\ same_net (s_links s) (s_links s') /\
      s' = with_links (with_vehicles s (s_vehicles s')) (s_links s') /\ same_shape (s_vehicles s) (s_vehicles s')).
  Proof.
    intros St0 F0 (Hm & first & Pf & cur & Hcg) E1 E2 E3. unfold exec_change. pose proof Pf as (P1 & P2 & P3). rewrite P2. simpl.
    assert (valid (s_links s) first) as Vf. { eapply chain_valid; eauto. apply hd_error_in; auto. }
    eapply safe_bind.
    - apply (do_lane_change_safe E e s (fst vp) first (nofZ 30)); auto.
      + intros H. apply sm_mem_get in Hm. destruct Hm; congruence.
      + intros H; tauto.
      + intros Nf. apply E2. eauto.
    - intros s1 _ (St1 & F1 & S1 & Es & Sh & (v1 & Hv1 & Hl1) & Hoth).
      unfold get_vehicle. rewrite Hv1. simpl.
      assert (path_from (s_links s1) first (snd vp)) as Pf1 by (eapply path_from_same; eauto).
      destruct St1 as [N W V O]. split; [split|]; simpl; auto.
      + apply sm_wf_set; auto.
      + intros k v Hk. rewrite sm_get_set in Hk. destruct (key_eqb_spec (fst vp) k); simpl in Hk; auto.
        subst. destruct (sm_mem (s_vehicles s1) (fst vp)); auto. inversion Hk; subst. eapply vbase_set_path; eauto.
      + eapply Occ_ext; [|exact O]. intros k. rewrite at_of_set. destruct (key_eqb_spec (fst vp) k); simpl; auto.
        subst. destruct (sm_mem (s_vehicles s1) (fst vp)); auto. unfold at_of. rewrite Hv1, Hl1. destruct Pf1 as (_ & Hh & _).
        unfold v_link. simpl. auto.
      + split; [|split; [|split]]; auto.
        * intros k v Hk. rewrite sm_get_set in Hk. destruct (key_eqb_spec (fst vp) k); simpl in Hk; eauto.
          subst. destruct (sm_mem (s_vehicles s1) (fst vp)); eauto. inversion Hk; subst. simpl. eauto.
        * rewrite Es. simpl. reflexivity.
        * eapply shape_trans; [exact Sh|]. apply shape_set.
  Qed.

  Lemma calculate_lane_changes_safe e s :
    St (s_links s) (s_vehicles s) (s_seq s) -> flags0 (s_vehicles s) -> (forall q, net_cause (s_links s) q -> E q) ->
    safe E (calculate_lane_changes e s) (fun s' =>
      St (s_links s') (s_vehicles s') (s_seq s') /\ flags0 (s_vehicles s') /\ same_net (s_links s) (s_links s') /\
      same_shape (s_vehicles s) (s_vehicles s') /\
      s_lights s' = s_lights s /\ s_conflicts s' = s_conflicts s /\ s_frozen s' = s_frozen s /\ s_frame s' = s_frame s /\
      s_acc_update s' = s_acc_update s).
  Proof.
    intros St0 F0 HE. unfold calculate_lane_changes. destruct (nltb _ _); simpl.
    { split; [exact St0|]. split; [exact F0|]. split; [apply same_net_refl|]. split; [apply shape_refl|]. auto 10. }
    eapply safe_bind; [apply (choose_all_safe _ _ _ St0); auto|]. intros [acc vs] _ (St1 & F1 & Sh & Ch). simpl in *.
    pose (s1 := with_vehicles (with_lc_update s n0) vs). fold s1.
    eapply safe_weaken.
    - apply (safe_foldM_rest E (fun rest s' =>
        St (s_links s') (s_vehicles s') (s_seq s') /\ flags0 (s_vehicles s') /\ same_net (s_links s) (s_links s') /\
        s' = with_links (with_vehicles s1 (s_vehicles s')) (s_links s') /\ same_shape vs (s_vehicles s') /\
        Forall (change_ok (s_links s) vs) rest)).
      + intros s' vp rest (St' & F' & S' & Es & Sh' & Fr). inversion Fr; subst.
        eapply safe_weaken; [apply exec_change_safe; auto|].
        * destruct H1 as (Hm & first & Pf & cur & Hcg). split; [rewrite <- (shape_mem _ _ _ Sh'); auto|].
          exists first. split; [eapply path_from_same; eauto|]. exists cur. apply (nl_chg _ _ (same_net_le _ _ S')); exact Hcg.
        * intros C. apply HE. exact (same_net_cause _ _ PProjection S' C).
        * intros C. apply HE. exact (same_net_cause _ _ POverflow S' C).
        * intros s2 _ (St2 & F2 & S2 & Es2 & Sh2). split; [|split; [|split; [|split; [|split]]]]; auto.
          -- eapply same_net_trans; eauto.
          -- rewrite Es2, Es. reflexivity.
          -- eapply shape_trans; eauto.
      + split; [exact St1|]. split; [exact F1|]. split; [apply same_net_refl|]. split; [reflexivity|]. split; [apply shape_refl|].
        eapply Forall_impl; [|exact Ch]. auto.
    - intros s' _ (St' & F' & S' & Es & Sh' & _). split; [|split; [|split; [|split]]]; auto.
      + eapply shape_trans; eauto.
      + rewrite Es. unfold s1. simpl. auto.
  Qed.

  (** ** Accelerations *)
  Definition same_lists (a b : linkset) : Prop :=
    forall k, option_map lk_vehicles (sm_get a k) = option_map lk_vehicles (sm_get b k).
  Lemma same_lists_refl a : same_lists a a. Proof. intros k; auto. Qed.
  Lemma same_lists_trans a b c : same_lists a b -> same_lists b c -> same_lists a c.
  Proof. intros H1 H2 k. rewrite H1. auto. Qed.
  Lemma same_lists_set a k l l' : sm_get a k = Some l -> lk_vehicles l' = lk_vehicles l -> same_lists a (sm_set a k l').
  Proof.
    intros H Hv k'. rewrite sm_get_set. destruct (key_eqb_spec k k'); simpl; auto. subst.
    replace (sm_mem a k') with true by (symmetry; apply sm_mem_get; eauto). rewrite H. simpl. congruence.
  Qed.
  Lemma Occ_same a b f : same_lists a b -> Occ a f -> Occ b f.
  Proof. intros H. apply Occ_ext'; auto. Qed.

  Lemma activate_all_safe s : (forall k v, sm_get (s_vehicles s) k = Some v -> chain (s_links s) (v_route v)) ->
    safe E (activate_all s) (fun lv => same_net (s_links s) (fst lv) /\ same_lists (s_links s) (fst lv) /\
      same_shape (s_vehicles s) (snd lv) /\
      (forall k v, sm_get (s_vehicles s) k = Some v -> exists v', sm_get (snd lv) k = Some v' /\ v' = v_reset v) /\
      (forall k v', sm_get (snd lv) k = Some v' -> exists v, sm_get (s_vehicles s) k = Some v /\ v' = v_reset v)).
  Proof.
    intros Hc. unfold activate_all. eapply safe_bind.
    - apply (safe_mapS_pt E _ (fun links => same_net (s_links s) links /\ same_lists (s_links s) links)
               (fun k v v' => v' = v_reset v)).
      + intros links k v Hk (S & L).
        eapply safe_bind with (Q := fun links => same_net (s_links s) links /\ same_lists (s_links s) links).
        * unfold activate_links. apply safe_foldM; auto. intros ls id Hid (S' & L').
          apply firstn_in in Hid. change (v_route (v_reset v)) with (v_route v) in Hid.
          assert (valid ls id) as Vid. { apply (same_net_valid _ _ _ S'). eapply chain_valid; eauto. }
          eapply safe_bind; [apply get_link_safe; auto|]. intros l _ Hl. simpl in *. split.
          -- eapply same_net_trans; eauto. eapply same_net_set; eauto.
          -- eapply same_lists_trans; eauto. eapply same_lists_set; eauto.
        * intros; simpl; auto.
      + split.
        * apply same_net_map; auto.
        * intros k. rewrite sm_get_map. destruct (sm_get (s_links s) k); auto.
    - intros [links vs] _ ((S & L) & Sh & H1 & H2). simpl in *. auto.
  Qed.

  (** What a vehicle keeps during the acceleration phase. *)
  Definition vkeep (v v' : vehicle) : Prop := exists a f, v' = set_flag (set_acc v (am_set_acc (v_acc v) a)) f.

  Lemma apply_frozen_get vs fr k :
    sm_get (fst (apply_frozen vs fr)) k = if key_mem k fr then option_map v_emergency_stop (sm_get vs k) else sm_get vs k.
  Proof.
    unfold apply_frozen. simpl. revert vs; induction fr as [|x fr IH]; intros vs; simpl; auto.
    rewrite IH, sm_get_upd, (key_eqb_sym k x). destruct (key_eqb x k); simpl; auto.
    destruct (key_mem k fr); auto. destruct (sm_get vs k); simpl; auto.
  Qed.
  Lemma apply_frozen_shape vs fr : same_shape vs (fst (apply_frozen vs fr)).
  Proof.
    unfold apply_frozen. simpl. revert vs; induction fr as [|x fr IH]; intros vs; simpl; [apply shape_refl|].
    eapply shape_trans; [|apply IH]. apply shape_upd.
  Qed.

  Lemma vbase_keep links seq k v v' : vkeep v v' -> vbase links seq k v -> vbase links seq k v'.
  Proof. intros (a & f & ->) []; split; auto. Qed.

  Lemma sim_apply_accelerations_safe e s :
    St (s_links s) (s_vehicles s) (s_seq s) -> flags0 (s_vehicles s) -> (forall q, net_cause (s_links s) q -> E q) ->
    Forall (fun c => valid (s_links s) (cpl_link (cp_a c)) /\ valid (s_links s) (cpl_link (cp_b c))) (s_conflicts s) ->
    safe E (sim_apply_accelerations e s) (fun s' =>
      St (s_links s') (s_vehicles s') (s_seq s') /\ flags_ok (s_vehicles s') /\ same_net (s_links s) (s_links s') /\
      same_lists (s_links s) (s_links s') /\ same_shape (s_vehicles s) (s_vehicles s') /\
      (forall k v', sm_get (s_vehicles s') k = Some v' -> exists v, sm_get (s_vehicles s) k = Some v /\ vkeep v v') /\
      s_lights s' = s_lights s /\ s_conflicts s' = s_conflicts s /\ (NoDup (s_frozen s) -> NoDup (s_frozen s')) /\
      s_frame s' = s_frame s /\ s_lc_update s' = s_lc_update s).
  Proof.
    intros St0 F0 HE Hcp. unfold sim_apply_accelerations. destruct (nltb _ _); simpl.
    { split; auto. split. { intros k v Hk. unfold flag_ok. rewrite (F0 _ _ Hk). split; [lia|discriminate]. }
      split; [apply same_net_refl|]. split; [apply same_lists_refl|]. split; [apply shape_refl|]. split; [|auto 10].
      intros k v' Hk. exists v'. split; auto. exists (am_acc (v_acc v')), (v_flag v'). destruct v' as [? ? ? ? []]; reflexivity. }
    pose proof St0 as [N W V O].
    eapply safe_bind; [apply activate_all_safe; intros k v Hk; apply (V _ _ Hk)|].
    intros [links vs] _ (S & L & Sh & H1 & H2). simpl in *.
    assert (net_ok links) as N1 by (eapply same_net_ok; eauto).
    assert (Occ links (at_of vs)) as O1.
    { eapply Occ_same; [exact L|]. eapply Occ_ext; [|exact O]. intros k. unfold at_of.
      destruct (sm_get vs k) as [v'|] eqn:G.
      - destruct (H2 _ _ G) as (v & Hv & ->). rewrite Hv. auto.
      - destruct (sm_get (s_vehicles s) k) as [v|] eqn:G2; auto. destruct (H1 _ _ G2) as (v' & Hv' & _). congruence. }
    assert (listed links vs) as Hl by (apply Occ_listed; auto).
    assert (forall q, q <> PNanCompare -> net_cause links q -> E q) as HE1. { intros q _ Hq. apply HE. eapply same_net_cause; eauto. }
    assert (forall k v, sm_get vs k = Some v -> chain links (v_route v)) as Hc.
    { intros k v' Hk. destruct (H2 _ _ Hk) as (v & Hv & ->). simpl. eapply chain_mono; [apply same_net_le; eauto|]. apply (V _ _ Hv). }
    eapply safe_bind; [apply (sim_stoplines_safe E links vs N1 Hl Hc (e_fuel e) [] (Forall_nil _))|]. intros log1 _ L1.
    eapply safe_bind; [apply (sim_link_accelerations_safe E links vs N1 Hl HE1 (e_fuel e) (s_conflicts s) log1); auto|].
    { eapply Forall_impl; [|exact Hcp]. simpl. intros c (Ha & Hb). split; apply (same_net_valid _ _ _ S); auto. }
    { intros c _ (_ & _ & r & _ & _ & _ & Nr). apply HE. exists (rv_front r). exact Nr. }
    intros log _ Lg.
    destruct (apply_log_links links vs log Lg) as (S2 & K2).
    pose proof (apply_log_veh links vs log) as Veh.
    pose proof (apply_log_shape (links, vs) log) as Sh2.
    destruct (apply_log (links, vs) log) as [links2 vs2]. simpl in *.
    pose proof (apply_frozen_get vs2 (s_frozen s)) as Fg. pose proof (apply_frozen_shape vs2 (s_frozen s)) as Sh3.
    set (vs3 := fold_left _ _ _) in *.
    assert (same_net (s_links s) links2) as S' by (eapply same_net_trans; eauto).
    assert (same_lists (s_links s) links2) as L'.
    { eapply same_lists_trans; [exact L|]. intros k. specialize (K2 k).
      destruct (sm_get links k), (sm_get links2 k); simpl in *; congruence. }
    assert (forall k v', sm_get vs3 k = Some v' -> exists v, sm_get (s_vehicles s) k = Some v /\ vkeep v v' /\ flag_ok v') as K3.
    { intros k v' Hk. rewrite Fg in Hk. specialize (Veh k).
      destruct (sm_get vs2 k) as [v2|] eqn:G2; [|destruct (key_mem k (s_frozen s)); discriminate].
      destruct Veh as (v1 & Hv1 & (a & f & Hv2) & Hf). destruct (H2 _ _ Hv1) as (v & Hv & Hr). exists v. split; auto.
      assert (vkeep v v') as Kp.
      { subst v1 v2. destruct (key_mem k (s_frozen s)); simpl in Hk; inversion Hk; subst v'; [exists MAX_DECEL, f|exists a, f]; reflexivity. }
      split; auto.
      assert (v_flag v' = v_flag v2) as Ff. { destruct (key_mem k (s_frozen s)); simpl in Hk; inversion Hk; subst v'; auto. }
      assert (v_flag v1 = 0) as F1. { rewrite Hr. simpl. eauto. }
      destruct Kp as (a' & f' & Ev'). rewrite F1 in Hf. destruct Hf as [Hf|Hf].
      - unfold flag_ok. rewrite Ff, Hf. split; [lia|discriminate].
      - unfold log_ok in Lg. rewrite Forall_forall in Lg. apply Lg in Hf. destruct Hf as (w & Hw & Hf2 & Hent).
        assert (w = v1) by congruence. subst w. unfold flag_ok. rewrite Ff. split; [lia|]. intros _. subst v' v1. simpl in *. auto. }
    split; [|split; [|split; [|split; [|split; [|split; [|split; [|split; [|split]]]]]]]]; auto.
    - split.
      + eapply same_net_ok; eauto.
      + eapply shape_wf; [exact Sh3|]. eapply shape_wf; [exact Sh2|]. eapply shape_wf; eauto.
      + intros k v' Hk. destruct (K3 _ _ Hk) as (v & Hv & Kp & _). eapply vbase_keep; eauto.
        eapply vbase_mono; [apply same_net_le; eauto|]. auto.
      + eapply Occ_same; [exact L'|]. eapply Occ_ext; [|exact O]. intros k. unfold at_of.
        assert (same_shape (s_vehicles s) vs3) as Sh4 by (eapply shape_trans; [exact Sh|eapply shape_trans; eauto]).
        pose proof (shape_mem _ _ k Sh4) as M. unfold sm_mem in M.
        destruct (sm_get vs3 k) as [v'|] eqn:G.
        * destruct (K3 _ _ G) as (v & Hv & (a & f & ->) & _). rewrite Hv. reflexivity.
        * destruct (sm_get (s_vehicles s) k); auto. discriminate.
    - intros k v' Hk. destruct (K3 _ _ Hk) as (v & Hv & Kp & Fo). auto.
    - eapply shape_trans; [exact Sh|eapply shape_trans; eauto].
    - intros k v' Hk. destruct (K3 _ _ Hk) as (v & Hv & Kp & Fo). eauto.
    - intros Nd. apply NoDup_filter; auto.
  Qed.

  (** ** Traffic lights *)
  Lemma light_ok_step l dt l' : light_ok l -> light_step l dt = Ok l' -> light_ok l'.
  Proof.
    intros (P & F) H. apply light_step_ok in H. destruct H as (p0 & p & H1 & H2 & H3 & H4 & H5 & H6 & H7). split.
    - right. rewrite H5. apply nth_error_Some. congruence.
    - rewrite H6, H7. rewrite step_movements_length, map_length, enumerate_length. auto.
  Qed.
  Lemma light_step_safe l dt : light_ok l -> (l_phases l = [] -> E PNoPhase) -> (64 < length (l_movements l) -> E PShift) ->
    safe E (light_step l dt) (fun l' => light_ok l' /\ l_mlinks l' = l_mlinks l).
  Proof.
    intros L E1 E2. destruct (l_phases l) eqn:Ep.
    { destruct (light_step_cases l dt) as (H & _). rewrite H by auto. simpl. auto. }
    destruct (le_lt_dec (length (l_movements l)) 64) as [Hle|Hlt].
    - destruct (light_step_total l dt) as (l' & Hl'); auto.
      + apply L.
      + congruence.
      + rewrite Hl'. simpl. split; [eapply light_ok_step; eauto|]. apply light_step_ok in Hl'.
        destruct Hl' as (p0 & p1 & H1 & H2 & H3 & H4 & H5 & H6 & H7). auto.
    - destruct (light_step_cases l dt) as (_ & H). rewrite H by (congruence || auto). simpl. auto.
  Qed.
  Lemma get_states_safe l : light_ok l -> safe E (get_states l) (fun sts => map fst sts = map snd (l_mlinks l)).
  Proof.
    intros (_ & F). unfold get_states. eapply safe_weaken.
    - apply (safe_mapM E (fun il kc => fst kc = snd il)). intros [i k] Hin. rewrite Forall_forall in F. apply F in Hin. simpl in *.
      destruct (nth_error (l_movements l) i) eqn:G; [|apply nth_error_None in G; lia]. simpl. auto.
    - intros sts _ H. clear F. induction H; simpl; congruence.
  Qed.

  Lemma update_lights_safe s dt : (forall k l, sm_get (s_lights s) k = Some l -> light_ok l) ->
    (forall q, light_cause s q -> E q) ->
    safe E (update_lights s dt) (fun s' =>
      same_net (s_links s) (s_links s') /\ same_lists (s_links s) (s_links s') /\ same_shape (s_lights s) (s_lights s') /\
      (forall k l, sm_get (s_lights s') k = Some l -> light_ok l) /\
      s' = Sim (s_links s') (s_lights s') (s_conflicts s) (s_vehicles s) (s_frozen s) (s_frame s) (s_seq s) (s_acc_update s) (s_lc_update s)).
  Proof.
    intros Hl HE. unfold update_lights. eapply safe_bind.
    - apply (safe_mapS_pt E _ (fun links => same_net (s_links s) links /\ same_lists (s_links s) links) (fun k l l' => light_ok l')).
      + intros links k l Hk (S & L).
        eapply safe_bind; [apply light_step_safe; [eauto| |]|].
        * intros Hp. apply HE. exists k, l. auto.
        * intros Hp. apply HE. exists k, l. auto.
        * intros l' _ (Lo & Ml). eapply safe_bind; [apply get_states_safe; auto|]. intros sts _ Hst.
          eapply safe_bind with (Q := fun links => same_net (s_links s) links /\ same_lists (s_links s) links).
          -- apply safe_foldM; auto. intros ls kc Hin (S' & L'). apply upd_link_safe.
             ++ intros lk Hlk. simpl. split.
                ** eapply same_net_trans; eauto. eapply same_net_set; eauto.
                ** eapply same_lists_trans; eauto. eapply same_lists_set; eauto.
             ++ intros Hv. apply HE. exists k, l. split; auto. exists (fst kc). split.
                ** rewrite <- Ml, <- Hst. apply in_map. auto.
                ** intros Hv'. apply Hv. apply (same_net_valid _ _ _ S'). auto.
          -- intros ls _ (S' & L'). simpl. auto.
      + split; [apply same_net_refl|apply same_lists_refl].
    - intros [links lights] _ ((S & L) & Sh & H1 & H2). simpl in *. split; [exact S|]. split; [exact L|]. split; [exact Sh|].
      split; [|reflexivity]. intros k l Hk. destruct (H2 _ _ Hk) as (l0 & Hl0 & Hlo). auto.
  Qed.

  (** ** Integration *)
  Lemma integrate_safe links v dt seq0 seq k : vbase links seq0 k v -> seq0 <= seq -> flag_ok v ->
    safe E (integrate v dt seq) (fun r => seq <= fst r /\ vbase links (fst r) k (snd r) /\ v_flag (snd r) = 0 /\ v_route (snd r) = v_route v).
  Proof.
    intros B Hs (F1 & F2). unfold integrate, integrate_queue.
    destruct B. destruct (v_flag v) as [|[|[|n]]] eqn:Ef; simpl; [| | |lia].
    - split; auto. split; auto. split; simpl; auto. intros q Hq. specialize (vb_queue q Hq). lia.
    - split; [lia|]. split; auto. split; simpl; auto. intros q Hq. destruct (v_queued v) as [q0|] eqn:Eq.
      + inversion Hq; subst. specialize (vb_queue q eq_refl). lia.
      + inversion Hq; subst. lia.
    - split; auto. split; auto. split; simpl; auto; [|discriminate]. specialize (F2 eq_refl). lia.
  Qed.
  Lemma vbase_seq links s1 s2 k v : s1 <= s2 -> vbase links s1 k v -> vbase links s2 k v.
  Proof. intros H []. split; auto. intros q Hq. specialize (vb_queue q Hq). lia. Qed.

  Lemma map_fst_entries_shape {V} (m m' : slotmap V) : same_shape m m' -> map fst (sm_entries m') = map fst (sm_entries m).
  Proof. intros H. symmetry. apply (shape_keys _ _ H). Qed.

  Lemma sim_integrate_safe s dt : St (s_links s) (s_vehicles s) (s_seq s) -> flags_ok (s_vehicles s) ->
    safe E (sim_integrate s dt) (fun s' =>
      St (s_links s') (s_vehicles s') (s_seq s') /\ flags0 (s_vehicles s') /\ s_seq s <= s_seq s' /\ same_shape (s_vehicles s) (s_vehicles s') /\
      s' = Sim (s_links s) (s_lights s) (s_conflicts s) (s_vehicles s') (s_frozen s) (s_frame s) (s_seq s') (s_acc_update s) (s_lc_update s)).
  Proof.
    intros [N W V O] F. unfold sim_integrate. eapply safe_bind.
    - apply (safe_mapS E _ (fun done todo seq => s_seq s <= seq /\
        (forall k v, In (k, v) todo -> sm_get (s_vehicles s) k = Some v) /\
        (forall k v, In (k, v) done -> vbase (s_links s) seq k v /\ v_flag v = 0 /\ at_of (s_vehicles s) k = v_link v))).
      + intros done k v todo seq (Hs & Ht & Hd).
        assert (sm_get (s_vehicles s) k = Some v) as Hk by (apply Ht; simpl; auto).
        eapply safe_weaken; [eapply integrate_safe; eauto|]. intros [seq' v'] _ (H1 & H2 & H3 & H4). simpl in *.
        split; [lia|]. split; [intros; apply Ht; auto|]. intros k1 v1 Hin. apply in_app_iff in Hin. destruct Hin as [Hin|[Hin|[]]].
        * destruct (Hd _ _ Hin) as (D1 & D2 & D3). split; auto. eapply vbase_seq; eauto.
        * inversion Hin; subst. split; auto. split; auto. unfold at_of. rewrite Hk. unfold v_link. congruence.
      + split; auto. split; [|simpl; tauto]. intros k v Hin. apply in_entries; auto.
    - intros [seq' vs'] Heq (Hs & _ & Hd). simpl in *. pose proof (sm_mapS_shape _ _ _ _ _ Heq) as Sh.
      assert (forall k v, sm_get vs' k = Some v -> vbase (s_links s) seq' k v /\ v_flag v = 0 /\ at_of (s_vehicles s) k = v_link v) as K.
      { intros k v Hk. apply Hd. apply in_entries. auto. }
      split; [split|]; auto.
      + eapply shape_wf; eauto.
      + intros k v Hk. apply (K _ _ Hk).
      + eapply Occ_ext; [|exact O]. intros k. pose proof (shape_mem _ _ k Sh) as M. unfold sm_mem in M. unfold at_of at 2.
        destruct (sm_get vs' k) as [v|] eqn:G; [apply (K _ _ G)|]. unfold at_of. destruct (sm_get (s_vehicles s) k); auto. discriminate.
      + split; [|split; [|split]]; auto. intros k v Hk. apply (K _ _ Hk).
  Qed.

  (** ** Advancing *)
  Lemma advance_safe e links v seq k : net_ok links -> vbase links seq k v -> (costs_too_high links -> E POverflow) ->
    safe E (advance e links v) (fun bv =>
      (fst bv = false /\ snd bv = v) \/
      (fst bv = true /\ v_route (snd bv) = tl (v_route v) /\ v_flag (snd bv) = v_flag v /\
       (v_route (snd bv) <> [] -> vbase links seq k (snd bv)))).
  Proof.
    intros N B EO. unfold advance. pose proof (vb_src _ _ _ _ B) as Hh. pose proof (vb_ent _ _ _ _ B) as He.
    pose proof (vb_chain _ _ _ _ B) as Hc.
    destruct (v_route v) as [|id rest] eqn:Er; [simpl in Hh; discriminate|]. simpl in Hc, He. destruct Hc as (Hv & Hs & Hc).
    eapply safe_bind; [apply get_link_safe; auto|]. intros l _ Hl.
    destruct (nltb _ _); simpl; auto.
    eapply safe_bind with (Q := fun pf => match rest with [] => True | id' :: _ => pf_src pf = id' /\ pf_dst pf = pf_dst (v_pathfind v) /\ Forall (path_ok links id') (pf_paths pf) end).
    - destruct rest as [|id' rest]; simpl; auto. apply (set_origin_safe E links N EO); [apply Hc|]. apply B.
    - intros pf _ Hpf. destruct (v_entered v) as [|n] eqn:En; [lia|]. simpl. right.
      split; [reflexivity|]. split; [reflexivity|]. split; [reflexivity|]. intros Hne.
      destruct rest as [|id' rest]; [congruence|]. destruct Hpf as (P1 & P2 & P3). destruct B as [B1 B2 B3 B4 B5 B6 B7].
      split; cbn [v_id v_route v_entered v_pathfind v_queued]; auto.
      + simpl in *. lia.
      + simpl. congruence.
      + unfold pf_dst_ok in *. rewrite P2. auto.
      + rewrite P1. auto.
  Qed.

  Definition pend (adv : list (key * key)) (ex : list key) (f : key -> option key) (k : key) : option key :=
    if key_mem k (map fst adv ++ ex) then None else f k.
  Definition at_list (es : list (key * vehicle)) (k : key) : option key :=
    match lookup es k with Some v => v_link v | None => None end.

  Lemma at_list_entries vs k : at_list (sm_entries vs) k = at_of vs k.
  Proof. unfold at_list, at_of. rewrite lookup_entries. auto. Qed.

  Record adv_inv (s : sim) (done todo : list (key * vehicle)) (st : linkset * (list (key * key) * list key)) : Prop := {
    ai_net : same_net (s_links s) (fst st);
    ai_todo : forall k v, In (k, v) todo -> sm_get (s_vehicles s) k = Some v;
    ai_keys : NoDup (map fst (done ++ todo));
    ai_done : forall k v, In (k, v) done -> v_flag v = 0 /\
                (v_route v = [] /\ In k (snd (snd st)) \/ vbase (s_links s) (s_seq s) k v /\ ~ In k (snd (snd st)));
    ai_adv : forall k lid, In (k, lid) (fst (snd st)) -> valid (s_links s) lid /\ exists v, In (k, v) done /\ v_link v = Some lid;
    ai_ex : forall k, In k (snd (snd st)) -> exists v, In (k, v) done /\ v_route v = [];
    ai_nodup : NoDup (map fst (fst (snd st)));
    ai_occ : Occ (fst st) (pend (fst (snd st)) (snd (snd st)) (at_list (done ++ todo)))
  }.

  Lemma in_map_fst {X Y} (l : list (X * Y)) k : In k (map fst l) -> exists v, In (k, v) l.
  Proof. rewrite in_map_iff. intros ([k' v] & E0 & H). simpl in E0. subst. eauto. Qed.
  Lemma in_fst_map {X Y} (l : list (X * Y)) k v : In (k, v) l -> In k (map fst l).
  Proof. intros H. apply in_map_iff. exists (k, v). auto. Qed.

  Lemma advance_one_safe e s done k v todo st : net_ok (s_links s) ->
    (forall k v, sm_get (s_vehicles s) k = Some v -> vbase (s_links s) (s_seq s) k v /\ v_flag v = 0) -> (costs_too_high (s_links s) -> E POverflow) ->
    adv_inv s done ((k, v) :: todo) st ->
    safe E (advance_one e st k v) (fun sv => adv_inv s (done ++ [(k, snd sv)]) todo (fst sv)).
  Proof.
    intros N V EO [H1 H2 H3 H4 H5 H6 H7 H8]. destruct st as [links [adv ex]]. simpl in *. unfold advance_one.
    assert (sm_get (s_vehicles s) k = Some v) as Hk by (apply H2; auto).
    destruct (V _ _ Hk) as (B & Fl). destruct (vbase_link _ _ _ _ B) as (lid & Hlid & Vlid & _). rewrite Hlid. simpl.
    assert (net_ok links) as N1 by (eapply same_net_ok; eauto).
    assert (vbase links (s_seq s) k v) as B1 by (eapply vbase_mono; [apply same_net_le; eauto|auto]).
    assert (~ In k (map fst done)) as Kd.
    { rewrite map_app in H3. simpl in H3. apply NoDup_remove_2 in H3. rewrite in_app_iff in H3. tauto. }
    assert (key_mem k (map fst adv ++ ex) = false) as Kp.
    { apply key_mem_out. rewrite in_app_iff. intros [H|H].
      - apply in_map_fst in H. destruct H as (l0 & H). destruct (H5 _ _ H) as (_ & w & Hw & _). apply Kd. eapply in_fst_map; eauto.
      - destruct (H6 _ H) as (w & Hw & _). apply Kd. eapply in_fst_map; eauto. }
    assert (forall v', NoDup (map fst ((done ++ [(k, v')]) ++ todo))) as Hnd.
    { intros v'. rewrite !map_app in *. simpl in *. rewrite <- app_assoc. auto. }
    eapply safe_bind; [eapply advance_safe; eauto; intros C; apply EO; exact (same_net_cause _ _ POverflow H1 C)|]. intros [b v'] _ [(Eb & Ev)|(Eb & Er & Ef & Hb)]; simpl in *; subst b.
    - subst v'. simpl. split; simpl; auto.
      + intros k1 v1 Hin. apply in_app_iff in Hin. destruct Hin as [Hin|[Hin|[]]]; auto. inversion Hin; subst k1 v1.
        split; auto. right. split; auto. intros Hex. rewrite key_mem_out, in_app_iff in Kp. tauto.
      + intros k1 l1 Hin. destruct (H5 _ _ Hin) as (Hv & w & Hw & Hl). split; auto. exists w. rewrite in_app_iff. auto.
      + intros k1 Hin. destruct (H6 _ Hin) as (w & Hw & Hl). exists w. rewrite in_app_iff. auto.
      + rewrite <- app_assoc. auto.
    - assert (at_list (done ++ (k, v) :: todo) k = Some lid) as Hat. { unfold at_list. rewrite lookup_here; auto. }
      eapply safe_bind; [eapply (link_remove_safe E links _ lid k H8)|].
      { apply (same_net_valid _ _ _ H1). auto. }
      { unfold pend. rewrite Kp, Hat. congruence. }
      intros links2 _ (S2 & O2).
      assert (same_net (s_links s) links2) as S by (eapply same_net_trans; eauto).
      destruct (v_link v') as [lid'|] eqn:Hl'; simpl.
      + assert (vbase (s_links s) (s_seq s) k v') as B'.
        { eapply vbase_mono; [apply same_net_ge; exact H1|]. apply Hb. unfold v_link in Hl'. destruct (v_route v'); simpl in *; congruence. }
        split; simpl; auto.
        * intros k1 v1 Hin. apply in_app_iff in Hin. destruct Hin as [Hin|[Hin|[]]]; auto. inversion Hin; subst k1 v1.
          split; [congruence|]. right. split; auto. intros Hex. rewrite key_mem_out, in_app_iff in Kp. tauto.
        * intros k1 l1 Hin. apply in_app_iff in Hin. destruct Hin as [Hin|[Hin|[]]].
          -- destruct (H5 _ _ Hin) as (Hv & w & Hw & Hl). split; auto. exists w. rewrite in_app_iff. auto.
          -- inversion Hin; subst k1 l1. split; [|exists v'; rewrite in_app_iff; simpl; auto].
             destruct (vbase_link _ _ _ _ B') as (l2 & Hl2 & Vl2 & _). congruence.
        * intros k1 Hin. destruct (H6 _ Hin) as (w & Hw & Hl). exists w. rewrite in_app_iff. auto.
        * rewrite map_app. simpl. apply NoDup_app_intro; auto.
          -- repeat constructor; simpl; tauto.
          -- intros x Hx [<-|[]]. rewrite key_mem_out, in_app_iff in Kp. tauto.
        * eapply Occ_ext; [|exact O2]. intros x. unfold upd_at, pend. rewrite <- app_assoc. simpl. rewrite map_app. simpl.
          destruct (key_eqb_spec k x).
          -- subst x. replace (key_mem k ((map fst adv ++ [k]) ++ ex)) with true; auto.
             symmetry. apply key_mem_in. rewrite !in_app_iff. simpl. auto.
          -- replace (key_mem x ((map fst adv ++ [k]) ++ ex)) with (key_mem x (map fst adv ++ ex)).
             ++ destruct (key_mem x (map fst adv ++ ex)); auto. unfold at_list. rewrite (lookup_change done todo k v v' x); auto.
             ++ apply eq_true_iff_eq. rewrite !key_mem_in, !in_app_iff. simpl. intuition congruence.
      + assert (v_route v' = []) as Er0. { unfold v_link in Hl'. destruct (v_route v'); [auto|discriminate]. }
        split; simpl; auto.
        * intros k1 v1 Hin. apply in_app_iff in Hin. destruct Hin as [Hin|[Hin|[]]].
          -- destruct (H4 _ _ Hin) as (Hf & [(Hr & Hex)|(Hvb & Hex)]); split; auto.
             ++ left. rewrite in_app_iff. auto.
             ++ right. split; auto. rewrite in_app_iff. simpl. intros [|[<-|[]]]; auto. apply Kd. eapply in_fst_map; eauto.
          -- inversion Hin; subst k1 v1. split; [congruence|]. left. rewrite in_app_iff. simpl. auto.
        * intros k1 l1 Hin. destruct (H5 _ _ Hin) as (Hv & w & Hw & Hl). split; auto. exists w. rewrite in_app_iff. auto.
        * intros k1 Hin. apply in_app_iff in Hin. destruct Hin as [Hin|[<-|[]]].
          -- destruct (H6 _ Hin) as (w & Hw & Hl). exists w. rewrite in_app_iff. auto.
          -- exists v'. rewrite in_app_iff. simpl. auto.
        * eapply Occ_ext; [|exact O2]. intros x. unfold upd_at, pend. rewrite <- app_assoc. simpl.
          destruct (key_eqb_spec k x).
          -- subst x. replace (key_mem k (map fst adv ++ ex ++ [k])) with true; auto.
             symmetry. apply key_mem_in. rewrite !in_app_iff. simpl. auto.
          -- replace (key_mem x (map fst adv ++ ex ++ [k])) with (key_mem x (map fst adv ++ ex)).
             ++ destruct (key_mem x (map fst adv ++ ex)); auto. unfold at_list. rewrite (lookup_change done todo k v v' x); auto.
             ++ apply eq_true_iff_eq. rewrite !key_mem_in, !in_app_iff. simpl. intuition congruence.
  Qed.

  Lemma sm_get_fold_remove {V} ex (vs : slotmap V) k :
    sm_get (fold_left sm_remove ex vs) k = if key_mem k ex then None else sm_get vs k.
  Proof.
    revert vs; induction ex as [|x ex IH]; intros vs; simpl; auto. rewrite IH, sm_get_remove, (key_eqb_sym k x).
    destruct (key_eqb x k); simpl; auto. destruct (key_mem k ex); auto.
  Qed.
  Lemma sm_wf_fold_remove {V} ex (vs : slotmap V) : sm_wf vs -> sm_wf (fold_left sm_remove ex vs).
  Proof. revert vs; induction ex as [|x ex IH]; intros vs W; simpl; auto. apply IH. apply sm_wf_remove; auto. Qed.

  Lemma advance_vehicles_safe e s : St (s_links s) (s_vehicles s) (s_seq s) -> flags0 (s_vehicles s) -> (costs_too_high (s_links s) -> E POverflow) ->
    safe E (advance_vehicles e s) (fun s' =>
      St (s_links s') (s_vehicles s') (s_seq s') /\ flags0 (s_vehicles s') /\ same_net (s_links s) (s_links s') /\
      s' = with_links (with_vehicles s (s_vehicles s')) (s_links s')).
  Proof.
    intros [N W V O] F EO. unfold advance_vehicles. eapply safe_bind.
    - apply (safe_mapS E (advance_one e) (adv_inv s)).
      + intros. eapply advance_one_safe; eauto.
      + split; cbn [fst snd app]; try (simpl; tauto).
        * apply same_net_refl.
        * intros k v Hin. apply in_entries; auto.
        * apply nodup_keys.
        * constructor.
        * eapply Occ_ext; [|exact O]. intros k. unfold pend. simpl. rewrite at_list_entries. auto.
    - intros [[links [adv ex]] vs] Heq [H1 H2 H3 H4 H5 H6 H7 H8]. simpl in *. rewrite app_nil_r in *.
      pose proof (sm_mapS_shape _ _ _ _ _ Heq) as Sh.
      assert (forall k v, sm_get vs k = Some v -> v_flag v = 0 /\ (v_route v = [] /\ In k ex \/ vbase (s_links s) (s_seq s) k v /\ ~ In k ex)) as K.
      { intros k v Hk. apply H4. apply in_entries. auto. }
      eapply safe_bind.
      + apply (safe_foldM_rest E (fun rest links' => same_net (s_links s) links' /\ incl rest adv /\ NoDup (map fst rest) /\
                 Occ links' (pend rest ex (at_of vs)))).
        * intros links' [k lid] rest (S & Hi & Hn & O'). simpl in *.
          destruct (H5 k lid) as (Vl & v & Hin & Hl); [apply Hi; simpl; auto|]. apply in_entries in Hin.
          assert (Occ links' (pend rest ex (at_of vs)) \/ True) as _ by auto.
          assert (pend ((k, lid) :: rest) ex (at_of vs) k = None) as Pk. { unfold pend. simpl. rewrite key_eqb_refl. auto. }
          eapply safe_weaken; [eapply (link_insert_safe E links' vs _ lid k O'); eauto|].
          -- apply (same_net_valid _ _ _ S). auto.
          -- intros k' lid' Hp. unfold pend in Hp. destruct (key_mem _ _); [discriminate|]. unfold at_of in Hp.
             destruct (sm_get vs k'); eauto. discriminate.
          -- intros links2 _ (S2 & O2). inversion Hn; subst. split; [eapply same_net_trans; eauto|].
             split; [intros x Hx; apply Hi; simpl; auto|]. split; auto.
             eapply Occ_ext; [|exact O2]. intros x. unfold upd_at, pend. simpl.
             destruct (key_eqb_spec k x).
             ++ subst x. replace (key_mem k (map fst rest ++ ex)) with false.
                ** unfold at_of. rewrite Hin. auto.
                ** symmetry. apply key_mem_out. rewrite in_app_iff. intros [|Hex]; auto.
                   destruct (K _ _ Hin) as (_ & [(Hr & _)|(_ & Hx)]); auto. unfold v_link in Hl. rewrite Hr in Hl. discriminate.
             ++ replace (key_eqb x k) with false; auto. symmetry. apply key_eqb_neq. auto.
        * split; auto. split; [apply incl_refl|]. split; auto.
          eapply Occ_ext; [|exact H8]. intros k. unfold pend. destruct (key_mem _ _); auto. apply at_list_entries.
      + intros links2 _ (S & _ & _ & O2). simpl.
        assert (forall k v, sm_get (fold_left sm_remove ex vs) k = Some v -> sm_get vs k = Some v /\ ~ In k ex) as G.
        { intros k v. rewrite sm_get_fold_remove. destruct (key_mem k ex) eqn:M; [discriminate|]. apply key_mem_out in M. auto. }
        split; [split|split; [|split]]; auto.
        * eapply same_net_ok; eauto.
        * apply sm_wf_fold_remove. eapply shape_wf; eauto.
        * intros k v Hk. apply G in Hk. destruct Hk as (Hk & Hx). destruct (K _ _ Hk) as (_ & [(_ & Hi)|(B & _)]); [tauto|].
          eapply vbase_mono; [apply same_net_le; eauto|auto].
        * eapply Occ_ext; [|exact O2]. intros k. unfold pend, at_of. simpl. rewrite sm_get_fold_remove. destruct (key_mem k ex); auto.
        * intros k v Hk. apply G in Hk. destruct Hk as (Hk & Hx). apply (K _ _ Hk).
  Qed.

  Lemma update_vehicle_coords_safe s : St (s_links s) (s_vehicles s) (s_seq s) -> flags0 (s_vehicles s) ->
    safe E (update_vehicle_coords s) (fun s' =>
      St (s_links s') (s_vehicles s') (s_seq s') /\ flags0 (s_vehicles s') /\ same_shape (s_vehicles s) (s_vehicles s') /\
      s' = with_vehicles s (s_vehicles s')).
  Proof.
    intros [N W V O] F. unfold update_vehicle_coords. eapply safe_bind.
    - apply (safe_mapS_pt E _ (fun _ => True) (fun k v v' => v_route v' = v_route v /\ v_entered v' = v_entered v /\ v_pathfind v' = v_pathfind v /\
        v_pos v' = v_pos v /\ v_can_exit v' = v_can_exit v /\ lcbase v' v)); auto.
      intros u k v Hk _. destruct (vbase_link _ _ _ _ (V _ _ Hk)) as (lid & Hl & Vl & _).
      eapply safe_bind; [eapply update_coords_safe; eauto|]. intros v' _ H. simpl. auto.
    - intros [u vs] _ (_ & Sh & H1 & H2). simpl in *. split; [split|split; [|split]]; auto.
      + eapply shape_wf; eauto.
      + intros k v' Hk. destruct (H2 _ _ Hk) as (v & Hv & R1 & R2 & R3 & R4 & R5 & (R6 & R7 & R8 & R9 & R10)).
        destruct (V _ _ Hv). split; rewrite ?R6, ?R1, ?R2, ?R3, ?R7; auto.
      + eapply Occ_ext; [|exact O]. intros k. pose proof (shape_mem _ _ k Sh) as M. unfold sm_mem in M. unfold at_of.
        destruct (sm_get vs k) as [v'|] eqn:G.
        * destruct (H2 _ _ G) as (v & Hv & R1 & _). rewrite Hv. unfold v_link. congruence.
        * destruct (sm_get (s_vehicles s) k); auto. discriminate.
      + intros k v' Hk. destruct (H2 _ _ Hk) as (v & Hv & R1 & R2 & R3 & R4 & R5 & (R6 & R7 & R8 & R9 & R10)). rewrite R8. eauto.
  Qed.

  Theorem step_safe e s dt : Inv s -> (forall p, net_cause (s_links s) p -> E p) -> (forall p, light_cause s p -> E p) ->
    safe E (step e s dt) Inv.
  Proof.
    intros [St0 F0 LW LI CP FR] HN HL. unfold step.
    assert (forall links, same_net (s_links s) links -> costs_too_high links -> E POverflow) as EO by (intros links Sn C; apply HN; exact (same_net_cause _ _ POverflow Sn C)).
    eapply safe_bind; [apply calculate_lane_changes_safe; auto|].
    intros s1 _ (St1 & F1 & S1 & Sh1 & A1 & A2 & A3 & A4 & A5).
    assert (forall q, net_cause (s_links s1) q -> E q) as HN1. { intros q Hq. apply HN. eapply same_net_cause; eauto. }
    eapply safe_bind; [apply sim_apply_accelerations_safe; auto|].
    { rewrite A2. eapply Forall_impl; [|exact CP]. simpl. intros c (Ha & Hb). split; apply (same_net_valid _ _ _ S1); auto. }
    intros s2 _ (St2 & F2 & S2 & L2 & Sh2 & K2 & B1 & B2 & B3 & B4 & B5).
    assert (same_net (s_links s) (s_links s2)) as S02 by (eapply same_net_trans; eauto).
    eapply safe_bind; [apply update_lights_safe|].
    { rewrite B1, A1. auto. }
    { intros q (k & l & Hl & Hq). apply HL. exists k, l. rewrite <- A1, <- B1. split; auto. destruct q; auto.
      destruct Hq as (lid & H1 & H2). exists lid. split; auto. intros Hv. apply H2. apply (same_net_valid _ _ _ S02). auto. }
    intros s3 _ (S3 & L3 & Sh3 & LI3 & Es3).
    assert (same_net (s_links s) (s_links s3)) as S03 by (eapply same_net_trans; eauto).
    assert (St (s_links s3) (s_vehicles s3) (s_seq s3)) as St3.
    { rewrite Es3. simpl. eapply St_links; eauto.
      - eapply same_net_ok; [exact S03|apply St0].
      - apply same_net_le; auto.
      - eapply Occ_same; [exact L3|apply St2]. }
    eapply safe_bind; [apply sim_integrate_safe; auto|]. { rewrite Es3. auto. }
    intros s4 _ (St4 & F4 & Sq4 & Sh4 & Es4).
    eapply safe_bind; [apply advance_vehicles_safe; auto; apply EO; rewrite Es4; exact S03|].
    intros s5 _ (St5 & F5 & S5 & Es5).
    eapply safe_bind; [apply update_vehicle_coords_safe; auto|].
    intros s6 _ (St6 & F6 & Sh6 & Es6).
    assert (s_links s6 = s_links s5) as El6 by (rewrite Es6; auto).
    assert (same_net (s_links s) (s_links s6)) as S06.
    { rewrite El6. eapply same_net_trans; [exact S03|]. rewrite Es4 in S5. simpl in S5. auto. }
    split; simpl; auto.
    - rewrite Es6, Es5, Es4. simpl. eapply shape_wf; [exact Sh3|]. rewrite B1, A1. auto.
    - rewrite Es6, Es5, Es4. simpl. auto.
    - replace (s_conflicts s6) with (s_conflicts s) by (rewrite Es6, Es5, Es4, Es3; simpl; congruence).
      eapply Forall_impl; [|exact CP]. simpl. intros c (Ha & Hb). split; apply (same_net_valid _ _ _ S06); auto.
    - rewrite Es6, Es5, Es4, Es3. simpl. apply B3. rewrite A3. auto.
  Qed.
End StepSafe.
