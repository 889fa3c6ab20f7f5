(** * Every call preserves the invariant and panics only for the listed causes *)
From Coq Require Import List Bool ZArith NArith Arith Lia Permutation ListDec.
From Verif Require Import Arith Base BaseProofs SlotMap Util Geom Light Accel Net Path Vehicle LinkOps Sim SpecSim SlotMapProofs Safe NetInv SimInv AccSafe LightProofs SpecLight.
Import ListNotations.

Section SimSafe.
  Context {A : Arith}.

  Lemma at_of_set vs k v k' : at_of (sm_set vs k v) k' = if key_eqb k k' && sm_mem vs k then v_link v else at_of vs k'.
  Proof. unfold at_of. rewrite sm_get_set. destruct (_ && _); auto. Qed.

  Section E.
  Variable E : panic -> Prop.

  Lemma upd_link_safe links k (f : link -> res link) Q :
    (forall l, sm_get links k = Some l -> safe E (f l) (fun l' => Q (sm_set links k l'))) ->
    (~ valid links k -> E PBadLink) -> safe E (upd_link links k f) Q.
  Proof.
    intros Hf Hv. unfold upd_link, get_link. destruct (sm_get links k) as [l|] eqn:G; simpl.
    - eapply safe_bind; [apply Hf; auto|]. intros; simpl; auto.
    - apply Hv. intros H. apply valid_get in H. destruct H; congruence.
  Qed.

  Lemma upd_link_valid links k (f : link -> res link) Q : valid links k ->
    (forall l, sm_get links k = Some l -> safe E (f l) (fun l' => Q (sm_set links k l'))) ->
    safe E (upd_link links k f) Q.
  Proof. intros V H. apply upd_link_safe; auto. intros; tauto. Qed.

  Lemma insert_idx_safe vs pos ids : (forall id, In id ids -> exists v, sm_get vs id = Some v) ->
    safe E (insert_idx vs pos ids) (fun _ => True).
  Proof.
    induction ids as [|id ids IH]; intros H; cbn [insert_idx]; simpl; auto.
    eapply safe_bind; [apply get_vehicle_safe, H; simpl; auto|]. intros v _ _. destruct (nltb _ _); simpl; auto.
    eapply safe_bind; [apply IH; intros; apply H; simpl; auto|]. simpl; auto.
  Qed.
  Lemma insert_vehicle_safe vs id l : (exists v, sm_get vs id = Some v) ->
    (forall id, In id (lk_vehicles l) -> exists v, sm_get vs id = Some v) ->
    safe E (insert_vehicle vs id l) (fun l' => exists i, l' = set_vehicles l (insert_at i id (lk_vehicles l))).
  Proof.
    intros Hid H. unfold insert_vehicle. eapply safe_bind; [apply get_vehicle_safe; auto|]. intros v _ _.
    eapply safe_bind; [apply insert_idx_safe; auto|]. intros i _ _. simpl. eauto.
  Qed.

  (** Moving vehicles between the lists of links. *)
  Lemma remove_same_net links lid l k : sm_get links lid = Some l -> same_net links (sm_set links lid (remove_vehicle k l)).
  Proof.
    intros H. destruct (remove_vehicle_static k l) as (S1 & S2). eapply same_net_set; eauto.
    unfold last_ok. rewrite S2. unfold lk_static in S1. injection S1 as F1 F2 F3 F4 F5 F6 F7 F8 F9. rewrite F7. auto.
  Qed.
  Lemma insert_same_net links lid l vs : sm_get links lid = Some l -> same_net links (sm_set links lid (set_vehicles l vs)).
  Proof. intros H. eapply same_net_set; eauto. Qed.

  (** [upd_link .. insert_vehicle] *)
  Lemma link_insert_safe links vs f lid k : Occ links f -> valid links lid -> f k = None ->
    (exists v, sm_get vs k = Some v) ->
    (forall k' lid', f k' = Some lid' -> exists v, sm_get vs k' = Some v) ->
    safe E (upd_link links lid (insert_vehicle vs k)) (fun links' => same_net links links' /\ Occ links' (upd_at f k (Some lid))).
  Proof.
    intros O V Hk Hv Hall. apply upd_link_valid; auto. intros l Hl.
    eapply safe_weaken; [apply insert_vehicle_safe; auto|].
    - intros id Hid. destruct (O _ _ Hl) as (_ & I). apply I in Hid. eauto.
    - intros l' _ (i & ->). split; [eapply insert_same_net; eauto|eapply Occ_insert; eauto].
  Qed.
  Lemma link_remove_safe links f lid k : Occ links f -> valid links lid -> (forall lid', f k = Some lid' -> lid' = lid) ->
    safe E (upd_link links lid (fun l => Ok (remove_vehicle k l))) (fun links' => same_net links links' /\ Occ links' (upd_at f k None)).
  Proof.
    intros O V Hk. apply upd_link_valid; auto. intros l Hl. simpl.
    split; [apply remove_same_net; auto|eapply Occ_remove; eauto].
  Qed.

  (** ** Vehicle functions *)
  Definition lcbase (v' v : vehicle) : Prop :=
    v_id v' = v_id v /\ v_queued v' = v_queued v /\ v_flag v' = v_flag v /\ v_acc v' = v_acc v /\ v_vel v' = v_vel v.

  Lemma set_location_safe e links v lid pos lc : net_ok links -> valid links lid -> pf_dst_ok links (v_pathfind v) ->
    (pf_dst (v_pathfind v) <> null_key -> costs_too_high links -> E POverflow) ->
    safe E (set_location e links v lid pos lc) (fun v' =>
      v_route v' = [lid] /\ v_entered v' = 1 /\ pf_src (v_pathfind v') = lid /\ pf_dst (v_pathfind v') = pf_dst (v_pathfind v) /\
      Forall (path_ok links lid) (pf_paths (v_pathfind v')) /\ lcbase v' v).
  Proof.
    intros N V D HO. unfold set_location.
    destruct (key_eq_dec (pf_dst (v_pathfind v)) null_key) as [Hd|Hd].
    - (* no destination: no search *)
      eapply safe_bind with (Q := fun pf' => pf_src pf' = lid /\ pf_dst pf' = pf_dst (v_pathfind v) /\ Forall (path_ok links lid) (pf_paths pf')).
      + unfold set_origin. eapply safe_bind with (Q := fun pf' => pf_src pf' = lid /\ pf_dst pf' = pf_dst (v_pathfind v)).
        * cbn [pf_matrix]. destruct (mx_get _ _); simpl; auto. unfold reroute. cbn [pf_src pf_dst].
          replace (key_eqb lid null_key || key_eqb (pf_dst (v_pathfind v)) null_key) with true; simpl; auto.
          rewrite Hd, key_eqb_refl, orb_true_r. auto.
        * intros pf' _ (H1 & H2). eapply safe_weaken; [apply make_paths_safe; auto; congruence|].
          simpl. intros pf2 _ (H3 & H4 & _ & H5). repeat split; congruence.
      + intros pf' _ (H1 & H2 & H3). simpl. repeat split; auto.
    - eapply safe_bind; [apply (set_origin_safe E links N); auto|].
      intros pf' _ (H1 & H2 & H3). simpl. repeat split; auto.
  Qed.

  Lemma update_coords_safe links v lid : v_link v = Some lid -> valid links lid ->
    safe E (update_coords links v) (fun v' =>
      v_route v' = v_route v /\ v_entered v' = v_entered v /\ v_pathfind v' = v_pathfind v /\
      v_pos v' = v_pos v /\ v_can_exit v' = v_can_exit v /\ lcbase v' v).
  Proof.
    intros H V. unfold update_coords. unfold v_link in H. rewrite H. simpl.
    eapply safe_bind; [apply get_link_safe; auto|]. intros l _ Hl.
    match goal with |- context [let '(pos, offset) := ?x in _] => destruct x end.
    simpl. repeat split; auto.
  Qed.

  (** ** Public functions other than [step] *)
  Lemma initial_guess_safe c p : (has_nan -> E PNanCompare) -> safe E (initial_guess c p) (fun _ => True).
  Proof.
    intros H. unfold initial_guess. cbv zeta. generalize (map (fun i : nat => (i_lerp (c_bounds c) (ndiv (nofZ (Z.of_nat i)) (nofZ 8)), magnitude (vsub p (c_sample c (i_lerp (c_bounds c) (ndiv (nofZ (Z.of_nat i)) (nofZ 8))))))) (seq 1 8)).
    intros l. eapply safe_bind with (Q := fun _ => True); [|simpl; auto].
    generalize (i_lerp (c_bounds c) (ndiv (nofZ (Z.of_nat 0)) (nofZ 8)), magnitude (vsub p (c_sample c (i_lerp (c_bounds c) (ndiv (nofZ (Z.of_nat 0)) (nofZ 8)))))).
    induction l as [|y l IH]; intros b; cbn [min_by_snd]; simpl; auto. destruct (nnan (snd b) || nnan (snd y)) eqn:Nn; simpl; auto.
    apply orb_true_iff in Nn. apply H. destruct Nn as [Nn|Nn]; [exists (snd b)|exists (snd y)]; exact Nn.
  Qed.
  Lemma project_safe c p me t0 : (has_nan -> E PNanCompare) -> safe E (project_point_onto_curve c p me t0) (fun _ => True).
  Proof.
    intros H. unfold project_point_onto_curve. eapply safe_bind with (Q := fun _ => True).
    - destruct t0; simpl; auto. apply initial_guess_safe; auto.
    - simpl; auto.
  Qed.
  Lemma project_some_safe c p me t0 : safe E (project_point_onto_curve c p me (Some t0)) (fun _ => True).
  Proof. simpl. auto. Qed.

  Lemma do_lane_change_safe e s id lid dist :
    St (s_links s) (s_vehicles s) (s_seq s) -> flags0 (s_vehicles s) ->
    (sm_get (s_vehicles s) id = None -> E PBadVehicle) -> (~ valid (s_links s) lid -> E PBadLink) ->
    (has_nan -> E PNanCompare) -> (not_found (s_links s) lid -> E PProjection) -> (costs_too_high (s_links s) -> E POverflow) ->
    safe E (do_lane_change e s id lid dist) (fun s' =>
      St (s_links s') (s_vehicles s') (s_seq s') /\ flags0 (s_vehicles s') /\ same_net (s_links s) (s_links s') /\
      s' = with_links (with_vehicles s (s_vehicles s')) (s_links s') /\ same_shape (s_vehicles s) (s_vehicles s') /\
      (exists v', sm_get (s_vehicles s') id = Some v' /\ v_link v' = Some lid) /\
      (forall k, k <> id -> sm_get (s_vehicles s') k = sm_get (s_vehicles s) k)).
  Proof.
    intros St0 F0 EV EL E1 E2 E3. destruct St0 as [N W Vb O]. unfold do_lane_change.
    unfold get_vehicle. destruct (sm_get (s_vehicles s) id) as [v|] eqn:Hv; [|simpl; auto]. simpl.
    pose proof (Vb _ _ Hv) as B. destruct (vbase_link _ _ _ _ B) as (cur & Hcur & Vcur & Hsrc). rewrite Hcur.
    eapply safe_bind; [apply (link_remove_safe _ _ _ _ O Vcur)|].
    { unfold at_of. rewrite Hv. congruence. }
    intros links1 _ (S1 & O1).
    assert (sm_mem (s_vehicles s) id = true) as Mid by (apply sm_mem_get; eauto).
    destruct (sm_mem links1 lid) eqn:Mlid.
    2: { assert (~ valid (s_links s) lid) as NV.
         { intros H. apply (same_net_valid _ _ _ S1) in H. unfold valid in H. congruence. }
         unfold get_link. unfold sm_mem in Mlid. destruct (sm_get links1 lid); [discriminate|]. simpl. auto. }
    eapply safe_bind; [apply get_link_safe; auto|]. intros l _ Hl. simpl in Hl.
    eapply safe_bind with (Q := fun _ => True).
    { unfold inverse_sample. eapply safe_bind; [apply project_safe; auto|]. intros [p|] _ _; simpl; auto. }
    intros o Ho _. destruct o as [[[pos off] slope]|]; simpl.
    2: { apply E2. destruct (same_net_get _ _ _ _ S1 Hl) as (l0 & G0 & Es). exists l0, (v_world_pos v), (v_world_dir v). split; [exact G0|]. unfold lk_static in Es. inversion Es as [Ec]. congruence. }
    assert (net_ok links1) as N1 by (eapply same_net_ok; eauto).
    assert (valid links1 lid) as V1 by exact Mlid.
    eapply safe_bind; [apply set_location_safe; auto|].
    { destruct (vb_dst _ _ _ _ B); [left|right]; auto. eapply same_net_valid; [|eauto]. apply same_net_sym; auto. }
    { intros _ C. apply E3. exact (same_net_cause _ _ POverflow S1 C). }
    intros v' _ (R1 & R2 & R3 & R4 & R5 & (R6 & R7 & R8 & R9 & R10)).
    assert (sm_get (sm_set (s_vehicles s) id v') id = Some v') as Gid.
    { rewrite sm_get_set, key_eqb_refl, Mid. auto. }
    assert (v_link v' = Some lid) as Hlv' by (unfold v_link; rewrite R1; auto).
    eapply safe_bind; [eapply (link_insert_safe links1 _ (upd_at (at_of (s_vehicles s)) id None)); eauto|].
    { unfold upd_at. rewrite key_eqb_refl. auto. }
    { intros k' lid' Hk. unfold upd_at in Hk. destruct (key_eqb_spec id k'); [discriminate|].
      rewrite sm_get_set. destruct (key_eqb_spec id k'); [congruence|]. simpl. unfold at_of in Hk.
      destruct (sm_get (s_vehicles s) k'); eauto. discriminate. }
    intros links2 _ (S2 & O2). simpl.
    assert (same_net (s_links s) links2) as S by (eapply same_net_trans; eauto).
    split; [|split; [|split; [|split; [|split; [|split]]]]]; auto.
    - split.
      + eapply same_net_ok; eauto.
      + apply sm_wf_set; auto.
      + intros k w Hw. rewrite sm_get_set in Hw. destruct (key_eqb_spec id k); simpl in Hw.
        * subst k. rewrite Mid in Hw. inversion Hw; subst w. split.
          -- rewrite R6. apply B.
          -- rewrite R1. simpl. repeat split; auto. eapply same_net_valid; [|exact V1]. apply same_net_sym; auto.
          -- rewrite R1, R2. simpl. lia.
          -- rewrite R1, R3. reflexivity.
          -- unfold pf_dst_ok. rewrite R4. destruct (vb_dst _ _ _ _ B); [left|right]; auto.
             apply (same_net_valid _ _ _ S). auto.
          -- rewrite R3. eapply Forall_impl; [|exact R5]. intros p. apply path_ok_mono. apply same_net_le; auto.
          -- rewrite R7. apply B.
        * eapply vbase_mono; [apply same_net_le; exact S|]. apply Vb; auto.
      + eapply Occ_ext; [|exact O2]. intros k. unfold upd_at. rewrite at_of_set, Mid.
        destruct (key_eqb_spec id k); simpl; auto.
    - intros k w Hw. rewrite sm_get_set in Hw. destruct (key_eqb_spec id k); simpl in Hw; eauto.
      subst k. rewrite Mid in Hw. inversion Hw; subst w. rewrite R8. eauto.
    - apply shape_set.
    - exists v'. auto.
    - intros k Hk. rewrite sm_get_set. destruct (key_eqb_spec id k); congruence || auto.
  Qed.
  End E.
End SimSafe.
