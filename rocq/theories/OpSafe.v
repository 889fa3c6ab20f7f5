(** * Every call preserves the invariant and panics only for the listed causes *)
From Coq Require Import List Bool ZArith NArith Arith Lia.
From Verif Require Import Arith Base BaseProofs SlotMap Util Geom Light Accel Net Path Vehicle LinkOps Sim SpecSim SlotMapProofs Safe NetInv SimInv AccSafe SimSafe StepSafe LightProofs SpecLight.
Import ListNotations.

Section OpSafe.
  Context {A : Arith}.

  Lemma St_set links vs seq k l l' : St links vs seq -> sm_get links k = Some l -> link_ok (valid links) k l' ->
    lk_vehicles l' = lk_vehicles l -> incl (lk_out l) (lk_out l') -> incl (lk_changes l) (lk_changes l') ->
    St (sm_set links k l') vs seq.
  Proof.
    intros S H L V Ho Hc. eapply St_links; [exact S| | |].
    - apply net_ok_set; auto. apply S.
    - eapply net_le_set; eauto.
    - eapply Occ_set; eauto. apply S.
  Qed.

  Section E.
  Variable E : panic -> Prop.

  Lemma eq_outer_safe fuel c dist t p s : safe E (eq_outer fuel c dist t p s) (fun _ => True).
  Proof.
    revert s; induction fuel as [|fuel IH]; intros s; cbn [eq_outer]; [simpl; auto|].
    destruct (nltb _ _); [apply IH|exact I].
  Qed.
  Lemma lc_new_safe fuel c : E PNoSegments -> safe E (lc_new fuel c) (fun lc => lc_segments lc <> []).
  Proof.
    intros H. unfold lc_new, lc_with_step, equidistant_points_along_curve.
    eapply safe_bind with (Q := fun _ => True).
    - eapply safe_bind; [apply eq_outer_safe|]. intros s _ _. cbv zeta. destruct (nltb _ _); simpl; auto.
    - intros pl _ _. cbv zeta. destruct (segments_of _); simpl; auto. discriminate.
  Qed.

  Lemma add_link_safe e s c limit : Inv s -> E PNoSegments ->
    safe E (add_link e s c limit) (fun r => Inv (fst r)).
  Proof.
    intros [S F LW LI CP FR] EN. unfold add_link, link_new.
    eapply safe_bind with (Q := fun l => lk_id l = sm_next_key (s_links s) /\ lk_group l = None /\ lk_in l = [] /\ lk_out l = [] /\ lk_changes l = [] /\
      lk_conflicts l = [] /\ lk_last l = 0 /\ lk_vehicles l = [] /\ lc_segments (lk_curve l) <> []).
    - eapply safe_bind; [apply lc_new_safe; auto|]. intros lc _ Hlc. simpl. auto 12.
    - intros l _ (H1 & H2 & H3 & H4 & H5 & H6 & H7 & H8 & H9). simpl.
      pose proof S as [N W V O].
      assert (net_le (s_links s) (sm_insert (s_links s) l)) as L by (apply net_le_insert; apply N).
      split; simpl; auto.
      + eapply St_links; [exact S| |exact L|].
        * apply net_ok_insert; auto. split; rewrite ?H2, ?H3, ?H4, ?H5, ?H6; auto; try discriminate.
        * intros lid l' G. rewrite sm_get_insert in G by apply N.
          destruct (key_eqb_spec (sm_next_key (s_links s)) lid); [|apply O; auto].
          inversion G; subst. rewrite H8. split; [constructor|]. intros k. split; [simpl; tauto|].
          intros Hat. unfold at_of in Hat. destruct (sm_get (s_vehicles s) k) as [v|] eqn:Hv; [|discriminate].
          destruct (vbase_link _ _ _ _ (V _ _ Hv)) as (x & Hx & Vx & _).
          assert (x = sm_next_key (s_links s)) by congruence. subst x. apply valid_get in Vx. destruct Vx as (l0 & Vx).
          rewrite next_key_fresh in Vx by apply N. discriminate.
      + eapply Forall_impl; [|exact CP]. simpl. intros cp (Ha & Hb). split; apply L; auto.
  Qed.

  Lemma cpl_loop_safe fuel c1 c2 own o mn mx : (has_nan -> E PNanCompare) -> safe E (cpl_loop fuel c1 c2 own o mn mx) (fun _ => True).
  Proof.
    intros EN. revert own o mn mx; induction fuel as [|fuel IH]; intros own o mn mx; cbn [cpl_loop]; [simpl; auto|].
    destruct (nltb _ _); [|simpl; auto]. cbv zeta.
    eapply safe_bind; [apply project_safe; auto|]. intros o' _ _. cbv beta.
    repeat match goal with |- context [if ?b then _ else _] => destruct b end; auto.
  Qed.
  Lemma cpl_new_safe fuel a b : (has_nan -> E PNanCompare) ->
    safe E (cpl_new fuel a b) (fun o => match o with Some c => cpl_link c = lk_id a | None => True end).
  Proof.
    intros EN. unfold cpl_new. eapply safe_bind; [apply cpl_loop_safe; auto|]. intros [[mn|] [mx|]] _ _; simpl; auto.
  Qed.
  Lemma cpoint_new_safe fuel a b : (has_nan -> E PNanCompare) ->
    safe E (cpoint_new fuel a b) (fun o => match o with Some c => cpl_link (cp_a c) = lk_id a /\ cpl_link (cp_b c) = lk_id b | None => True end).
  Proof.
    intros EN. unfold cpoint_new. eapply safe_bind; [apply cpl_new_safe; auto|]. intros [ca|] _ Ha; simpl; auto.
    eapply safe_bind; [apply cpl_new_safe; auto|]. intros [cb|] _ Hb; simpl; auto.
  Qed.

  Lemma add_convergence_safe e s a b : Inv s -> (has_nan -> E PNanCompare) -> safe E (add_link_convergance e s a b) Inv.
  Proof.
    intros I EN. unfold add_link_convergance. destruct (key_eqb_spec a b) as [|Hab]; [exact I|].
    destruct (sm_get (s_links s) a) as [la|] eqn:Ga; [|exact I].
    destruct (sm_get (s_links s) b) as [lb|] eqn:Gb; [|exact I].
    eapply safe_bind; [apply cpoint_new_safe; auto|]. intros [cp|] _ Hcp; [|simpl; auto].
    destruct I as [S F LW LI CP FR].
    rewrite (lo_id _ _ _ (nk_link _ (st_net _ _ _ S) _ _ Ga)), (lo_id _ _ _ (nk_link _ (st_net _ _ _ S) _ _ Gb)) in Hcp.
    destruct Hcp as (Ea & Eb). pose proof (get_valid _ _ _ Ga) as Va. pose proof (get_valid _ _ _ Gb) as Vb.
    eapply safe_bind.
    - apply (safe_foldM E (fun links => St links (s_vehicles s) (s_seq s) /\ forall k, valid (s_links s) k -> valid links k)); auto.
      intros links kc Hin (S' & V'). apply upd_link_safe.
      + intros l Hl. simpl. split; [|intros; apply valid_set; auto].
        assert (valid (s_links s) (cf_link (snd kc))) as Vc.
        { unfold link_conflicts in Hin. simpl in Hin. destruct Hin as [<-|[<-|[]]]; simpl; congruence. }
        eapply St_set; eauto; try apply incl_refl.
        destruct (nk_link _ (st_net _ _ _ S') _ _ Hl). split; simpl; auto.
        * apply Forall_app. split; auto.
        * rewrite app_length. simpl. lia.
      + intros Hv. exfalso. apply Hv. apply V'. unfold link_conflicts in Hin. simpl in Hin.
        destruct Hin as [<-|[<-|[]]]; simpl; congruence.
    - intros links _ (S' & V'). simpl. split; simpl; auto.
      apply Forall_app. split.
      + eapply Forall_impl; [|exact CP]. simpl. intros c (H1 & H2). auto.
      + constructor; auto. rewrite Ea, Eb. auto.
  Qed.

  Lemma add_connection_safe s f t : Inv s -> (~ valid (s_links s) f \/ ~ valid (s_links s) t -> E PBadLink) ->
    safe E (add_link_connection s f t) Inv.
  Proof.
    intros [S F LW LI CP FR] EB. unfold add_link_connection.
    destruct (sm_mem (s_links s) t) eqn:Mt.
    2: { assert (E PBadLink) as EP. { apply EB. right. unfold valid. congruence. }
         eapply safe_bind with (Q := fun links => valid links t <-> valid (s_links s) t).
         - apply upd_link_safe; auto. intros l Hl. simpl. apply valid_set.
         - intros links _ Hv. eapply safe_bind with (Q := fun _ => False); [|tauto].
           apply upd_link_safe; auto. intros l Hl. exfalso. apply get_valid in Hl. apply Hv in Hl. unfold valid in Hl. congruence. }
    eapply safe_bind with (Q := fun links => St links (s_vehicles s) (s_seq s) /\ (forall k, valid links k <-> valid (s_links s) k)).
    - apply upd_link_safe; [|auto]. intros l Hl. simpl. split; [|intros; apply valid_set; auto].
      eapply St_set; eauto; simpl; try apply incl_refl.
      + destruct (nk_link _ (st_net _ _ _ S) _ _ Hl). split; simpl; auto. apply Forall_app. split; auto.
      + apply incl_appl, incl_refl.
    - intros links Hok (S' & V').
      assert (valid (s_links s) f) as Vf.
      { destruct (sm_mem (s_links s) f) eqn:Mf; auto. unfold upd_link, get_link in Hok. unfold sm_mem in Mf.
        destruct (sm_get (s_links s) f); discriminate. }
      eapply safe_bind with (Q := fun links' => St links' (s_vehicles s) (s_seq s) /\ (forall k, valid links' k <-> valid (s_links s) k)).
      + apply upd_link_safe; [|intros Hv; exfalso; apply Hv, V'; auto]. intros l Hl. simpl.
        split; [|intros; rewrite valid_set; auto].
        eapply St_set; eauto; simpl; try apply incl_refl.
        destruct (nk_link _ (st_net _ _ _ S') _ _ Hl). split; simpl; auto. apply Forall_app. split; auto.
        constructor; auto. apply V'. auto.
      + intros links' _ (S2 & V2). simpl. split; simpl; auto.
        eapply Forall_impl; [|exact CP]. simpl. intros c (H1 & H2). split; apply V2; auto.
  Qed.

  (** ** Groups *)
  Lemma proj_samples_safe fuel src dst i last : safe E (proj_samples fuel src dst i last) (fun _ => True).
  Proof.
    revert i last; induction fuel as [|fuel IH]; intros i last; cbn [proj_samples]; [simpl; auto|].
    cbv zeta. destruct (nltb _ _); [|simpl; auto].
    eapply safe_bind; [apply project_some_safe|]. intros [p|] _ _; [|simpl; auto]. eapply safe_bind; [apply IH|]. simpl; auto.
  Qed.
  Lemma pairs_of_links ls : map (fun sd => (lk_id (fst sd), lk_id (snd sd))) (proj_pairs ls) = pairs (map lk_id ls).
  Proof.
    unfold proj_pairs, pairs. revert ls.
    assert (forall (a b : list link),
      map (fun sd : link * link => (lk_id (fst sd), lk_id (snd sd))) (filter (fun sd => negb (key_eqb (lk_id (fst sd)) (lk_id (snd sd)))) (list_prod a b)) =
      filter (fun sd => negb (key_eqb (fst sd) (snd sd))) (list_prod (map lk_id a) (map lk_id b))) as K.
    { induction a as [|x a IH]; intros b; simpl; auto. rewrite !filter_app, map_app, IH. f_equal. clear.
      induction b as [|y b IH]; simpl; auto. destruct (key_eqb (lk_id x) (lk_id y)); simpl; congruence. }
    intros; apply K.
  Qed.
  Lemma group_new_safe fuel ls mask V : Forall (fun l => V (lk_id l)) ls -> (length ls < 2 -> E PGroupSmall) ->
    safe E (group_new fuel ls mask) (fun g => g_links g = map lk_id ls /\ (length ls <= 16 -> group_ok V g)).
  Proof.
    intros HV E1. unfold group_new. destruct (Nat.ltb_spec (length ls) 2); simpl; auto.
    eapply safe_bind.
    - apply (safe_mapM E (fun sd p => pj_src p = lk_id (fst sd) /\ pj_dst p = lk_id (snd sd))). intros sd _.
      unfold mk_projection. eapply safe_bind; [apply proj_samples_safe|]. simpl; auto.
    - intros ps _ Hps. simpl. split; auto. intros Hle. split; simpl.
      + rewrite map_length. lia.
      + rewrite Forall_map. auto.
      + rewrite <- pairs_of_links. clear -Hps. induction Hps; simpl; constructor; auto.
  Qed.
  Lemma g_lane_changes_big g : 16 < length (g_links g) -> E PShift -> safe E (g_lane_changes g) (fun _ => False).
  Proof.
    intros H ES. unfold g_lane_changes.
    assert (forall i d, safe E (lc_bit g i d) (fun _ => True)) as K.
    { intros i d. unfold lc_bit. destruct (Nat.ltb _ _); simpl; auto. }
    eapply safe_bind; [apply safe_filterM; auto|]. intros r _ _.
    eapply safe_bind with (Q := fun _ => False); [|tauto].
    assert (In 16 (seq 1 (length (g_links g) - 1))) as Hin by (apply in_seq; lia).
    induction (seq 1 (length (g_links g) - 1)) as [|x l IH]; [destruct Hin|]. simpl in Hin. cbn [filterM]. destruct Hin as [->|Hin].
    - unfold lc_bit at 1. destruct (Nat.ltb_spec (2 * 16 + 0) 32); [lia|]. simpl. auto.
    - eapply safe_bind; [apply K|]. intros b _ _. eapply safe_bind; [apply IH; auto|]. tauto.
  Qed.

  Lemma add_group_safe e s ids mask : Inv s ->
    ((exists k, In k ids /\ ~ valid (s_links s) k) -> E PBadLink) -> (length ids < 2 -> E PGroupSmall) ->
    (16 < length ids -> E PShift) -> E PLaneChangesFull ->
    safe E (add_link_group e s ids mask) Inv.
  Proof.
    intros [S F LW LI CP FR] EB EG ES EL. unfold add_link_group. pose proof (st_net _ _ _ S) as N.
    eapply safe_bind.
    - apply (safe_mapM E (fun k l => sm_get (s_links s) k = Some l)). intros k Hk.
      unfold get_link. apply safe_option; auto. intros Hn. apply EB. exists k. split; auto.
      intros Hv. apply valid_get in Hv. destruct Hv; congruence.
    - intros ls _ Hls.
      assert (map lk_id ls = ids) as Eids.
      { clear -Hls N. induction Hls; simpl; auto. f_equal; auto. apply (lo_id _ _ _ (nk_link _ N _ _ H)). }
      assert (Forall (valid (s_links s)) ids) as Vids.
      { clear -Hls. induction Hls; constructor; auto. eapply get_valid; eauto. }
      assert (length ls = length ids) as Elen by (rewrite <- Eids, map_length; auto).
      eapply safe_bind; [apply (group_new_safe (e_fuel e) ls mask (valid (s_links s)))|].
      + rewrite <- Forall_map, Eids. auto.
      + rewrite Elen. auto.
      + intros g _ (Hg & Gok). rewrite Eids in Hg. rewrite Elen in Gok. rewrite Forall_forall in Vids.
        destruct (le_lt_dec (length ids) 16) as [Hle|Hlt].
        * specialize (Gok Hle).
          eapply safe_bind with (Q := fun links => St links (s_vehicles s) (s_seq s) /\ (forall k, valid links k <-> valid (s_links s) k)).
          -- apply safe_foldM; [|split; [auto|tauto]]. intros links k Hk (S' & V').
             apply upd_link_safe; [|intros Hv; exfalso; apply Hv, V'; auto]. intros l Hl. simpl.
             split; [|intros; rewrite valid_set; auto].
             eapply St_set; eauto; simpl; try apply incl_refl.
             destruct (nk_link _ (st_net _ _ _ S') _ _ Hl). split; simpl; auto.
             intros g' Eg. inversion Eg; subst g'. split; [|congruence]. eapply group_ok_mono; [|exact Gok]. intros; apply V'; auto.
          -- intros links _ (S' & V').
             eapply safe_bind; [eapply g_lane_changes_safe; eauto|]. intros lcs Hlcs _.
             pose proof (g_lane_changes_in g lcs Hlcs) as Hin. rewrite Hg in Hin.
             eapply safe_bind with (Q := fun links => St links (s_vehicles s) (s_seq s) /\ (forall k, valid links k <-> valid (s_links s) k)).
             ++ apply safe_foldM; [|auto]. intros links2 ft Hft (S2 & V2). destruct (Hin _ Hft) as (H1 & H2).
                apply upd_link_safe; [|intros Hv; exfalso; apply Hv, V2; auto]. intros l Hl. unfold add_lane_change.
                destruct (Nat.ltb _ _); simpl; auto. split; [|intros; rewrite valid_set; auto].
                eapply St_set; eauto; simpl; try apply incl_refl; try apply incl_appl, incl_refl.
                destruct (nk_link _ (st_net _ _ _ S2) _ _ Hl). split; simpl; auto.
                apply Forall_app. split; auto. constructor; auto. apply V2. auto.
             ++ intros links2 _ (S2 & V2). simpl. split; simpl; auto.
                eapply Forall_impl; [|exact CP]. simpl. intros c (H1 & H2). split; apply V2; auto.
        * eapply safe_bind with (Q := fun links => forall k, valid links k <-> valid (s_links s) k).
          -- apply safe_foldM; [|tauto]. intros links k Hk V'.
             apply upd_link_safe; [|intros Hv; exfalso; apply Hv, V'; auto]. intros l Hl. simpl. intros; rewrite valid_set; auto.
          -- intros links _ _. eapply safe_bind; [apply g_lane_changes_big; [congruence|auto]|]. intros ? _ [].
  Qed.

  (** ** Lights *)
  Lemma light_ok_run ops l : lrun ops = Ok l -> light_ok l.
  Proof.
    revert ops l. apply (lrun_ind (fun _ l => light_ok l)).
    - split; simpl; auto.
    - intros ops l o l' _ (P & F) H. destruct o; simpl in H.
      + inversion H; subst. split; auto. unfold add_movement. cbn [l_mlinks l_movements]. rewrite app_length. cbn [length]. apply Forall_app. split.
        * eapply Forall_impl; [|exact F]. simpl. intros. lia.
        * rewrite Forall_map. apply Forall_forall. intros k _. cbn [fst].
          assert (length (l_movements l) mod 256 <= length (l_movements l)) by (apply Nat.mod_le; discriminate). lia.
      + inversion H; subst. split; auto. unfold add_phase. simpl. rewrite app_length. simpl. right. destruct P as [(P1 & P2)|P]; lia.
      + eapply light_ok_step; [split; eauto|eauto].
  Qed.

  (** ** Vehicles *)
  Lemma add_vehicle_safe e s a lid : Inv s -> (~ valid (s_links s) lid -> E PBadLink) ->
    safe E (add_vehicle e s a lid) (fun r => Inv (fst r)).
  Proof.
    intros [S F LW LI CP FR] EB. unfold add_vehicle. pose proof S as [N W V O].
    destruct (sm_mem (s_links s) lid) eqn:Ml.
    2: { assert (~ valid (s_links s) lid) as NV by (unfold valid; congruence). assert (E PBadLink) as EP by auto.
         eapply safe_bind with (Q := fun _ => False); [|tauto].
         unfold set_location, set_origin. cbn [v_pathfind vehicle_new pf_default pf_matrix mx_get pf_src pf_dst].
         unfold reroute. cbn [pf_src pf_dst pf_paths]. rewrite key_eqb_refl, orb_true_r. cbn [bind].
         unfold make_paths. cbn [pf_src pf_dst pf_paths pf_matrix].
         replace (make_paths_inner 7 (s_links s) [] null_key [] lid n0) with (@Ok (bool * list path) (false, [])) by reflexivity.
         cbn [bind]. unfold get_link. unfold sm_mem in Ml. destruct (sm_get (s_links s) lid); [discriminate|].
         cbn [of_option bind]. auto. }
    eapply safe_bind; [apply set_location_safe; simpl; auto|].
    { left. reflexivity. }
    { tauto. }
    intros v0 _ (R1 & R2 & R3 & R4 & R5 & (R6 & R7 & R8 & R9 & R10)).
    eapply safe_bind; [eapply update_coords_safe; [unfold v_link; rewrite R1; reflexivity|auto]|].
    intros v _ (T1 & T2 & T3 & T4 & T5 & (T6 & T7 & T8 & T9 & T10)). cbv zeta.
    set (vid := sm_next_key (s_vehicles s)) in *.
    assert (sm_get (s_vehicles s) vid = None) as Fr by (apply next_key_fresh; auto).
    assert (sm_get (sm_insert (s_vehicles s) v) vid = Some v) as Gv.
    { rewrite sm_get_insert by auto. fold vid. rewrite key_eqb_refl. auto. }
    assert (v_link v = Some lid) as Hl by (unfold v_link; rewrite T1, R1; auto).
    eapply safe_bind; [eapply (link_insert_safe E (s_links s) _ (at_of (s_vehicles s)) lid vid O); eauto|].
    { unfold at_of. rewrite Fr. auto. }
    { intros k' lid' Hk. rewrite sm_get_insert by auto. fold vid. destruct (key_eqb vid k'); eauto.
      unfold at_of in Hk. destruct (sm_get (s_vehicles s) k'); eauto. discriminate. }
    intros links _ (S' & O'). simpl. split; simpl; auto.
    - split.
      + eapply same_net_ok; eauto.
      + apply sm_wf_insert; auto.
      + intros k w Hw. rewrite sm_get_insert in Hw by auto. fold vid in Hw. destruct (key_eqb_spec vid k).
        * inversion Hw; subst w k. eapply vbase_mono; [apply same_net_le; eauto|]. split.
          -- rewrite T6, R6. reflexivity.
          -- rewrite T1, R1. simpl. repeat split; auto.
          -- rewrite T1, T2, R1, R2. simpl. lia.
          -- rewrite T1, T3, R1, R3. reflexivity.
          -- unfold pf_dst_ok. rewrite T3, R4. left. reflexivity.
          -- rewrite T3, R3. auto.
          -- rewrite T7, R7. simpl. discriminate.
        * eapply vbase_mono; [apply same_net_le; eauto|]. auto.
      + eapply Occ_ext; [|exact O']. intros k. unfold upd_at, at_of. rewrite sm_get_insert by auto. fold vid.
        destruct (key_eqb_spec vid k); subst; auto.
    - intros k w Hw. rewrite sm_get_insert in Hw by auto. fold vid in Hw. destruct (key_eqb vid k); eauto.
      inversion Hw; subst w. rewrite T8, R8. reflexivity.
    - eapply Forall_impl; [|exact CP]. simpl. intros c (H1 & H2). split; apply (same_net_valid _ _ _ S'); auto.
  Qed.

  Lemma remove_vehicle_safe s id : Inv s -> safe E (sim_remove_vehicle s id) Inv.
  Proof.
    intros I. unfold sim_remove_vehicle. destruct (sm_get (s_vehicles s) id) as [v|] eqn:Gv; [|simpl; auto].
    destruct I as [S F LW LI CP FR]. pose proof S as [N W V O].
    pose proof (V _ _ Gv) as B. destruct (vbase_link _ _ _ _ B) as (lid & Hl & Vl & _). rewrite Hl.
    rewrite (vb_id _ _ _ _ B). simpl.
    eapply safe_bind; [apply (link_remove_safe E _ _ lid id O Vl)|].
    { unfold at_of. rewrite Gv. congruence. }
    intros links _ (S' & O'). simpl. split; simpl; auto.
    - split.
      + eapply same_net_ok; eauto.
      + apply sm_wf_remove; auto.
      + intros k w Hw. rewrite sm_get_remove in Hw. destruct (key_eqb id k); [discriminate|].
        eapply vbase_mono; [apply same_net_le; eauto|]. auto.
      + eapply Occ_ext; [|exact O']. intros k. unfold upd_at, at_of. rewrite sm_get_remove. destruct (key_eqb id k); auto.
    - intros k w Hw. rewrite sm_get_remove in Hw. destruct (key_eqb id k); [discriminate|]. eauto.
    - eapply Forall_impl; [|exact CP]. simpl. intros c (H1 & H2). split; apply (same_net_valid _ _ _ S'); auto.
  Qed.

  Lemma randomise_safe s f : Inv s -> safe E (randomise_velocity_adjusts s f) Inv.
  Proof.
    intros [S F LW LI CP FR]. unfold randomise_velocity_adjusts. pose proof S as [N W V O]. eapply safe_bind.
    - apply (safe_mapS_pt E _ (fun _ => True) (fun k v v' => exists a, v' = set_acc v a)); auto.
      intros u k v Hk _. simpl. split; auto. eexists. reflexivity.
    - intros [u vs] _ (_ & Sh & H1 & H2). simpl in *. split; simpl; auto.
      + split; auto.
        * eapply shape_wf; eauto.
        * intros k v' Hk. destruct (H2 _ _ Hk) as (v & Hv & a & ->). destruct (V _ _ Hv). split; auto.
        * eapply Occ_ext; [|exact O]. intros k. pose proof (shape_mem _ _ k Sh) as M. unfold sm_mem in M. unfold at_of.
          destruct (sm_get vs k) as [v'|] eqn:G.
          -- destruct (H2 _ _ G) as (v & Hv & a & ->). rewrite Hv. auto.
          -- destruct (sm_get (s_vehicles s) k); auto. discriminate.
      + intros k v' Hk. destruct (H2 _ _ Hk) as (v & Hv & a & ->). simpl. eauto.
  Qed.

  Lemma frozen_safe s id b : Inv s -> Inv (set_vehicle_frozen s id b).
  Proof.
    intros I. unfold set_vehicle_frozen. destruct b, (position _ _) as [i|] eqn:Ep; auto; destruct I; split; simpl; auto.
    - apply NoDup_app_intro; auto; [repeat constructor; simpl; tauto|]. intros x Hx [<-|[]].
      pose proof (position_none _ _ Ep _ Hx) as H. simpl in H. rewrite key_eqb_refl in H. discriminate.
    - apply NoDup_remove_at; auto.
  Qed.

  Lemma set_destination_safe e s id dst : Inv s -> (sm_get (s_vehicles s) id = None -> E PBadVehicle) ->
    (~ valid (s_links s) dst -> E PBadLink) -> (costs_too_high (s_links s) -> E POverflow) ->
    safe E (set_vehicle_destination e s id dst) Inv.
  Proof.
    intros [S F LW LI CP FR] EV EL EO. unfold set_vehicle_destination. pose proof S as [N W V O].
    unfold get_vehicle. destruct (sm_get (s_vehicles s) id) as [v|] eqn:Gv; [|simpl; auto]. simpl.
    pose proof (V _ _ Gv) as B. pose proof (vbase_src _ _ _ _ B) as Vs.
    unfold set_destination.
    eapply safe_bind with (Q := fun v' => exists pf, v' = set_can_exit (set_pathfind v pf) false /\
      pf_src pf = pf_src (v_pathfind v) /\ pf_dst_ok (s_links s) pf /\ Forall (path_ok (s_links s) (pf_src pf)) (pf_paths pf)).
    - destruct (sm_mem (s_links s) dst) eqn:Md.
      + eapply safe_bind; [apply pf_set_destination_safe; auto|]. intros pf _ (P1 & P2 & P3). simpl.
        exists pf. split; auto. split; auto. split; [right; congruence|congruence].
      + assert (~ valid (s_links s) dst) as NV by (unfold valid; congruence).
        destruct (key_eq_dec dst null_key) as [->|Hd].
        * eapply safe_bind with (Q := fun pf => pf_src pf = pf_src (v_pathfind v) /\ pf_dst pf = null_key /\ Forall (path_ok (s_links s) (pf_src pf)) (pf_paths pf)).
          -- unfold pf_set_destination. unfold reroute. cbn [pf_src pf_dst pf_paths pf_matrix]. rewrite key_eqb_refl, orb_true_r. cbn [bind].
             eapply safe_weaken; [apply make_paths_safe; auto|]. cbn [pf_src pf_dst pf_paths pf_matrix]. intros pf _ (P1 & P2 & _ & P3). rewrite P1. auto.
          -- intros pf _ (P1 & P2 & P3). simpl. exists pf. split; auto. split; auto. split; auto. left; auto.
        * unfold pf_set_destination, reroute. cbn [pf_src pf_dst pf_paths pf_matrix]. replace (key_eqb dst null_key) with false by (symmetry; apply key_eqb_neq; auto).
          replace (key_eqb (pf_src (v_pathfind v)) null_key) with false.
          -- cbn [orb]. unfold get_link at 1. unfold sm_mem in Md. destruct (sm_get (s_links s) dst); [discriminate|]. cbn [of_option bind safe]. auto.
          -- symmetry. apply key_eqb_neq. intros E0. rewrite E0 in Vs. apply valid_get in Vs. destruct Vs as (l & Vs).
             rewrite sm_get_null in Vs; [discriminate|apply N].
    - intros v' _ (pf & -> & P1 & P2 & P3). simpl. split; simpl; auto.
      + split; auto.
        * apply sm_wf_set; auto.
        * intros k w Hw. rewrite sm_get_set in Hw. destruct (key_eqb_spec id k); simpl in Hw; auto. subst k.
          destruct (sm_mem (s_vehicles s) id); auto. inversion Hw; subst w. destruct B. split; simpl; auto. congruence.
        * eapply Occ_ext; [|exact O]. intros k. rewrite at_of_set. destruct (key_eqb_spec id k); simpl; auto. subst k.
          destruct (sm_mem (s_vehicles s) id); auto. unfold at_of. rewrite Gv. reflexivity.
      + intros k w Hw. rewrite sm_get_set in Hw. destruct (key_eqb_spec id k); simpl in Hw; eauto. subst k.
        destruct (sm_mem (s_vehicles s) id); eauto. inversion Hw; subst w. simpl. eauto.
  Qed.

  Lemma set_link_control_safe s id c : Inv s -> (~ valid (s_links s) id -> E PBadLink) -> safe E (set_link_control s id c) Inv.
  Proof.
    intros [S F LW LI CP FR] EB. unfold set_link_control.
    eapply safe_bind with (Q := fun links => St links (s_vehicles s) (s_seq s) /\ forall k, valid (s_links s) k -> valid links k).
    - apply upd_link_safe; auto. intros l Hl. simpl. split; [|intros; apply valid_set; auto].
      eapply St_set; eauto; try apply incl_refl. destruct (nk_link _ (st_net _ _ _ S) _ _ Hl). split; auto.
    - intros links _ (S' & V'). simpl. split; simpl; auto.
      eapply Forall_impl; [|exact CP]. simpl. intros cp (H1 & H2). auto.
  Qed.
  End E.

  Theorem exec_safe e s o : Inv s -> safe (cause s o) (exec e s o) Inv.
  Proof.
    intros I. destruct o; unfold exec.
    - eapply safe_bind; [apply add_link_safe; simpl; auto|]. simpl; auto.
    - apply add_group_safe; simpl; auto.
    - apply add_convergence_safe; simpl; auto.
    - apply add_connection_safe; simpl; auto.
    - eapply safe_bind with (Q := light_ok).
      + destruct (lrun calls) as [l|p|] eqn:R; simpl; auto. eapply light_ok_run; eauto.
      + intros l _ L. simpl. destruct I as [S F LW LI CP FR]. split; simpl; auto.
        * apply sm_wf_insert; auto.
        * intros k l' Hk. rewrite sm_get_insert in Hk by auto. destruct (key_eqb _ k); eauto. inversion Hk; subst; auto.
    - eapply safe_bind; [apply add_vehicle_safe; simpl; auto|]. simpl; auto.
    - apply remove_vehicle_safe; auto.
    - apply randomise_safe; auto.
    - simpl. apply frozen_safe; auto.
    - apply set_destination_safe; simpl; auto.
    - apply set_link_control_safe; simpl; auto.
    - destruct I as [S F LW LI CP FR]. eapply safe_weaken; [apply do_lane_change_safe; simpl; auto 6|].
      intros s' _ (S' & F' & N' & Es & _). split; auto; rewrite Es; simpl; auto.
      eapply Forall_impl; [|exact CP]. simpl. intros c (H1 & H2). split; apply (same_net_valid _ _ _ N'); auto.
    - apply step_safe; simpl; auto.
  Qed.

  Theorem reachable_Inv s : reachable s -> Inv s.
  Proof.
    induction 1 as [|e s o s' H IH R]; [apply Inv_new|]. eapply safe_ok; [apply (exec_safe e s o IH)|exact R].
  Qed.
End OpSafe.
