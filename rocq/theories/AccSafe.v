(** * The acceleration phase: which cells it writes, and that it does not panic *)
From Coq Require Import List Bool ZArith NArith Arith Lia Permutation ListDec.
From Verif Require Import Arith Base BaseProofs SlotMap Util Geom Light Accel Net Path Vehicle LinkOps Sim SpecSim SlotMapProofs Safe NetInv SimInv.
Import ListNotations.

Section AccSafe.
  Context {A : Arith}.
  Variable E : panic -> Prop.

  (** A vehicle the scan found, on its way to [tgt]. *)
  Definition rv_ok (vs : vehset) (tgt : key) (r : relveh) : Prop :=
    sm_get vs (rv_key r) = Some (rv_veh r) /\ exists st, get_route (rv_veh r) (rv_idx r) = Some (tgt, st).

  Lemma get_vehicle_safe vs id : (exists v, sm_get vs id = Some v) -> safe E (get_vehicle vs id) (fun v => sm_get vs id = Some v).
  Proof. intros (v & H). unfold get_vehicle. rewrite H. simpl. auto. Qed.

  Section Proc.
    Context {S_ : Type}.
    Variable func : S_ -> relveh -> res (S_ * bool).
    Variable I : S_ -> Prop.
    Variables (links : linkset) (vs : vehset) (tgt : key).
    Hypothesis Hf : forall s r, I s -> rv_ok vs tgt r -> safe E (func s r) (fun sb => I (fst sb)).

    Lemma scan_safe len ridx pos min_pos ids s :
      (forall id, In id ids -> exists v, sm_get vs id = Some v) -> I s ->
      safe E (scan func vs len (ridx, tgt) pos min_pos ids s) (fun se => I (fst se)).
    Proof.
      revert s; induction ids as [|id ids IH]; intros s Hids Hs; cbn [scan]; simpl; auto.
      eapply safe_bind; [apply get_vehicle_safe, Hids; simpl; auto|]. intros v _ Hv. simpl in Hv.
      assert (forall s, I s -> safe E (scan func vs len (ridx, tgt) pos min_pos ids s) (fun se => I (fst se))) as IH'.
      { intros. apply IH; auto. intros; apply Hids; simpl; auto. }
      destruct (nltb (pos_front v) min_pos); simpl; auto.
      destruct (get_route v ridx) as [[l st]|] eqn:G; auto.
      destruct (key_eqb_spec l tgt); simpl; auto. subst l.
      assert (safe E (bind (func s (RV id v ridx pos)) (fun sb =>
                      if snd sb then scan func vs len (ridx, tgt) pos min_pos ids (fst sb) else Ok (fst sb, Stop)))
                (fun se => I (fst se))) as Hgo.
      { eapply safe_bind; [apply Hf; auto|].
        - split; simpl; eauto.
        - intros [s' []] _ Hs'; simpl in *; auto. }
      destruct st; auto; destruct (nltb len pos); simpl; auto.
    Qed.

    Hypothesis N : net_ok links.
    Hypothesis Hl : listed links vs.
    Lemma process_safe fuel lid l ridx pos skip s : sm_get links lid = Some l -> I s ->
      safe E (process_vehicles func fuel links vs l (ridx, tgt) pos skip s) I.
    Proof.
      revert lid l ridx pos skip s; induction fuel; intros lid l ridx pos skip s H Hs; cbn [process_vehicles]; simpl; auto.
      destruct (lk_active l); simpl; auto.
      eapply safe_bind; [apply scan_safe; auto|].
      - intros id Hid. eapply Hl; eauto. apply skipn_in in Hid. rewrite <- in_rev in Hid. auto.
      - intros [s' []] _ Hs'; simpl in *; auto. destruct (nleb _ _); simpl; auto.
        apply safe_foldM; auto. intros s2 id Hid Hs2.
        pose proof (lo_in _ _ _ (nk_link _ N _ _ H)) as F. rewrite Forall_forall in F.
        eapply safe_bind; [apply get_link_safe; auto|]. intros l' _ Hl'. simpl in Hl'. eapply IHfuel; eauto.
    Qed.
  End Proc.

  (** ** The log of writes *)
  Section Log.
    Variables (links : linkset) (vs : vehset).
    Hypothesis N : net_ok links.
    Hypothesis Hl : listed links vs.
    Hypothesis HE : forall p, p <> PNanCompare -> net_cause links p -> E p.

    Definition eff_ok (e : eff) : Prop :=
      match e with
      | EAcc k _ => exists v, sm_get vs k = Some v
      | EFlag k f => exists v, sm_get vs k = Some v /\ (f = 1 \/ f = 2) /\ v_entered v < length (v_route v)
      | ELast id i => exists l, sm_get links id = Some l /\ i < length (lk_conflicts l)
      end.
    Definition log_ok (log : list eff) : Prop := Forall eff_ok log.

    Lemma read_last_ok log id l : log_ok log -> sm_get links id = Some l ->
      read_last log id (lk_last l) < length (lk_conflicts l) \/ read_last log id (lk_last l) = 0.
    Proof.
      intros F H. induction F as [|e log He F IH]; simpl.
      - apply (nk_link _ N _ _ H).
      - destruct e as [| |id' i]; auto. destruct (key_eqb_spec id' id); auto. subst.
        destruct He as (l' & Hl' & Hi). left. congruence.
    Qed.
    Lemma rotated_in count start i : (start < count \/ start = 0) -> In i (rotated_range count start) -> i < count.
    Proof.
      intros Hs H. unfold rotated_range in H. rewrite map_map, in_map_iff in H. destruct H as (j & <- & Hj).
      rewrite in_seq in Hj. destruct (Nat.leb_spec count (j + start)); lia.
    Qed.

    Lemma gap_loop_safe pos0 time q route mv ids : (forall id, In id ids -> exists v, sm_get vs id = Some v) ->
      safe E (gap_loop vs pos0 time q route mv ids) (fun _ => True).
    Proof.
      induction ids as [|id ids IH]; intros Hids; cbn [gap_loop]; simpl; auto.
      eapply safe_bind; [apply get_vehicle_safe, Hids; simpl; auto|]. intros v _ Hv.
      assert (safe E (gap_loop vs pos0 time q route mv ids) (fun _ => True)) as IH' by (apply IH; intros; apply Hids; simpl; auto).
      destruct (get_route v (fst route)) as [[l st]|]; auto.
      destruct (negb _); auto. destruct st, q; simpl; auto. destruct (Nat.ltb _ _); simpl; auto.
    Qed.
    Lemma skip_past_safe pos1 ids : (forall id, In id ids -> exists v, sm_get vs id = Some v) ->
      safe E (skip_past vs pos1 ids) (fun ids' => incl ids' ids).
    Proof.
      induction ids as [|id ids IH]; intros Hids; cbn [skip_past]; simpl. { apply incl_refl. }
      eapply safe_bind; [apply get_vehicle_safe, Hids; simpl; auto|]. intros v _ Hv.
      destruct (nltb _ _); simpl; [|apply incl_refl].
      eapply safe_weaken; [apply IH; intros; apply Hids; simpl; auto|]. intros l _ Hi. apply incl_tl; auto.
    Qed.
    Lemma check_gap_safe fuel lid l pos time q route mv : sm_get links lid = Some l ->
      safe E (check_gap fuel links vs l pos time q route mv) (fun _ => True).
    Proof.
      revert lid l pos route mv; induction fuel; intros lid l pos route mv H; cbn [check_gap]; simpl; auto.
      assert (forall id, In id (rev (lk_vehicles l)) -> exists v, sm_get vs id = Some v) as Hv.
      { intros id Hid. eapply Hl; eauto. rewrite in_rev. auto. }
      eapply safe_bind; [apply skip_past_safe; auto|]. intros ids _ Hids.
      eapply safe_bind; [apply gap_loop_safe; auto|]. intros [b|] _ _; simpl; auto.
      destruct (nltb _ _); simpl; auto. apply safe_allM. intros id Hid.
      pose proof (lo_in _ _ _ (nk_link _ N _ _ H)) as F. rewrite Forall_forall in F.
      eapply safe_bind; [apply get_link_safe; auto|]. intros l' _ Hl'. simpl in Hl'. eapply IHfuel; eauto.
    Qed.
    Lemma enter_loop_safe fuel lid l r q pr idxs : sm_get links lid = Some l ->
      (forall i, In i idxs -> i < length (lk_conflicts l)) ->
      safe E (enter_loop fuel links vs l r q pr idxs) (fun o => match o with Some i => i < length (lk_conflicts l) | None => True end).
    Proof.
      intros H. induction idxs as [|i idxs IH]; intros Hi; cbn [enter_loop]; simpl; auto.
      assert (i < length (lk_conflicts l)) as Hi0 by (apply Hi; simpl; auto).
      destruct (nth_error (lk_conflicts l) i) as [c|] eqn:Hc; [|apply nth_error_None in Hc; lia]. simpl.
      pose proof (lo_conf _ _ _ (nk_link _ N _ _ H)) as F. rewrite Forall_forall in F.
      eapply safe_bind; [apply get_link_safe; auto; apply F; eapply nth_error_In; eauto|]. intros l2 _ Hl2. simpl in Hl2.
      eapply safe_bind; [eapply check_gap_safe; eauto|]. intros [] _ _; simpl; auto.
      apply IH. intros; apply Hi; simpl; auto.
    Qed.
    Lemma can_enter_safe fuel lid l r q pr log : sm_get links lid = Some l -> log_ok log ->
      safe E (can_enter fuel links vs l r q pr log) (fun bl => log_ok (snd bl)).
    Proof.
      intros H F. unfold can_enter. eapply safe_bind.
      - eapply enter_loop_safe; eauto. intros i. apply rotated_in.
        rewrite (lo_id _ _ _ (nk_link _ N _ _ H)). apply read_last_ok; auto.
      - intros [i|] _ Hi; simpl; auto. constructor; auto. exists l. rewrite (lo_id _ _ _ (nk_link _ N _ _ H)). auto.
    Qed.

    Variable V : forall k v, sm_get vs k = Some v -> chain links (v_route v).

    Lemma stopline_cb_safe fuel self tgt log r : log_ok log -> rv_ok vs tgt r ->
      safe E (stopline_cb fuel links vs self log r) (fun lb => log_ok (fst lb)).
    Proof.
      intros F (Hr & st0 & Hst0). unfold stopline_cb.
      assert (eff_ok (rv_stop_at_line r n0)) as Hstop by (exists (rv_veh r); auto).
      destruct (rv_route r 1) as [[id st]|] eqn:G.
      2: { destruct (v_can_exit _); simpl; auto; constructor; auto. }
      unfold rv_route, get_route in G. destruct (nth_error (v_route (rv_veh r)) (rv_idx r + 1)) as [k|] eqn:Hn; [|discriminate].
      simpl in G. injection G as Gk Gst. subst k.
      assert (rv_idx r + 1 < length (v_route (rv_veh r))) as Hlen by (apply nth_error_Some; congruence).
      assert (st <> Entered -> v_entered (rv_veh r) < length (v_route (rv_veh r))) as Hent.
      { rewrite <- Gst. destruct (Nat.ltb_spec (rv_idx r + 1) (v_entered (rv_veh r))); [congruence|]. lia. }
      assert (valid links id) as Hid. { eapply chain_valid; [eapply V; eauto|]. eapply nth_error_In; eauto. }
      clear Gst. destruct st; simpl; auto.
      all: eapply safe_bind; [apply get_link_safe; auto|]; intros l _ Hlk; simpl in Hlk.
      all: assert (v_entered (rv_veh r) < length (v_route (rv_veh r))) as Hlt by (apply Hent; discriminate).
      all: assert (eff_ok (rv_enter_link r)) as He by (exists (rv_veh r); auto).
      all: assert (eff_ok (rv_queue_link r)) as Hq by (exists (rv_veh r); auto).
      - destruct (lk_control l) as [|d m p|]; simpl.
        + destruct (negb _); simpl; auto; constructor; auto.
        + constructor; auto. destruct (_ && _); auto; constructor; auto.
        + constructor; auto.
      - destruct (lk_control l) as [|d m p|]; simpl.
        + destruct (negb _); simpl; auto; constructor; auto.
        + eapply safe_bind; [eapply can_enter_safe; eauto|]. intros [[] log'] _ F'; simpl in *; constructor; auto.
        + constructor; auto.
    Qed.
    Lemma apply_stoplines_safe fuel lid l log : sm_get links lid = Some l -> log_ok log ->
      safe E (apply_stoplines fuel links vs l log) log_ok.
    Proof.
      intros H F. unfold apply_stoplines. eapply process_safe; eauto.
      intros s r Hs Hr. eapply stopline_cb_safe; eauto.
    Qed.

    Lemma follow_on_link_safe limit ids log : (forall id, In id ids -> exists v, sm_get vs id = Some v) -> log_ok log ->
      safe E (follow_on_link vs limit ids log) log_ok.
    Proof.
      revert log; induction ids as [|id ids IH]; intros log Hids F; cbn [follow_on_link]; simpl; auto.
      destruct ids as [|id2 ids].
      - eapply safe_bind; [apply get_vehicle_safe, Hids; simpl; auto|]. intros v _ Hv. simpl in *. constructor; simpl; eauto.
      - eapply safe_bind; [apply get_vehicle_safe, Hids; simpl; auto|]. intros v _ Hv.
        eapply safe_bind; [apply get_vehicle_safe, Hids; simpl; auto|]. intros v2 _ Hv2. simpl in Hv, Hv2.
        apply IH; [intros; apply Hids; right; auto|]. repeat (constructor; simpl; eauto).
    Qed.
    Lemma entering_cb_safe lid self tgt log r : sm_get links lid = Some self -> log_ok log -> rv_ok vs tgt r ->
      safe E (entering_cb vs self log r) (fun lb => log_ok (fst lb)).
    Proof.
      intros H F (Hr & _). unfold entering_cb.
      assert (log_ok (rv_speed_limit r (lk_limit self) n0 ++ log)) as F'.
      { unfold rv_speed_limit. destruct (vx_speed_limit _ _ _); simpl; auto. constructor; simpl; eauto. }
      destruct (lk_vehicles self) as [|id ids] eqn:G; simpl; auto.
      eapply safe_bind; [apply get_vehicle_safe; eapply Hl; eauto; rewrite G; simpl; auto|]. intros v _ Hv. simpl.
      constructor; simpl; eauto.
    Qed.
    Lemma count_ahead_safe pos ids : (forall id, In id ids -> exists v, sm_get vs id = Some v) ->
      safe E (count_ahead vs pos ids) (fun _ => True).
    Proof.
      induction ids as [|id ids IH]; intros Hids; cbn [count_ahead]; simpl; auto.
      eapply safe_bind; [apply get_vehicle_safe, Hids; simpl; auto|]. intros v _ Hv.
      destruct (nltb _ _); simpl; auto. eapply safe_bind; [apply IH; intros; apply Hids; simpl; auto|]. simpl; auto.
    Qed.
    Lemma pass_loop_safe fuel lc o : safe E (pass_loop fuel lc o) (fun _ => True).
    Proof. revert o; induction fuel; intros o; cbn [pass_loop]; simpl; auto. destruct (nltb _ _); simpl; auto. Qed.
    Lemma obstacle_cb_safe fuel self o tgt log r : log_ok log -> rv_ok vs tgt r ->
      safe E (obstacle_cb fuel self o log r) (fun lb => log_ok (fst lb)).
    Proof.
      intros F (Hr & _). unfold obstacle_cb. eapply safe_bind with (Q := fun _ => True).
      - unfold can_pass. destruct (is_clear _ _); simpl; auto.
        eapply safe_bind; [apply pass_loop_safe|]. intros; simpl; auto.
      - intros [|p v] _ _; simpl; auto. constructor; simpl; eauto.
    Qed.

    Lemma proj_sample_safe p pos : (pj_samples p = [] -> E PEmptySamples) -> safe E (proj_sample p pos) (fun _ => True).
    Proof.
      intros H. unfold proj_sample. destruct (length (pj_samples p)) as [|n] eqn:L; simpl.
      - apply H. destruct (pj_samples p); auto. discriminate.
      - destruct (nth_error _ _) eqn:G; simpl; auto. apply nth_error_None in G. lia.
    Qed.

    Lemma follow_obstacles_safe fuel lid self p ids skip log : sm_get links lid = Some self ->
      (pj_samples p = [] -> E PEmptySamples) ->
      (forall id, In id ids -> exists v, sm_get vs id = Some v) -> log_ok log ->
      safe E (follow_obstacles fuel links vs self p ids skip log) log_ok.
    Proof.
      intros H Hp. revert skip log; induction ids as [|id ids IH]; intros skip log Hids F; cbn [follow_obstacles]; simpl; auto.
      eapply safe_bind; [apply get_vehicle_safe, Hids; simpl; auto|]. intros v _ Hv.
      eapply safe_bind with (Q := fun _ => True).
      { unfold v_project, proj_project. eapply safe_bind; [apply proj_sample_safe; auto|]. intros; simpl; auto. }
      intros o _ _. eapply safe_bind; [apply count_ahead_safe|].
      { intros id' Hid'. eapply Hl; eauto. apply skipn_in in Hid'. rewrite <- in_rev in Hid'. auto. }
      intros cnt _ _. eapply safe_bind; [eapply process_safe; eauto|].
      { intros s r Hs Hr. eapply obstacle_cb_safe; eauto. }
      intros log' _ F'. apply IH; auto. intros; apply Hids; simpl; auto.
    Qed.

    Lemma list_prod_row {X} (f : X * X -> bool) (a : list X) (b : list X) :
      filter f (list_prod a b) = flat_map (fun x => filter f (map (fun y => (x, y)) b)) a.
    Proof.
      induction a as [|x a IH]; simpl; auto. rewrite filter_app, IH. auto.
    Qed.
    Lemma row_length k ids : NoDup ids -> In k ids ->
      length (filter (fun sd => negb (key_eqb (fst sd) (snd sd))) (map (fun y => (k, y)) ids)) = length ids - 1.
    Proof.
      intros Nd Hin. induction Nd as [|x ids Hx Nd IH]; simpl in *; [tauto|].
      destruct (key_eqb_spec k x) as [->|Hne]; simpl.
      - rewrite Nat.sub_0_r. clear -Hx. induction ids as [|y ids IH]; simpl; auto.
        simpl in Hx. destruct (key_eqb_spec x y); simpl; [subst; tauto|]. rewrite IH; tauto.
      - destruct Hin as [|Hin]; [congruence|]. specialize (IH Hin). rewrite IH.
        destruct ids; simpl in *; [tauto|lia].
    Qed.
    Lemma flat_map_length_const {X Y} (f : X -> list Y) n l : (forall x, In x l -> length (f x) = n) -> length (flat_map f l) = length l * n.
    Proof.
      induction l as [|x l IH]; simpl; auto. intros H. rewrite app_length, IH, H; auto.
    Qed.
    Lemma pairs_length ids : NoDup ids -> length (pairs ids) = length ids * (length ids - 1).
    Proof.
      intros Nd. unfold pairs. rewrite list_prod_row. apply flat_map_length_const. intros. apply row_length; auto.
    Qed.
    Lemma pairs_in ids sd : In sd (pairs ids) -> In (fst sd) ids /\ In (snd sd) ids /\ fst sd <> snd sd.
    Proof.
      unfold pairs. rewrite filter_In. destruct sd as [s d]. rewrite in_prod_iff. simpl. intros ((H1 & H2) & H3).
      repeat split; auto. intros ->. rewrite key_eqb_refl in H3. discriminate.
    Qed.

    Lemma group_proj_valid g p : group_ok (valid links) g -> In p (g_projs g) -> valid links (pj_dst p).
    Proof.
      intros G Hp. apply In_nth_error in Hp. destruct Hp as (i & Hi).
      pose proof (go_projs _ _ G) as F2. assert (i < length (pairs (g_links g))) as Hlt.
      { rewrite (Forall2_len _ _ _ F2). apply nth_error_Some. congruence. }
      destruct (nth_error (pairs (g_links g)) i) as [sd|] eqn:Hsd; [|apply nth_error_None in Hsd; lia].
      pose proof (Forall2_nth _ _ _ _ _ _ F2 Hsd Hi) as (_ & ->).
      pose proof (go_valid _ _ G) as F. rewrite Forall_forall in F. apply F.
      apply nth_error_In, pairs_in in Hsd. tauto.
    Qed.

    Lemma projections_from_safe lid l g : sm_get links lid = Some l -> lk_group l = Some g ->
      safe E (projections_from_link g (lk_id l)) (fun ps => incl ps (g_projs g)).
    Proof.
      intros H Hg. pose proof (nk_link _ N _ _ H) as L. destruct (lo_group _ _ _ L g Hg) as (G & Hin).
      rewrite (lo_id _ _ _ L). unfold projections_from_link.
      destruct (find_link_in g lid Hin) as (i & Hf & Hn). rewrite Hf. simpl.
      destruct (Nat.leb_spec ((length (g_links g) - 1) * (i + 1)) (length (g_projs g))); simpl.
      - intros x Hx. apply firstn_in, skipn_in in Hx. auto.
      - apply HE; [discriminate|]. simpl. exists lid, l, g. repeat split; auto. intros Nd.
        rewrite <- (Forall2_len _ _ _ (go_projs _ _ G)), (pairs_length _ Nd) in H0.
        assert (i < length (g_links g)) by (apply nth_error_Some; congruence). nia.
    Qed.

    Lemma apply_accelerations_safe fuel lid l log : sm_get links lid = Some l -> log_ok log ->
      safe E (apply_accelerations fuel links vs l log) log_ok.
    Proof.
      intros H F. unfold apply_accelerations.
      assert (forall id, In id (lk_vehicles l) -> exists v, sm_get vs id = Some v) as Hv by (intros; eapply Hl; eauto).
      eapply safe_bind; [apply follow_on_link_safe; auto|]. intros log1 _ F1.
      eapply safe_bind; [eapply process_safe; eauto|].
      { intros s r Hs Hr. eapply entering_cb_safe; eauto. }
      intros log2 _ F2. destruct (lk_group l) as [g|] eqn:Hg; simpl; auto.
      eapply safe_bind; [eapply projections_from_safe; eauto|]. intros ps _ Hps.
      apply safe_foldM; auto. intros log3 p Hp F3.
      eapply safe_bind; [apply get_link_safe; eapply group_proj_valid|].
      { apply (lo_group _ _ _ (nk_link _ N _ _ H) g Hg). }
      { apply Hps; auto. }
      intros l2 _ Hl2. simpl in Hl2. eapply follow_obstacles_safe; eauto.
      - intros Hem. apply HE; [discriminate|]. simpl. exists lid, l, g, p. auto.
      - intros id Hid. apply Hv. rewrite in_rev. auto.
    Qed.

    Lemma find_vehicles_safe fuel c buf : valid links (cpl_link c) -> Forall (fun r => exists v, sm_get vs (rv_key r) = Some v) buf ->
      safe E (find_vehicles fuel links vs c buf) (Forall (fun r => exists v, sm_get vs (rv_key r) = Some v)).
    Proof.
      intros Hv F. unfold find_vehicles. eapply safe_bind; [apply get_link_safe; auto|]. intros l _ Hlk. simpl in Hlk.
      eapply (process_safe _ (Forall (fun r => exists v, sm_get vs (rv_key r) = Some v))); eauto.
      intros s r Hs (Hr & _). simpl. destruct (nltb _ _); auto. apply Forall_app. split; eauto.
    Qed.
    Lemma sort_desc_safe l (P : relveh -> Prop) : Forall P l -> (forall r, In r l -> nnan (rv_front r) = true -> E PNanCompare) -> safe E (sort_desc l) (Forall P).
    Proof.
      intros F Hn. unfold sort_desc. destruct (existsb _ l && _) eqn:Nn; simpl.
      { apply andb_true_iff in Nn. destruct Nn as (Nn & _). apply existsb_exists in Nn. destruct Nn as (r & Hr & Nn). exact (Hn r Hr Nn). }
      clear Nn Hn. assert (forall acc, Forall P acc -> Forall P (fold_left (fun acc r => insert_desc r acc) l acc)) as K.
      { induction F as [|x l Hx F IH]; simpl; auto. intros acc Hacc. apply IH.
        induction acc as [|y acc IHa]; simpl; auto. inversion Hacc; subst. destruct (nltb _ _); constructor; auto. }
      apply K. constructor.
    Qed.
    Lemma conflict_pairs_ok same l log : Forall (fun r => exists v, sm_get vs (rv_key r) = Some v) l -> log_ok log ->
      log_ok (conflict_pairs same l log).
    Proof.
      intros F. revert log. induction F as [|x l Hx F IH]; intros log Fl; simpl; auto.
      destruct l as [|y l]; auto. apply IH. inversion F; subst.
      destruct (negb _); auto. destruct (_ && _); constructor; simpl; auto.
    Qed.
    (** A vehicle found near the conflict whose place cannot be compared. *)
    Definition odd_front (fuel : nat) (c : cpoint) : Prop := exists b1 b2 r,
      find_vehicles fuel links vs (cp_a c) [] = Ok b1 /\ find_vehicles fuel links vs (cp_b c) b1 = Ok b2 /\ In r b2 /\ nnan (rv_front r) = true.
    Lemma cp_apply_safe fuel c log : valid links (cpl_link (cp_a c)) -> valid links (cpl_link (cp_b c)) -> log_ok log -> (odd_front fuel c -> E PNanCompare) ->
      safe E (cp_apply fuel links vs c log) log_ok.
    Proof.
      intros Ha Hb F Ho. unfold cp_apply. eapply safe_bind; [apply find_vehicles_safe; auto|]. intros b1 Hb1 F1.
      destruct b1 as [|r b1]; simpl; auto.
      eapply safe_bind; [apply find_vehicles_safe; auto|]. intros b2 Hb2 F2.
      destruct (Nat.eqb _ _); simpl; auto.
      eapply safe_bind; [apply sort_desc_safe; [eauto|]|]. { intros q Hq Nq. apply Ho. exists (r :: b1), b2, q. auto. } intros l _ Fl. simpl. apply conflict_pairs_ok; auto.
    Qed.

    Lemma sim_stoplines_safe fuel log : log_ok log -> safe E (sim_stoplines fuel links vs log) log_ok.
    Proof.
      intros F. unfold sim_stoplines. apply safe_foldM; auto. intros log' l Hin F'. apply in_values in Hin.
      destruct Hin as (k & Hk). eapply apply_stoplines_safe; eauto.
    Qed.
    Lemma sim_link_accelerations_safe fuel cps log :
      Forall (fun c => valid links (cpl_link (cp_a c)) /\ valid links (cpl_link (cp_b c))) cps -> log_ok log -> (forall c, In c cps -> odd_front fuel c -> E PNanCompare) ->
      safe E (sim_link_accelerations fuel links vs cps log) log_ok.
    Proof.
      intros Fc F Ho. unfold sim_link_accelerations. eapply safe_bind with (Q := log_ok).
      - apply safe_foldM; auto. intros log' l Hin F'. apply in_values in Hin. destruct Hin as (k & Hk).
        eapply apply_accelerations_safe; eauto.
      - intros log' _ F'. apply safe_foldM; auto. intros log2 c Hin F2. rewrite Forall_forall in Fc.
        destruct (Fc _ Hin). apply cp_apply_safe; auto. exact (Ho _ Hin).
    Qed.
  End Log.

  (** ** Applying the log *)
  Definition cells_only (v v' : vehicle) : Prop := exists a f, v' = set_flag (set_acc v (am_set_acc (v_acc v) a)) f.
  Lemma cells_refl v : cells_only v v.
  Proof. exists (am_acc (v_acc v)), (v_flag v). destruct v as [? ? ? ? []]; reflexivity. Qed.

  Lemma apply_eff_shape lv e : same_shape (fst lv) (fst (apply_eff lv e)) /\ same_shape (snd lv) (snd (apply_eff lv e)).
  Proof.
    destruct e; simpl; split; try apply shape_refl; apply shape_upd.
  Qed.

  Lemma apply_log_cons lv e log : apply_log lv (e :: log) = apply_eff (apply_log lv log) e.
  Proof. unfold apply_log. simpl. rewrite fold_left_app. auto. Qed.

  (** The vehicles after the writes: only acceleration and flag change, the flag to a written value. *)
  Lemma apply_log_veh links vs log k :
    match sm_get (snd (apply_log (links, vs) log)) k with
    | Some v' => exists v, sm_get vs k = Some v /\ cells_only v v' /\ (v_flag v' = v_flag v \/ In (EFlag k (v_flag v')) log)
    | None => sm_get vs k = None
    end.
  Proof.
    induction log as [|e log IH].
    - simpl. destruct (sm_get vs k) eqn:G; auto. eexists. split; eauto. split; [apply cells_refl|auto].
    - rewrite apply_log_cons. set (lv := apply_log (links, vs) log) in *.
      destruct e as [id x|id f|id i]; cbn [apply_eff snd].
      + rewrite sm_get_upd. destruct (key_eqb_spec id k).
        * subst. destruct (sm_get (snd lv) k) as [v'|]; simpl in *; auto.
          destruct IH as (v & Hv & (a & f & ->) & Hf). exists v. split; auto. split.
          -- exists (nmin a x), f. reflexivity.
          -- simpl in *. intuition.
        * destruct (sm_get (snd lv) k) as [v'|]; auto. destruct IH as (v & Hv & Hc & Hf). exists v. simpl. intuition.
      + rewrite sm_get_upd. destruct (key_eqb_spec id k).
        * subst. destruct (sm_get (snd lv) k) as [v'|]; simpl in *; auto.
          destruct IH as (v & Hv & (a & f' & ->) & Hf). exists v. split; auto. split.
          -- exists a, f. reflexivity.
          -- simpl. auto.
        * destruct (sm_get (snd lv) k) as [v'|]; auto. destruct IH as (v & Hv & Hc & Hf). exists v. simpl. intuition.
      + destruct (sm_get (snd lv) k) as [v'|]; auto. destruct IH as (v & Hv & Hc & Hf). exists v. simpl. intuition.
  Qed.
  Lemma apply_log_shape lv log : same_shape (snd lv) (snd (apply_log lv log)).
  Proof.
    induction log; [apply shape_refl|]. rewrite apply_log_cons. eapply shape_trans; eauto. apply apply_eff_shape.
  Qed.

  Lemma apply_log_links links vs log : log_ok links vs log ->
    same_net links (fst (apply_log (links, vs) log)) /\
    forall k, option_map (fun l => (lk_vehicles l, lk_control l, lk_active l)) (sm_get (fst (apply_log (links, vs) log)) k)
            = option_map (fun l => (lk_vehicles l, lk_control l, lk_active l)) (sm_get links k).
  Proof.
    induction 1 as [|e log He F IH]. { split; [apply same_net_refl|reflexivity]. }
    rewrite apply_log_cons. set (lv := apply_log (links, vs) log) in *. destruct IH as (S & IH).
    destruct e as [id x|id f|id i]; cbn [apply_eff fst]; auto.
    destruct He as (l & Hl & Hi).
    destruct (same_net_get' _ _ _ _ S Hl) as (l1 & Hl1 & E1).
    unfold sm_upd. rewrite Hl1. split.
    - eapply same_net_trans; eauto. eapply same_net_set; eauto. intros _. left. simpl.
      unfold lk_static in E1. injection E1 as F1 F2 F3 F4 F5 F6 F7 F8 F9. rewrite F7. auto.
    - intros k. rewrite sm_get_set. destruct (key_eqb_spec id k); simpl; auto. subst.
      replace (sm_mem (fst lv) k) with true by (symmetry; apply sm_mem_get; eauto).
      rewrite <- IH, Hl1. reflexivity.
  Qed.
End AccSafe.
