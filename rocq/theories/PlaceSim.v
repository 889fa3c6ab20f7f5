(** * Calls at another place on the map *)
From Coq Require Import List Bool ZArith NArith Arith Lia Reals Lra FunctionalExtensionality.
From Flocq Require Raux.
From Verif Require Import Arith RealArith Base SlotMap SlotMapProofs Util Geom Light Accel Net Path Vehicle LinkOps Sim SpecPlace RFacts PlaceGeom PlaceNet.
Import ListNotations.

Lemma bind_inv {X Y} (r : res X) (f : X -> res Y) y : bind r f = Ok y -> exists x, r = Ok x /\ f x = Ok y.
Proof. destruct r; cbn [bind]; intros E; try discriminate E. eauto. Qed.

Section Place.
  Variable m : motion.
  Hypothesis Hr : rigid m.
  Notation ML := (moved_link m).
  Notation MV := (moved_vehicle m).
  Notation LL := (sm_map ML).
  Notation VV := (sm_map MV).
  Ltac gl := rewrite get_link_moved, bind_outcome; apply bind_ext; intros ? ?.
  Ltac gv := rewrite get_vehicle_moved, bind_outcome; apply bind_ext; intros ? ?.

  (** ** One link *)
  Lemma upd_moved L id f f' : (forall l, f' (ML l) = outcome ML (f l)) -> upd_link (LL L) id f' = outcome LL (upd_link L id f).
  Proof.
    intros H. unfold upd_link. rewrite get_link_moved, bind_outcome, outcome_bind. apply bind_ext. intros l _. rewrite H, bind_outcome, outcome_bind. apply bind_ext. intros l' _. cbn [outcome]. rewrite map_set. reflexivity.
  Qed.
  Lemma wf_set L k l : wf L -> wfl l -> wf (sm_set L k l).
  Proof.
    intros W Wl k' l' G. rewrite sm_get_set in G. destruct (_ && _); [injection G as <-; exact Wl|exact (W _ _ G)].
  Qed.
  Lemma wf_get L k l : wf L -> get_link L k = Ok l -> wfl l.
  Proof. intros W G. unfold get_link in G. destruct (sm_get L k) as [x|] eqn:E; [|discriminate G]. injection G as <-. exact (W _ _ E). Qed.
  Definition curve_kept (f : @link RA -> res (@link RA)) : Prop := forall l l', f l = Ok l' -> lk_curve l' = lk_curve l.
  Lemma upd_wf L id f L' : curve_kept f -> wf L -> upd_link L id f = Ok L' -> wf L'.
  Proof.
    intros H W E. unfold upd_link in E. destruct (get_link L id) as [l|p|] eqn:G; cbn [bind] in E; try discriminate E. destruct (f l) as [l'|p|] eqn:F; cbn [bind] in E; try discriminate E. injection E as <-.
    apply wf_set; [exact W|]. unfold wfl. rewrite (H l l' F). exact (wf_get _ _ _ W G).
  Qed.
  Lemma wf_map L f : (forall l, lk_curve (f l) = lk_curve l) -> wf L -> wf (sm_map f L).
  Proof. intros H W k l G. rewrite sm_get_map in G. destruct (sm_get L k) as [x|] eqn:E; cbn [option_map] in G; [|discriminate G]. injection G as <-. unfold wfl. rewrite H. exact (W _ _ E). Qed.
  Lemma idx_moved V x ids : insert_idx (VV V) x ids = insert_idx V x ids.
  Proof. induction ids as [|id ids IH]; [reflexivity|]. cbn [insert_idx]. gv. change (v_pos (MV x0)) with (v_pos x0). destruct (_ >? _)%num; [reflexivity|]. rewrite IH. reflexivity. Qed.
  Lemma insert_vehicle_moved V id l : insert_vehicle (VV V) id (ML l) = outcome ML (insert_vehicle V id l).
  Proof.
    unfold insert_vehicle. rewrite get_vehicle_moved, bind_outcome, outcome_bind. apply bind_ext. intros v _. change (v_pos (MV v)) with (v_pos v). change (lk_vehicles (ML l)) with (lk_vehicles l). rewrite idx_moved, outcome_bind. apply bind_ext. intros i _. reflexivity.
  Qed.
  Lemma insert_kept (V : @vehset RA) id : curve_kept (insert_vehicle V id).
  Proof. intros l l' E. unfold insert_vehicle in E. destruct (get_vehicle V id); cbn [bind] in E; try discriminate E. destruct (insert_idx _ _ _); cbn [bind] in E; try discriminate E. injection E as <-. reflexivity. Qed.
  Lemma remove_moved id l : remove_vehicle id (ML l) = ML (remove_vehicle id l).
  Proof. unfold remove_vehicle. change (lk_vehicles (ML l)) with (lk_vehicles l). destruct (rposition _ _); reflexivity. Qed.
  Lemma remove_curve id (l : @link RA) : lk_curve (remove_vehicle id l) = lk_curve l.
  Proof. unfold remove_vehicle. destruct (rposition _ _); reflexivity. Qed.
  Lemma remove_kept id : curve_kept (fun l => Ok (remove_vehicle id l)).
  Proof. intros l l' E. injection E as <-. apply remove_curve. Qed.
  Lemma remove_upd_moved L id lid : upd_link (LL L) lid (fun l => Ok (remove_vehicle id l)) = outcome LL (upd_link L lid (fun l => Ok (remove_vehicle id l))).
  Proof. apply upd_moved. intros l. cbn [outcome]. rewrite remove_moved. reflexivity. Qed.

  (** ** One vehicle *)
  Lemma advanced_moved len lc : lc_advance len (option_map (moved_change m) lc) = option_map (moved_change m) (lc_advance len lc).
  Proof. destruct lc; reflexivity. Qed.
  Lemma advance_moved e1 e2 L v : same_choices m e1 e2 -> advance e2 (LL L) (MV v) = outcome (fun bv => (fst bv, MV (snd bv))) (advance e1 L v).
  Proof.
    intros Se. unfold advance. change (v_route (MV v)) with (v_route v). destruct (v_route v) as [|id rest] eqn:Ert; [reflexivity|]. rewrite get_link_moved, bind_outcome, outcome_bind. apply bind_ext. intros l _.
    change (lk_length (ML l)) with (lk_length l). change (v_pos (MV v)) with (v_pos v). destruct (_ <? _)%num; [|reflexivity]. change (v_pathfind (MV v)) with (v_pathfind v). change (v_entered (MV v)) with (v_entered v).
    assert (match rest with [] => Ok (v_pathfind v) | id' :: _ => set_origin e2 (LL L) (v_pathfind v) id' end = match rest with [] => Ok (v_pathfind v) | id' :: _ => set_origin e1 L (v_pathfind v) id' end) as -> by (destruct rest; [reflexivity|apply origin_moved; exact Se]).
    rewrite outcome_bind. apply bind_ext. intros pf _. destruct (v_entered v); [reflexivity|]. cbn [outcome fst snd]. do 2 f_equal. unfold moved_vehicle. cbn [v_lane_change]. rewrite advanced_moved. reflexivity.
  Qed.
  Lemma location_moved e1 e2 L v id x lc : same_choices m e1 e2 -> set_location e2 (LL L) (MV v) id x (option_map (moved_change m) lc) = outcome MV (set_location e1 L v id x lc).
  Proof. intros Se. unfold set_location. change (v_pathfind (MV v)) with (v_pathfind v). rewrite (origin_moved m e1 e2 L _ _ Se), outcome_bind. apply bind_ext. intros pf _. reflexivity. Qed.
  Lemma set_destination_moved e1 e2 L v id : same_choices m e1 e2 -> set_destination e2 (LL L) (MV v) id = outcome MV (set_destination e1 L v id).
  Proof. intros Se. unfold set_destination. change (v_pathfind (MV v)) with (v_pathfind v). rewrite (destination_moved m e1 e2 L _ _ Se), outcome_bind. apply bind_ext. intros pf _. reflexivity. Qed.
  Lemma approx_moved l dst x : link_project_approx (ML l) dst x = link_project_approx l dst x.
  Proof.
    unfold link_project_approx. cbn [moved_link lk_group lk_id]. destruct (lk_group l) as [g|]; [|reflexivity]. cbn [option_map]. unfold g_projection. change (find_link (moved_group m g)) with (find_link g). destruct (find_link g (lk_id l)) as [a|]; [|reflexivity]. destruct (find_link g dst) as [b|]; [|reflexivity]. cbn [of_option bind moved_group g_links g_projs].
    rewrite nth_error_map. destruct (nth_error _ _) as [p|]; [|reflexivity]. cbn [option_map of_option bind]. unfold proj_approx. rewrite table_moved, bind_outcome. reflexivity.
  Qed.
  Lemma evaluate_moved L v p : evaluate_path (LL L) (MV v) p = evaluate_path L v p.
  Proof.
    unfold evaluate_path. change (v_route (MV v)) with (v_route v). apply bind_ext. intros cur _. apply bind_ext. intros new _. destruct (key_eqb cur new); [reflexivity|]. gl. rewrite approx_moved. reflexivity.
  Qed.
  Lemma choose_moved L v : choose_path (LL L) (MV v) = choose_path L v.
  Proof.
    unfold choose_path. change (v_lane_change (MV v)) with (option_map (moved_change m) (v_lane_change v)). destruct (v_lane_change v); [reflexivity|]. cbn [option_map]. change (v_pathfind (MV v)) with (v_pathfind v). change (v_route (MV v)) with (v_route v).
    apply bind_left. apply mapM_ext. intros p _. rewrite evaluate_moved. reflexivity.
  Qed.
  Lemma activate_moved v L : activate_links (MV v) (LL L) = outcome LL (activate_links v L).
  Proof.
    unfold activate_links. change (v_entered (MV v)) with (v_entered v). change (v_route (MV v)) with (v_route v). apply (foldM_moved (fun _ => True)); auto. intros ls id _ _. rewrite get_link_moved, bind_outcome, outcome_bind. apply bind_ext. intros l _. cbn [outcome].
    change (set_lk_active (ML l) true) with (ML (set_lk_active l true)). rewrite map_set. reflexivity.
  Qed.
  Lemma activate_wf (v : @vehicle RA) L L' : wf L -> activate_links v L = Ok L' -> wf L'.
  Proof.
    unfold activate_links. apply (foldM_keeps wf). intros s x s' W _ E. destruct (get_link s x) as [l|p|] eqn:G; cbn [bind] in E; try discriminate E. injection E as <-. apply wf_set; [exact W|]. exact (wf_get _ _ _ W G).
  Qed.

  (** Where the vehicle is drawn *)
  Definition placed (v : @vehicle RA) (p : @pt RA) (la : @interval RA) (rc : @pt RA * @pt RA) : @vehicle RA :=
    Vehicle (v_id v) (v_half_wid v) (v_half_len v) (v_wheel_base v) (v_acc v) (v_pathfind v) (v_pos v) (v_vel v)
      (v_stop_cnt v) (v_route v) (v_entered v) (v_queued v) (v_flag v) (v_can_exit v) (v_lane_change v) p (v_world_dir v) la rc.
  Lemma coords_placed L v p la rc : (px (v_world_dir v) =? n0)%num && (py (v_world_dir v) =? n0)%num = true -> update_coords L (placed v p la rc) = update_coords L v.
  Proof.
    intros F. unfold update_coords, placed. cbn [v_id v_half_wid v_half_len v_wheel_base v_acc v_pathfind v_pos v_vel v_stop_cnt v_route v_entered v_queued v_flag v_can_exit v_lane_change v_world_pos v_world_dir]. apply bind_ext. intros id _. apply bind_ext. intros l _.
    destruct (v_lane_change v); rewrite F; reflexivity.
  Qed.
  (** What [update_coords] writes, given the sample of the road, the place of the front axle and its offset to the left *)
  Definition drawn (v : @vehicle RA) (sa : @lsample RA) (p : @pt RA) (off : R) : @vehicle RA :=
    let fresh := (px (v_world_dir v) =? n0)%num && (py (v_world_dir v) =? n0)%num in
    let dir := calc_direction (if fresh then vsub p (sm_tan sa) else v_world_pos v) (if fresh then sm_tan sa else v_world_dir v) p (v_wheel_base v) in
    let perp := rot90 (sm_tan sa) in
    let expand := ((- dot dir perp) * v_half_len v)%num in
    let lats := @Itv RA (nmin (expand + off) n0 - v_half_wid v)%num (nmax (expand + off) n0 + v_half_wid v)%num in
    let rear := long_offset sa (- v_half_len v)%num in
    Vehicle (v_id v) (v_half_wid v) (v_half_len v) (v_wheel_base v) (v_acc v) (v_pathfind v) (v_pos v) (v_vel v) (v_stop_cnt v) (v_route v) (v_entered v) (v_queued v) (v_flag v)
      (v_can_exit v) (v_lane_change v) p dir lats (vadd rear (vscale (i_min lats) perp), vadd rear (vscale (i_max lats) perp)).
  Lemma coords_drawn (L : @linkset RA) (v : @vehicle RA) : update_coords L v = bind (of_option PEmptyRoute (hd_error (v_route v))) (fun id => bind (get_link L id) (fun l => let sa := sample_centre (lk_curve l) (v_pos v) in
    Ok (match v_lane_change v with Some lc => drawn v sa (lat_offset sa (cubic_y (lch_offset lc) (v_pos v))) (cubic_y (lch_offset lc) (v_pos v)) | None => drawn v sa (sm_pos sa) (@n0 RA) end))).
  Proof. unfold update_coords, drawn. apply bind_ext. intros id _. apply bind_ext. intros l _. cbv zeta. destruct (v_lane_change v); reflexivity. Qed.
  Lemma scale_side (x : R) (d : @pt RA) : @vscale RA x (rot90 (turned m d)) = turned m (@vscale RA (sided m x) (rot90 d)).
  Proof. rewrite (t_rot m), <- (t_scale m). unfold vscale, vmul, sided. cbn [px py]. unR. f_equal; match goal with |- ?x = ?y => change (@eq R x y) end; ring. Qed.
  Lemma drawn_moved v sa p (off : R) : drawn (MV v) (ms m sa) (moved m p) (sided m off) = MV (drawn v sa p off).
  Proof.
    unfold drawn at 1. cbv zeta. change (v_world_dir (MV v)) with (turned m (v_world_dir v)). rewrite (t_zero m Hr). change (v_world_pos (MV v)) with (moved m (v_world_pos v)). change (v_half_wid (MV v)) with (v_half_wid v). change (v_half_len (MV v)) with (v_half_len v). change (v_wheel_base (MV v)) with (v_wheel_base v).
    change (sm_tan (ms m sa)) with (turned m (sm_tan sa)). rewrite (long_moved m sa). unfold drawn, moved_vehicle. cbv zeta. cbn [v_id v_half_wid v_half_len v_wheel_base v_acc v_pathfind v_pos v_vel v_stop_cnt v_route v_entered v_queued v_flag v_can_exit v_lane_change v_world_pos v_world_dir v_rear_lats v_rear_coords fst snd].
    set (fr := (px (v_world_dir v) =? n0)%num && (py (v_world_dir v) =? n0)%num).
    assert (calc_direction (if fr then vsub (moved m p) (turned m (sm_tan sa)) else moved m (v_world_pos v)) (if fr then turned m (sm_tan sa) else turned m (v_world_dir v)) (moved m p) (v_wheel_base v) = turned m (calc_direction (if fr then vsub p (sm_tan sa) else v_world_pos v) (if fr then sm_tan sa else v_world_dir v) p (v_wheel_base v))) as ->.
    { destruct fr; [rewrite (m_back m)|]; apply (direction_moved m Hr). }
    set (dir := calc_direction (if fr then vsub p (sm_tan sa) else v_world_pos v) (if fr then sm_tan sa else v_world_dir v) p (v_wheel_base v)).
    rewrite (d_side m Hr). cbn [i_min i_max]. rewrite !scale_side, !(m_add m).
    set (ex := ((- dot dir (rot90 (sm_tan sa))) * v_half_len v)%num).
    assert (@nadd RA (@nmul RA (@nneg RA (sided m (dot dir (rot90 (sm_tan sa))))) (v_half_len v)) (sided m off) = sided m (@nadd RA ex off)) as E. { unfold ex, sided. unR. match goal with |- ?x = ?y => change (@eq R x y) end. ring. }
    rewrite E. clear E. change (ex + off)%num with (@nadd RA ex off). generalize (@nadd RA ex off : R). intros z.
    assert (forall y : R, (mo_flip m = true -> @nmin RA (sided m y) n0 = (- @nmax RA y n0)%R /\ @nmax RA (sided m y) n0 = (- @nmin RA y n0)%R)) as F.
    { intros y Ef. unfold sided, side. rewrite Ef, !min_R, !max_R. unfold n0. unR. replace (-1 * y)%R with (- y)%R by ring. rewrite <- Ropp_0 at 1 3. rewrite <- Ropp_Rmax, <- Ropp_Rmin. split; reflexivity. }
    unfold sided_range, sided_pair. destruct (side_cases m) as [(Ef & Es)|(Ef & Es)]; rewrite Ef.
    - assert (forall y : R, sided m y = y) as I1 by (intros y; unfold sided; rewrite Es; apply Rmult_1_l). rewrite !I1. reflexivity.
    - destruct (F z Ef) as (F1 & F2).
      assert (@nsub RA (@nmin RA (sided m z) n0) (v_half_wid v) = sided m (@nadd RA (@nmax RA z n0) (v_half_wid v))) as G1 by (rewrite F1; unfold sided; rewrite Es; unR; match goal with |- ?x = ?y => change (@eq R x y) end; ring).
      assert (@nadd RA (@nmax RA (sided m z) n0) (v_half_wid v) = sided m (@nsub RA (@nmin RA z n0) (v_half_wid v))) as G2 by (rewrite F2; unfold sided; rewrite Es; unR; match goal with |- ?x = ?y => change (@eq R x y) end; ring).
      rewrite G1, G2. assert (forall y : R, sided m (sided m y) = y) as I2 by (intros y; unfold sided; rewrite Es; ring). rewrite !I2. reflexivity.
  Qed.
  Lemma coords_moved L v : wf L -> update_coords (LL L) (MV v) = outcome MV (update_coords L v).
  Proof.
    intros W. rewrite !coords_drawn. change (v_route (MV v)) with (v_route v). rewrite outcome_bind. apply bind_ext. intros id _. rewrite get_link_moved, bind_outcome, outcome_bind. apply bind_ext. intros l G. pose proof (wf_get _ _ _ W G) as Wl. cbv zeta.
    change (v_pos (MV v)) with (v_pos v). change (lk_curve (ML l)) with (mc m (lk_curve l)). rewrite (centre_moved m Hr _ _ Wl). change (v_lane_change (MV v)) with (option_map (moved_change m) (v_lane_change v)). cbn [outcome]. f_equal. destruct (v_lane_change v) as [lc|]; cbn [option_map].
    - cbn [moved_change lch_offset]. rewrite cubic_moved, (lat_moved m). apply drawn_moved.
    - change (sm_pos (ms m (sample_centre (lk_curve l) (v_pos v)))) with (moved m (sm_pos (sample_centre (lk_curve l) (v_pos v)))). replace (@n0 RA) with (sided m (@n0 RA)) at 1; [apply drawn_moved|]. unfold sided, n0. unR. apply Rmult_0_r.
  Qed.

  (** ** The calls *)
  Notation MS := (moved_sim m).
  Lemma add_link_moved e1 e2 s c limit : same_choices m e1 e2 -> bind (add_link e2 (MS s) (moved_curve m c) limit) (fun r => Ok (fst r)) = outcome MS (bind (add_link e1 s c limit) (fun r => Ok (fst r))).
  Proof.
    intros (Ef & _). unfold add_link. cbn [moved_sim s_links]. rewrite map_next, <- Ef, (link_new_moved m Hr). destruct (link_new (e_fuel e1) (sm_next_key (s_links s)) c limit) as [l|p|]; [|reflexivity|reflexivity]. cbn [outcome bind fst]. f_equal. unfold with_links, moved_sim. cbn [s_links s_lights s_conflicts s_vehicles s_frozen s_frame s_seq s_acc_update s_lc_update]. rewrite map_insert. reflexivity.
  Qed.
  Lemma links_fold_moved {X} (ids : X -> key) (f : X -> @link RA -> res (@link RA)) l L : (forall x k, f x (ML k) = outcome ML (f x k)) ->
    foldM (fun L x => upd_link L (ids x) (f x)) l (LL L) = outcome LL (foldM (fun L x => upd_link L (ids x) (f x)) l L).
  Proof. intros H. apply (foldM_moved (fun _ => True)); auto. intros. apply upd_moved. apply H. Qed.
  Lemma links_fold_wf {X} (ids : X -> key) (f : X -> @link RA -> res (@link RA)) l L L' : (forall x, curve_kept (f x)) -> wf L -> foldM (fun L x => upd_link L (ids x) (f x)) l L = Ok L' -> wf L'.
  Proof. intros H. apply (foldM_keeps wf). intros s x s' W _ E. exact (upd_wf _ _ _ _ (H x) W E). Qed.
  Lemma mapM_get_moved L ids : mapM (get_link (LL L)) ids = outcome (map ML) (mapM (get_link L) ids).
  Proof. induction ids as [|id ids IH]; [reflexivity|]. cbn [mapM]. rewrite get_link_moved, IH. destruct (get_link L id); cbn [bind outcome]; try reflexivity. destruct (mapM (get_link L) ids); reflexivity. Qed.
  Lemma mapM_get_wf L ids ls : wf L -> mapM (get_link L) ids = Ok ls -> List.Forall wfl ls.
  Proof.
    intros W. revert ls. induction ids as [|id ids IH]; intros ls E; cbn [mapM] in E; [injection E as <-; constructor|]. destruct (get_link L id) as [l|p|] eqn:G; cbn [bind] in E; try discriminate E. destruct (mapM (get_link L) ids) as [ls'|p|]; cbn [bind] in E; try discriminate E. injection E as <-. constructor; [exact (wf_get _ _ _ W G)|apply IH; reflexivity].
  Qed.
  Lemma add_group_moved e1 e2 s ids mask : same_choices m e1 e2 -> wf (s_links s) -> add_link_group e2 (MS s) ids mask = outcome MS (add_link_group e1 s ids mask).
  Proof.
    intros (Ef & _) W. unfold add_link_group. change (s_links (MS s)) with (LL (s_links s)). rewrite mapM_get_moved, bind_outcome, outcome_bind. apply bind_ext. intros ls G. rewrite <- Ef, (group_new_moved m Hr) by exact (mapM_get_wf _ _ _ W G). rewrite bind_outcome, outcome_bind. apply bind_ext. intros g _.
    rewrite (foldM_moved (fun _ => True) LL (fun L id => upd_link L id (fun l => Ok (set_group l g)))) by (auto; intros; apply upd_moved; reflexivity). rewrite bind_outcome, outcome_bind. apply bind_ext. intros L1 _. change (g_lane_changes (moved_group m g)) with (g_lane_changes g). rewrite outcome_bind. apply bind_ext. intros lcs _.
    rewrite (links_fold_moved fst (fun ft l => add_lane_change l (snd ft)) lcs). 2:{ intros ft k. unfold add_lane_change. change (lk_changes (ML k)) with (lk_changes k). destruct (Nat.ltb _ _); reflexivity. }
    rewrite bind_outcome, outcome_bind. apply bind_ext. intros L2 _. reflexivity.
  Qed.
  Lemma convergence_moved e1 e2 s a b : same_choices m e1 e2 -> wf (s_links s) -> add_link_convergance e2 (MS s) a b = outcome MS (add_link_convergance e1 s a b).
  Proof.
    intros (Ef & _) W. unfold add_link_convergance. destruct (key_eqb a b); [reflexivity|]. change (s_links (MS s)) with (LL (s_links s)). rewrite !sm_get_map. destruct (sm_get (s_links s) a) as [la|] eqn:Ga; [|reflexivity]. destruct (sm_get (s_links s) b) as [lb|] eqn:Gb; [|reflexivity]. cbn [option_map].
    rewrite <- Ef, (cpoint_new_moved m Hr) by first [exact (W _ _ Ga)|exact (W _ _ Gb)]. rewrite outcome_bind. apply bind_ext. intros [cp|] _; [|reflexivity]. rewrite (links_fold_moved fst (fun kc l => Ok (add_conflict l (snd kc)))) by reflexivity. rewrite bind_outcome, outcome_bind. apply bind_ext. intros L1 _. reflexivity.
  Qed.
  Lemma connection_moved s a b : add_link_connection (MS s) a b = outcome MS (add_link_connection s a b).
  Proof.
    unfold add_link_connection. change (s_links (MS s)) with (LL (s_links s)). rewrite (upd_moved _ _ (fun l => Ok (add_link_out l b))) by reflexivity. rewrite bind_outcome, outcome_bind. apply bind_ext. intros L1 _.
    rewrite (upd_moved _ _ (fun l => Ok (add_link_in l a))) by reflexivity. rewrite bind_outcome, outcome_bind. apply bind_ext. intros L2 _. reflexivity.
  Qed.
  Lemma turned_zero : turned m (@vzero RA) = vzero.
  Proof. unfold turned, sided, vzero. cbn [px py]. f_equal; [change (@eq R (mo_cos m * 0 - mo_sin m * (side m * 0))%R 0%R)|change (@eq R (mo_sin m * 0 + mo_cos m * (side m * 0))%R 0%R)]; ring. Qed.
  Lemma add_vehicle_moved e1 e2 s a id : same_choices m e1 e2 -> wf (s_links s) -> bind (add_vehicle e2 (MS s) a id) (fun r => Ok (fst r)) = outcome MS (bind (add_vehicle e1 s a id) (fun r => Ok (fst r))).
  Proof.
    intros Se W. unfold add_vehicle. change (s_links (MS s)) with (LL (s_links s)). change (s_vehicles (MS s)) with (VV (s_vehicles s)). rewrite map_next. unfold set_location. rewrite (origin_moved m e1 e2 _ _ _ Se).
    destruct (set_origin e1 (s_links s) (v_pathfind (vehicle_new (sm_next_key (s_vehicles s)) a)) id) as [pf|p|]; [|reflexivity|reflexivity]. cbn [bind].
    match goal with |- context [update_coords (LL (s_links s)) ?w] => replace (update_coords (LL (s_links s)) w) with (outcome MV (update_coords (s_links s) w)) end.
    2:{ rewrite <- coords_moved by exact W. rewrite <- (coords_placed _ (MV _) vzero (Itv n0 n0) (vzero, vzero)).
        - f_equal. unfold placed, moved_vehicle. cbn [v_id v_half_wid v_half_len v_wheel_base v_acc v_pathfind v_pos v_vel v_stop_cnt v_route v_entered v_queued v_flag v_can_exit v_lane_change v_world_pos v_world_dir v_rear_lats vehicle_new]. rewrite turned_zero. reflexivity.
        - cbn [moved_vehicle v_world_dir vehicle_new]. rewrite turned_zero. cbn [vzero px py]. change (Raux.Req_bool 0 0 && Raux.Req_bool 0 0 = true). rewrite Raux.Req_bool_true by reflexivity. reflexivity. }
    match goal with |- context [update_coords (s_links s) ?w] => destruct (update_coords (s_links s) w) as [v|p|]; [|reflexivity|reflexivity] end. cbn [outcome bind]. rewrite map_insert.
    rewrite (upd_moved _ _ (insert_vehicle (sm_insert (s_vehicles s) v) (sm_next_key (s_vehicles s)))) by (intros l; apply insert_vehicle_moved).
    destruct (upd_link (s_links s) id _) as [L1|p|]; reflexivity.
  Qed.
  Lemma remove_vehicle_moved s v : sim_remove_vehicle (MS s) v = outcome MS (sim_remove_vehicle s v).
  Proof.
    unfold sim_remove_vehicle. change (s_vehicles (MS s)) with (VV (s_vehicles s)). rewrite sm_get_map. destruct (sm_get (s_vehicles s) v) as [w|]; [|reflexivity]. cbn [option_map]. rewrite map_remove.
    change (v_link (MV w)) with (v_link w). change (v_id (MV w)) with (v_id w). destruct (v_link w) as [lid|]; [|reflexivity]. cbn [with_vehicles s_links moved_sim]. rewrite remove_upd_moved, bind_outcome, outcome_bind. apply bind_ext. intros L1 _. reflexivity.
  Qed.
  Lemma randomise_moved s f : randomise_velocity_adjusts (MS s) f = outcome MS (randomise_velocity_adjusts s f).
  Proof.
    unfold randomise_velocity_adjusts. change (s_vehicles (MS s)) with (VV (s_vehicles s)).
    rewrite (mapS_moved MV (fun _ => True) (fun u : unit => u) (fun u k v => Ok (u, set_velocity_adjust v (nclamp (lit 3 4) (lit 5 4) (f k))))) by (auto; intros; reflexivity). rewrite bind_outcome, outcome_bind. apply bind_ext. intros r _. reflexivity.
  Qed.
  Lemma frozen_moved s v b : set_vehicle_frozen (MS s) v b = MS (set_vehicle_frozen s v b).
  Proof. unfold set_vehicle_frozen. cbn [moved_sim s_frozen]. destruct b, (position _ _); reflexivity. Qed.
  Lemma sim_destination_moved e1 e2 s v d : same_choices m e1 e2 -> set_vehicle_destination e2 (MS s) v d = outcome MS (set_vehicle_destination e1 s v d).
  Proof.
    intros Se. unfold set_vehicle_destination. change (s_vehicles (MS s)) with (VV (s_vehicles s)). change (s_links (MS s)) with (LL (s_links s)). rewrite get_vehicle_moved, bind_outcome, outcome_bind. apply bind_ext. intros w _.
    rewrite (set_destination_moved e1 e2 _ _ _ Se), bind_outcome, outcome_bind. apply bind_ext. intros w' _. cbn [outcome]. rewrite map_set. reflexivity.
  Qed.
  Lemma control_moved s l c : set_link_control (MS s) l c = outcome MS (set_link_control s l c).
  Proof. unfold set_link_control. change (s_links (MS s)) with (LL (s_links s)). rewrite (upd_moved _ _ (fun l => Ok (set_control l c))) by reflexivity. rewrite bind_outcome, outcome_bind. apply bind_ext. intros L1 _. reflexivity. Qed.
  Lemma fit_moved (x1 y1 s1 x2 : R) : moved_cubic m (@cubic_fit RA x1 y1 s1 x2 n0 n0) = @cubic_fit RA x1 (sided m y1) (sided m s1) x2 n0 n0.
  Proof. unfold moved_cubic, cubic_fit, sided. cbn [cb_a cb_b cb_c cb_d cb_offset]. unfold n0, n2. unR. f_equal; match goal with |- ?x = ?y => change (@eq R x y) end; ring. Qed.
  Lemma lane_change_moved e1 e2 s id lid dist : same_choices m e1 e2 -> wf (s_links s) -> do_lane_change e2 (MS s) id lid dist = outcome MS (do_lane_change e1 s id lid dist).
  Proof.
    intros Se W. unfold do_lane_change. change (s_vehicles (MS s)) with (VV (s_vehicles s)). change (s_links (MS s)) with (LL (s_links s)). rewrite get_vehicle_moved, bind_outcome, outcome_bind. apply bind_ext. intros v _. change (v_link (MV v)) with (v_link v).
    assert (match v_link v with Some cur => upd_link (LL (s_links s)) cur (fun l => Ok (remove_vehicle id l)) | None => Ok (LL (s_links s)) end = outcome LL (match v_link v with Some cur => upd_link (s_links s) cur (fun l => Ok (remove_vehicle id l)) | None => Ok (s_links s) end)) as Hx by (destruct (v_link v); [apply remove_upd_moved|reflexivity]).
    etransitivity; [apply bind_left; exact Hx|]. rewrite bind_outcome, outcome_bind. apply bind_ext. intros L1 E1.
    assert (wf L1) as W1. { destruct (v_link v); [exact (upd_wf _ _ _ _ (remove_kept id) W E1)|injection E1 as <-; exact W]. }
    rewrite get_link_moved, bind_outcome, outcome_bind. apply bind_ext. intros l G. change (lk_curve (ML l)) with (mc m (lk_curve l)). change (v_world_pos (MV v)) with (moved m (v_world_pos v)). change (v_world_dir (MV v)) with (turned m (v_world_dir v)).
    rewrite (inverse_moved m Hr _ _ _ (wf_get _ _ _ W1 G)), bind_outcome, outcome_bind. apply bind_ext. intros [((x, off), sl)|] _; [|reflexivity]. cbn [option_map of_option bind]. unfold minv. cbn [fst snd].
    match goal with |- context [Some (LaneChg ?en (cubic_fit ?a (sided m ?b) (sided m ?c) ?d n0 n0))] => replace (Some (LaneChg en (cubic_fit a (sided m b) (sided m c) d n0 n0))) with (option_map (moved_change m) (Some (LaneChg en (cubic_fit a b c d n0 n0)))) by (cbn [option_map]; unfold moved_change; cbn [lch_end lch_offset]; rewrite fit_moved; reflexivity) end.
    rewrite (location_moved e1 e2 _ _ _ _ _ Se), bind_outcome, outcome_bind. apply bind_ext. intros v' _.
    rewrite map_set. rewrite (upd_moved _ _ (insert_vehicle (sm_set (s_vehicles s) id v') id)) by (intros l'; apply insert_vehicle_moved). rewrite bind_outcome, outcome_bind. apply bind_ext. intros L2 _. reflexivity.
  Qed.
  Lemma lane_change_wf e s id lid dist s' : wf (s_links s) -> do_lane_change e s id lid dist = Ok s' -> wf (s_links s').
  Proof.
    intros W E. unfold do_lane_change in E. apply bind_inv in E as (v & _ & E). apply bind_inv in E as (L1 & E1 & E).
    assert (wf L1) as W1. { destruct (v_link v); [exact (upd_wf _ _ _ _ (remove_kept id) W E1)|injection E1 as <-; exact W]. }
    apply bind_inv in E as (l & _ & E). apply bind_inv in E as (o & _ & E). apply bind_inv in E as (((x, off), sl) & _ & E). apply bind_inv in E as (v' & _ & E). apply bind_inv in E as (L2 & E2 & E). injection E as E. rewrite <- E. cbn [with_links s_links]. exact (upd_wf _ _ _ _ (insert_kept _ _) W1 E2).
  Qed.

  (** ** The phases of a step *)
  Lemma choices_moved e1 e2 s : same_choices m e1 e2 -> wf (s_links s) -> calculate_lane_changes e2 (MS s) = outcome MS (calculate_lane_changes e1 s).
  Proof.
    intros Se W. unfold calculate_lane_changes. change (s_lc_update (MS s)) with (s_lc_update s). destruct (_ <? _)%num; [reflexivity|]. change (with_lc_update (MS s) n0) with (MS (with_lc_update s n0)). change (s_links (MS (with_lc_update s n0))) with (LL (s_links s)). change (s_vehicles (MS (with_lc_update s n0))) with (VV (s_vehicles s)).
    rewrite (mapS_moved MV (fun _ => True) (fun a : list (key * path) => a) (choose_one (s_links s))).
    - rewrite bind_outcome, outcome_bind. apply bind_ext. intros r _. cbn [fst snd]. change (with_vehicles (MS (with_lc_update s n0)) (VV (snd r))) with (MS (with_vehicles (with_lc_update s n0) (snd r))).
      apply (foldM_moved (fun s => wf (s_links s))); [| |exact W].
      + intros t vp Wt _. unfold exec_change. rewrite outcome_bind. apply bind_ext. intros lid _. rewrite (lane_change_moved e1 e2 t _ _ _ Se Wt), bind_outcome, outcome_bind. apply bind_ext. intros t' _. change (s_vehicles (MS t')) with (VV (s_vehicles t')). rewrite get_vehicle_moved, bind_outcome, outcome_bind. apply bind_ext. intros v _.
        cbn [outcome]. change (set_path (MV v) (snd vp)) with (MV (set_path v (snd vp))). rewrite map_set. reflexivity.
      + intros t vp t' Wt _ E. unfold exec_change in E. destruct (hd_error _); cbn [of_option bind] in E; try discriminate E. destruct (do_lane_change _ _ _ _ _) as [t1|p|] eqn:E1; cbn [bind] in E; try discriminate E. destruct (get_vehicle _ _); cbn [bind] in E; try discriminate E. injection E as <-. exact (lane_change_wf _ _ _ _ _ _ Wt E1).
    - intros acc k v _ _. unfold choose_one. rewrite choose_moved, outcome_bind. apply bind_ext. intros [p|] _; [|reflexivity]. change (v_link (MV v)) with (v_link v). rewrite outcome_bind. apply bind_ext. intros cur _. rewrite outcome_bind. apply bind_ext. intros new _. destruct (negb _); reflexivity.
    - auto.
    - exact I.
  Qed.
  Lemma choices_wf e s s' : wf (s_links s) -> calculate_lane_changes e s = Ok s' -> wf (s_links s').
  Proof.
    intros W E. unfold calculate_lane_changes in E. destruct (_ <? _)%num; [injection E as <-; exact W|]. destruct (sm_mapS _ _ _) as [r|p|]; cbn [bind] in E; try discriminate E. revert E. apply (foldM_keeps (fun s => wf (s_links s))); [|exact W].
    intros t vp t' Wt _ E. unfold exec_change in E. destruct (hd_error _); cbn [of_option bind] in E; try discriminate E. destruct (do_lane_change _ _ _ _ _) as [t1|p|] eqn:E1; cbn [bind] in E; try discriminate E. destruct (get_vehicle _ _); cbn [bind] in E; try discriminate E. injection E as <-. exact (lane_change_wf _ _ _ _ _ _ Wt E1).
  Qed.
  Lemma activate_all_moved s : activate_all (MS s) = outcome (fun lv => (LL (fst lv), VV (snd lv))) (activate_all s).
  Proof.
    unfold activate_all. change (s_links (MS s)) with (LL (s_links s)). change (s_vehicles (MS s)) with (VV (s_vehicles s)). rewrite (map_map_comm ML) by reflexivity.
    rewrite (mapS_moved MV (fun _ => True) LL (fun L (_ : key) v => bind (activate_links (v_reset v) L) (fun L => Ok (L, v_reset v)))); auto.
    - rewrite bind_outcome, outcome_bind. apply bind_ext. intros r _. reflexivity.
    - intros L k v _ _. change (v_reset (MV v)) with (MV (v_reset v)). rewrite activate_moved, bind_outcome, outcome_bind. apply bind_ext. intros L1 _. reflexivity.
  Qed.
  Lemma activate_all_wf s lv : wf (s_links s) -> activate_all s = Ok lv -> wf (fst lv).
  Proof.
    intros W E. unfold activate_all in E. destruct (sm_mapS _ _ _) as [r|p|] eqn:Em; cbn [bind] in E; try discriminate E. injection E as <-. cbn [fst]. revert Em. apply (mapS_keeps wf); [|apply wf_map; [reflexivity|exact W]].
    intros L k v sv WL E. destruct (activate_links _ L) as [L1|p|] eqn:Ea; cbn [bind] in E; try discriminate E. injection E as <-. exact (activate_wf _ _ _ WL Ea).
  Qed.
  Lemma log_moved log : forall (L : @linkset RA) (V : @vehset RA), apply_log (LL L, VV V) log = (LL (fst (apply_log (L, V) log)), VV (snd (apply_log (L, V) log))).
  Proof.
    unfold apply_log. induction (rev log) as [|x l IH]; intros L V; [reflexivity|]. cbn [fold_left]. destruct x; cbn [apply_eff fst snd].
    - rewrite map_upd by reflexivity. apply IH.
    - rewrite map_upd by reflexivity. apply IH.
    - rewrite map_upd by reflexivity. apply IH.
  Qed.
  Lemma wf_upd L k f : (forall l, lk_curve (f l) = lk_curve l) -> wf L -> wf (sm_upd L k f).
  Proof. intros H W. unfold sm_upd. destruct (sm_get L k) as [l|] eqn:G; [|exact W]. apply wf_set; [exact W|]. unfold wfl. rewrite H. exact (W _ _ G). Qed.
  Lemma log_wf log : forall L V, wf L -> wf (fst (apply_log (L, V) log)).
  Proof. unfold apply_log. induction (rev log) as [|x l IH]; intros L V W; [exact W|]. cbn [fold_left]. destruct x; cbn [apply_eff fst snd]; apply IH; try exact W. apply wf_upd; [reflexivity|exact W]. Qed.
  Lemma frozen_fold_moved (V : @vehset RA) fr : apply_frozen (VV V) fr = (VV (fst (apply_frozen V fr)), snd (apply_frozen V fr)).
  Proof.
    unfold apply_frozen. cbn [fst snd]. f_equal.
    - revert V. induction fr as [|k fr IH]; intros V; [reflexivity|]. cbn [fold_left]. rewrite map_upd by reflexivity. apply IH.
    - apply filter_ext. intros k. apply map_mem.
  Qed.
  Lemma written_moved s (L : @linkset RA) (V : @vehset RA) log :
    (let '(links, vs) := apply_log (LL L, VV V) log in let '(vs, frozen) := apply_frozen vs (s_frozen (MS s)) in Ok (with_frozen (with_vehicles (with_links (MS s) links) vs) frozen)) =
    outcome MS (let '(links, vs) := apply_log (L, V) log in let '(vs, frozen) := apply_frozen vs (s_frozen s) in Ok (with_frozen (with_vehicles (with_links s links) vs) frozen)).
  Proof.
    rewrite log_moved. destruct (apply_log (L, V) log) as (L2, V2). cbn [fst snd]. rewrite frozen_fold_moved. change (s_frozen (MS s)) with (s_frozen s). destruct (apply_frozen V2 (s_frozen s)) as (V3, fr). reflexivity.
  Qed.
  Lemma sim_accelerations_moved e1 e2 s : same_choices m e1 e2 -> wf (s_links s) -> sim_apply_accelerations e2 (MS s) = outcome MS (sim_apply_accelerations e1 s).
  Proof.
    intros (Ef & _) W. unfold sim_apply_accelerations. change (s_acc_update (MS s)) with (s_acc_update s). destruct (_ <? _)%num; [reflexivity|]. change (with_acc_update (MS s) n0) with (MS (with_acc_update s n0)). rewrite activate_all_moved, bind_outcome, outcome_bind. apply bind_ext. intros (L, V) Ea. cbn [fst snd]. rewrite <- Ef.
    pose proof (activate_all_wf (with_acc_update s n0) _ W Ea) as WL. cbn [fst] in WL.
    assert (sim_stoplines (e_fuel e1) (LL L) (VV V) [] = sim_stoplines (e_fuel e1) L V []) as ->. { unfold sim_stoplines. rewrite map_values, foldM_map. apply foldM_ext. intros log l. apply stoplines_moved. }
    rewrite outcome_bind. apply bind_ext. intros log _. change (s_conflicts (MS (with_acc_update s n0))) with (s_conflicts s).
    assert (sim_link_accelerations (e_fuel e1) (LL L) (VV V) (s_conflicts s) log = sim_link_accelerations (e_fuel e1) L V (s_conflicts s) log) as ->.
    { unfold sim_link_accelerations. rewrite map_values, foldM_map. rewrite (foldM_ext (fun log l => apply_accelerations (e_fuel e1) L V l log)) by (intros; apply (accelerations_moved m Hr); exact WL). apply bind_ext. intros log1 _. apply foldM_ext. intros; apply (cp_apply_moved m Hr). }
    rewrite outcome_bind. apply bind_ext. intros log1 _. exact (written_moved (with_acc_update s n0) L V log1).
  Qed.
  Lemma sim_accelerations_wf e s s' : wf (s_links s) -> sim_apply_accelerations e s = Ok s' -> wf (s_links s').
  Proof.
    intros W E. unfold sim_apply_accelerations in E. destruct (_ <? _)%num; [injection E as <-; exact W|]. destruct (activate_all _) as [(L, V)|p|] eqn:Ea; cbn [bind] in E; try discriminate E. pose proof (activate_all_wf _ _ (W : wf (s_links (with_acc_update s n0))) Ea) as WL.
    destruct (sim_stoplines _ _ _ _) as [log|p|]; cbn [bind] in E; try discriminate E. destruct (sim_link_accelerations _ _ _ _ _) as [log1|p|]; cbn [bind] in E; try discriminate E. pose proof (log_wf log1 L V WL) as W2. destruct (apply_log (L, V) log1) as (L2, V2). destruct (apply_frozen V2 _) as (V3, fr). injection E as <-. exact W2.
  Qed.
  Lemma lights_moved s dt : update_lights (MS s) dt = outcome MS (update_lights s dt).
  Proof.
    unfold update_lights. change (s_links (MS s)) with (LL (s_links s)). change (s_lights (MS s)) with (s_lights s).
    assert (sm_map (fun l : @light RA => l) (s_lights s) = s_lights s) as Hid. { unfold sm_map. destruct (s_lights s) as [sl fr]. cbn [sm_slots sm_free]. f_equal. rewrite <- (map_id sl) at 2. apply map_ext. intros [sv so]. cbn [s_ver s_val]. f_equal. destruct so; reflexivity. }
    rewrite <- Hid at 1.
    rewrite (mapS_moved (fun l : @light RA => l) (fun _ => True) LL (fun L (_ : key) l => bind (light_step l dt) (fun l => bind (get_states l) (fun sts => bind (foldM (fun L kc => upd_link L (fst kc) (fun l => Ok (set_control l (snd kc)))) sts L) (fun L => Ok (L, l)))))); auto.
    - rewrite bind_outcome, outcome_bind. apply bind_ext. intros (L, li) _. cbn [outcome fst snd].
      assert (sm_map (fun l : @light RA => l) li = li) as ->. { unfold sm_map. destruct li as [sl fr]. cbn [sm_slots sm_free]. f_equal. rewrite <- (map_id sl) at 2. apply map_ext. intros [sv so]. cbn [s_ver s_val]. f_equal. destruct so; reflexivity. }
      reflexivity.
    - intros L k l _ _. rewrite outcome_bind. apply bind_ext. intros l' _. rewrite outcome_bind. apply bind_ext. intros sts _. rewrite (links_fold_moved fst (fun kc l => Ok (set_control l (snd kc)))) by reflexivity. rewrite bind_outcome, outcome_bind. apply bind_ext. intros L1 _. reflexivity.
  Qed.
  Lemma lights_wf s dt s' : wf (s_links s) -> update_lights s dt = Ok s' -> wf (s_links s').
  Proof.
    intros W E. unfold update_lights in E. destruct (sm_mapS _ _ _) as [r|p|] eqn:Em; cbn [bind] in E; try discriminate E. injection E as <-. cbn [s_links]. revert Em. apply (mapS_keeps wf); [|exact W].
    intros L k v sv WL E. destruct (light_step v dt) as [l'|p|]; cbn [bind] in E; try discriminate E. destruct (get_states l') as [sts|p|]; cbn [bind] in E; try discriminate E. destruct (foldM _ sts L) as [L1|p|] eqn:Ef; cbn [bind] in E; try discriminate E. injection E as <-. cbn [fst].
    refine (links_fold_wf fst (fun kc l => Ok (set_control l (snd kc))) _ _ _ _ WL Ef). intros kc l l2 E2. injection E2 as <-. reflexivity.
  Qed.
  Lemma integrate_moved s dt : sim_integrate (MS s) dt = outcome MS (sim_integrate s dt).
  Proof.
    unfold sim_integrate. change (s_vehicles (MS s)) with (VV (s_vehicles s)). change (s_seq (MS s)) with (s_seq s). rewrite (mapS_moved MV (fun _ => True) (fun q : nat => q) (fun seq (_ : key) v => integrate v dt seq)); auto.
    - rewrite bind_outcome, outcome_bind. apply bind_ext. intros r _. reflexivity.
    - intros q k v _ _. unfold integrate. change (integrate_queue (MV v) q) with (integrate_queue v q). rewrite outcome_bind. apply bind_ext. intros (q', (en, qu)) _. cbn [outcome fst snd]. do 2 f_equal. unfold moved_vehicle. cbn [v_lane_change]. change (new_pos (MV v) dt) with (new_pos v dt). rewrite <- filter_moved. reflexivity.
  Qed.
  Definition mst (st : @linkset RA * (list (key * key) * list key)) : @linkset RA * (list (key * key) * list key) := (LL (fst st), snd st).
  Lemma advance_one_moved e1 e2 st k v : same_choices m e1 e2 -> advance_one e2 (mst st) k (MV v) = outcome (fun sv => (mst (fst sv), MV (snd sv))) (advance_one e1 st k v).
  Proof.
    intros Se. destruct st as (L, (adv, ex)). unfold advance_one, mst. cbn [fst snd]. change (v_link (MV v)) with (v_link v). rewrite outcome_bind. apply bind_ext. intros lid _. rewrite (advance_moved e1 e2 L v Se), bind_outcome, outcome_bind. apply bind_ext. intros (b, v') _. cbn [fst snd].
    destruct b; [|reflexivity]. rewrite remove_upd_moved, bind_outcome, outcome_bind. apply bind_ext. intros L1 _. change (v_link (MV v')) with (v_link v'). destruct (v_link v'); reflexivity.
  Qed.
  Lemma advance_one_wf e st k v sv : wf (fst st) -> advance_one e st k v = Ok sv -> wf (fst (fst sv)).
  Proof.
    intros W E. destruct st as (L, (adv, ex)). unfold advance_one in E. destruct (v_link v); cbn [of_option bind] in E; try discriminate E. destruct (advance e L v) as [(b, v')|p|]; cbn [bind fst snd] in E; try discriminate E. destruct b; [|injection E as <-; exact W].
    destruct (upd_link L _ _) as [L1|p|] eqn:E1; cbn [bind] in E; try discriminate E. pose proof (upd_wf _ _ _ _ (remove_kept k) W E1) as W1. destruct (v_link v'); injection E as <-; exact W1.
  Qed.
  Lemma removes_moved ex : forall V, fold_left sm_remove ex (VV V) = VV (fold_left sm_remove ex V).
  Proof. induction ex as [|k ex IH]; intros V; [reflexivity|]. cbn [fold_left]. rewrite map_remove. apply IH. Qed.
  Lemma advances_moved e1 e2 s : same_choices m e1 e2 -> advance_vehicles e2 (MS s) = outcome MS (advance_vehicles e1 s).
  Proof.
    intros Se. unfold advance_vehicles. change (s_vehicles (MS s)) with (VV (s_vehicles s)). change (s_links (MS s), (@nil (key * key), @nil key)) with (mst (s_links s, ([], []))).
    rewrite (mapS_moved MV (fun _ => True) mst (advance_one e1)) by (auto; intros; apply advance_one_moved; exact Se). rewrite bind_outcome, outcome_bind. apply bind_ext. intros ((L, (adv, ex)), vs) _. cbn [fst snd mst].
    rewrite (foldM_moved (fun _ => True) LL (fun L vl => upd_link L (snd vl) (insert_vehicle vs (fst vl)))); auto. 2:{ intros L1 vl _ _. apply upd_moved. intros l. apply insert_vehicle_moved. }
    rewrite bind_outcome, outcome_bind. apply bind_ext. intros L1 _. cbn [outcome]. rewrite removes_moved. reflexivity.
  Qed.
  Lemma advances_wf e s s' : wf (s_links s) -> advance_vehicles e s = Ok s' -> wf (s_links s').
  Proof.
    intros W E. unfold advance_vehicles in E. destruct (sm_mapS _ _ _) as [((L, (adv, ex)), vs)|p|] eqn:Em; cbn [bind] in E; try discriminate E.
    assert (wf L) as WL. { pose proof (mapS_keeps (fun st => wf (fst st)) _ _ (fun st k v sv Ws Es => advance_one_wf e st k v sv Ws Es) _ _ (W : wf (fst (s_links s, (@nil (key * key), @nil key)))) Em) as X. exact X. }
    destruct (foldM _ adv L) as [L1|p|] eqn:Ef; cbn [bind] in E; try discriminate E. injection E as <-. cbn [with_links s_links]. exact (links_fold_wf snd (fun vl => insert_vehicle vs (fst vl)) _ _ _ (fun vl => insert_kept vs (fst vl)) WL Ef).
  Qed.
  Lemma all_coords_moved s : wf (s_links s) -> update_vehicle_coords (MS s) = outcome MS (update_vehicle_coords s).
  Proof.
    intros W. unfold update_vehicle_coords. change (s_vehicles (MS s)) with (VV (s_vehicles s)). change (s_links (MS s)) with (LL (s_links s)). rewrite (mapS_moved MV (fun _ => True) (fun u : unit => u) (fun u (_ : key) v => bind (update_coords (s_links s) v) (fun v => Ok (u, v)))); auto.
    - rewrite bind_outcome, outcome_bind. apply bind_ext. intros r _. reflexivity.
    - intros u k v _ _. rewrite (coords_moved _ _ W), bind_outcome, outcome_bind. apply bind_ext. intros v' _. reflexivity.
  Qed.
  Lemma step_moved e1 e2 s dt : same_choices m e1 e2 -> wf (s_links s) -> step e2 (MS s) dt = outcome MS (step e1 s dt).
  Proof.
    intros Se W. unfold step. rewrite (choices_moved e1 e2 s Se W), bind_outcome, outcome_bind. apply bind_ext. intros s1 E1. pose proof (choices_wf _ _ _ W E1) as W1.
    rewrite (sim_accelerations_moved e1 e2 s1 Se W1), bind_outcome, outcome_bind. apply bind_ext. intros s2 E2. pose proof (sim_accelerations_wf _ _ _ W1 E2) as W2.
    rewrite lights_moved, bind_outcome, outcome_bind. apply bind_ext. intros s3 E3. pose proof (lights_wf _ _ _ W2 E3) as W3.
    rewrite integrate_moved, bind_outcome, outcome_bind. apply bind_ext. intros s4 E4. assert (wf (s_links s4)) as W4. { unfold sim_integrate in E4. destruct (sm_mapS _ _ _); cbn [bind] in E4; try discriminate E4. injection E4 as <-. exact W3. }
    rewrite (advances_moved e1 e2 s4 Se), bind_outcome, outcome_bind. apply bind_ext. intros s5 E5. pose proof (advances_wf _ _ _ W4 E5) as W5.
    rewrite (all_coords_moved s5 W5), bind_outcome, outcome_bind. apply bind_ext. intros s6 _. reflexivity.
  Qed.
  Lemma exec_moved e1 e2 s o : same_choices m e1 e2 -> wf (s_links s) -> exec e2 (MS s) (moved_call m o) = outcome MS (exec e1 s o).
  Proof.
    intros Se W. destruct o; cbn [moved_call exec].
    - apply add_link_moved; exact Se.
    - apply add_group_moved; assumption.
    - apply convergence_moved; assumption.
    - apply connection_moved.
    - rewrite outcome_bind. apply bind_ext. intros l _. reflexivity.
    - apply add_vehicle_moved; assumption.
    - apply remove_vehicle_moved.
    - apply randomise_moved.
    - cbn [outcome]. rewrite frozen_moved. reflexivity.
    - apply sim_destination_moved; exact Se.
    - apply control_moved.
    - apply lane_change_moved; assumption.
    - apply step_moved; assumption.
  Qed.
End Place.
