(** * Routes, scans and accelerations at another place on the map *)
From Coq Require Import List Bool ZArith NArith Arith Lia Reals Lra FunctionalExtensionality.
From Verif Require Import Arith RealArith Base SlotMap SlotMapProofs Util Geom Light Accel Net Path Vehicle LinkOps Sim SpecPlace RFacts PlaceGeom.
Import ListNotations.

(** ** Results *)
Lemma bind_ext {X Y} (r : res X) (f g : X -> res Y) : (forall x, r = Ok x -> f x = g x) -> bind r f = bind r g.
Proof. intros H. destruct r; cbn [bind]; auto. Qed.
Lemma bind_left {X Y} (r r' : res X) (f : X -> res Y) : r = r' -> bind r f = bind r' f.
Proof. intros ->. reflexivity. Qed.
Lemma bind_outcome {X Y Z} (h : X -> Y) (r : res X) (f : Y -> res Z) : bind (outcome h r) f = bind r (fun x => f (h x)).
Proof. destruct r; reflexivity. Qed.
Lemma outcome_bind {X Y Z} (h : Y -> Z) (r : res X) (f : X -> res Y) : outcome h (bind r f) = bind r (fun x => outcome h (f x)).
Proof. destruct r; reflexivity. Qed.
Lemma outcome_id {X} (h : X -> X) (r : res X) : (forall x, h x = x) -> outcome h r = r.
Proof. intros H. destruct r; cbn [outcome]; rewrite ?H; reflexivity. Qed.
Lemma foldM_moved {S1 S2 X} (P : S1 -> Prop) (g : S1 -> S2) (f : S1 -> X -> res S1) (f' : S2 -> X -> res S2) l :
  (forall s x, P s -> In x l -> f' (g s) x = outcome g (f s x)) -> (forall s x s', P s -> In x l -> f s x = Ok s' -> P s') ->
  forall s, P s -> foldM f' l (g s) = outcome g (foldM f l s).
Proof.
  induction l as [|x l IH]; intros H K s Hs; [reflexivity|]. cbn [foldM]. rewrite (H s x Hs (or_introl eq_refl)), bind_outcome, outcome_bind. apply bind_ext. intros s' E.
  apply IH; [intros; apply H; auto; right; auto|intros t y t' Ht Hy; apply K; auto; right; auto|]. exact (K s x s' Hs (or_introl eq_refl) E).
Qed.
Lemma foldM_keeps {S1 X} (P : S1 -> Prop) (f : S1 -> X -> res S1) l : (forall s x s', P s -> In x l -> f s x = Ok s' -> P s') -> forall s s', P s -> foldM f l s = Ok s' -> P s'.
Proof.
  induction l as [|x l IH]; intros K s s' Hs E; [cbn in E; congruence|]. cbn [foldM] in E. destruct (f s x) as [t|p|] eqn:Ex; cbn [bind] in E; try discriminate E.
  apply (IH (fun t y t' Ht Hy => K t y t' Ht (or_intror Hy)) t s' (K s x t Hs (or_introl eq_refl) Ex) E).
Qed.
Lemma foldM_ext {S1 X} (f f' : S1 -> X -> res S1) l : (forall s x, f' s x = f s x) -> forall s, foldM f' l s = foldM f l s.
Proof. intros H. induction l as [|x l IH]; intros s; [reflexivity|]. cbn [foldM]. rewrite H. apply bind_ext. intros t _. apply IH. Qed.
Lemma allM_ext {X} (f f' : X -> res bool) l : (forall x, f' x = f x) -> allM f' l = allM f l.
Proof. intros H. induction l as [|x l IH]; [reflexivity|]. cbn [allM]. rewrite H. apply bind_ext. intros [] _; auto. Qed.

Lemma foldM_map {S1 X Y} (f : S1 -> Y -> res S1) (g : X -> Y) l : forall s, foldM f (map g l) s = foldM (fun s x => f s (g x)) l s.
Proof. induction l as [|x l IH]; intros s; [reflexivity|]. cbn [map foldM]. apply bind_ext. intros t _. apply IH. Qed.

(** ** Slot maps *)
Section SM.
  Context {V : Type} (h : V -> V).
  Definition mslot (s : slot V) : slot V := Slot (s_ver s) (option_map h (s_val s)).
  Lemma set_nth_map {X Y} (f : X -> Y) n x l : set_nth n (f x) (map f l) = map f (set_nth n x l).
  Proof. revert n. induction l as [|y l IH]; intros [|n]; cbn [map set_nth]; rewrite ?IH; reflexivity. Qed.
  Lemma map_mem m k : sm_mem (sm_map h m) k = sm_mem m k.
  Proof. unfold sm_mem. rewrite sm_get_map. destruct (sm_get m k); reflexivity. Qed.
  Lemma map_set m k v : sm_set (sm_map h m) k (h v) = sm_map h (sm_set m k v).
  Proof. unfold sm_set. rewrite map_mem. destruct (sm_mem m k); [|reflexivity]. unfold sm_map. cbn [sm_slots sm_free]. f_equal. apply (set_nth_map mslot (k_idx k) (Slot (k_ver k) (Some v))). Qed.
  Lemma map_remove m k : sm_remove (sm_map h m) k = sm_map h (sm_remove m k).
  Proof. unfold sm_remove. rewrite map_mem. destruct (sm_mem m k); [|reflexivity]. unfold sm_map. cbn [sm_slots sm_free]. f_equal. apply (set_nth_map mslot (k_idx k) (Slot (S (k_ver k)) None)). Qed.
  Lemma map_next m : sm_next_key (sm_map h m) = sm_next_key m.
  Proof. unfold sm_next_key, sm_map. cbn [sm_slots sm_free]. rewrite map_length. destruct (sm_free m) as [|i fr]; [reflexivity|]. rewrite nth_error_map. destruct (nth_error (sm_slots m) i); reflexivity. Qed.
  Lemma map_insert m v : sm_insert (sm_map h m) (h v) = sm_map h (sm_insert m v).
  Proof.
    unfold sm_insert. rewrite map_next. cbn [sm_map sm_free]. destruct (sm_free m) as [|i fr]; unfold sm_map; cbn [sm_slots sm_free]; [rewrite map_app; reflexivity|]. f_equal. apply (set_nth_map mslot i (Slot (k_ver (sm_next_key m)) (Some v))).
  Qed.
  Lemma map_upd m k f : (forall v, f (h v) = h (f v)) -> sm_upd (sm_map h m) k f = sm_map h (sm_upd m k f).
  Proof. intros H. unfold sm_upd. rewrite sm_get_map. destruct (sm_get m k) as [v|]; cbn [option_map]; [|reflexivity]. rewrite H. apply map_set. Qed.
  Lemma map_values m : sm_values (sm_map h m) = map h (sm_values m).
  Proof.
    unfold sm_values, sm_entries, sm_map. cbn [sm_slots]. generalize O. induction (sm_slots m) as [|s l IH]; intros i; [reflexivity|]. cbn [map entries_from s_val]. destruct (s_val s) as [v|]; cbn [option_map map snd]; rewrite IH; reflexivity.
  Qed.
  Lemma map_map_comm m (f : V -> V) : (forall v, f (h v) = h (f v)) -> sm_map f (sm_map h m) = sm_map h (sm_map f m).
  Proof. intros H. unfold sm_map. cbn [sm_slots sm_free]. f_equal. rewrite !map_map. apply map_ext. intros s. cbn [s_ver s_val]. f_equal. destruct (s_val s); cbn [option_map]; rewrite ?H; reflexivity. Qed.
  Lemma mapS_moved {S1 S2} (P : S1 -> Prop) (g : S1 -> S2) f f' m :
    (forall s k v, P s -> sm_get m k = Some v -> f' (g s) k (h v) = outcome (fun sv => (g (fst sv), h (snd sv))) (f s k v)) -> (forall s k v sv, P s -> sm_get m k = Some v -> f s k v = Ok sv -> P (fst sv)) ->
    forall s, P s -> sm_mapS f' (sm_map h m) (g s) = outcome (fun r => (g (fst r), sm_map h (snd r))) (sm_mapS f m s).
  Proof.
    intros H K s Hs. unfold sm_mapS. cbn [sm_map sm_slots sm_free].
    assert (forall l i s, P s -> (forall j sl, nth_error l j = Some sl -> nth_error (sm_slots m) (i + j) = Some sl) -> slots_mapS f' i (map mslot l) (g s) = outcome (fun r => (g (fst r), map mslot (snd r))) (slots_mapS f i l s)) as X.
    { clear s Hs. induction l as [|sl l IH]; intros i s Hs Hl; [reflexivity|]. cbn [map slots_mapS mslot s_val s_ver].
      assert (forall j sl, nth_error l j = Some sl -> nth_error (sm_slots m) (S i + j) = Some sl) as Hl'. { intros j sl' Hj. replace (S i + j) with (i + S j) by lia. exact (Hl (S j) sl' Hj). }
      destruct (s_val sl) as [v|] eqn:Ev; cbn [option_map].
      - assert (sm_get m (Key i (s_ver sl)) = Some v) as Gv. { unfold sm_get. cbn [k_idx k_ver]. rewrite <- (Nat.add_0_r i), (Hl O sl eq_refl), Nat.eqb_refl. exact Ev. }
        rewrite (H s _ v Hs Gv), bind_outcome, outcome_bind. apply bind_ext. intros sv E. cbn [fst snd]. rewrite (IH (S i) (fst sv) (K s _ v sv Hs Gv E) Hl'), bind_outcome, outcome_bind. apply bind_ext. intros r _. reflexivity.
      - rewrite (IH (S i) s Hs Hl'), bind_outcome, outcome_bind. apply bind_ext. intros r _. cbn [outcome fst snd map]. destruct sl as [sv so]; cbn [s_val s_ver] in *; subst so; reflexivity. }
    change (map (fun s0 : slot V => Slot (s_ver s0) (option_map h (s_val s0))) (sm_slots m)) with (map mslot (sm_slots m)). rewrite (X (sm_slots m) O s Hs (fun j sl E => E)), bind_outcome, outcome_bind. apply bind_ext. intros r _. reflexivity.
  Qed.
End SM.
Lemma mapS_keeps {V S1} (P : S1 -> Prop) (f : S1 -> key -> V -> res (S1 * V)) m : (forall s k v sv, P s -> f s k v = Ok sv -> P (fst sv)) -> forall s r, P s -> sm_mapS f m s = Ok r -> P (fst r).
Proof.
  intros K s r Hs E. unfold sm_mapS in E. destruct (slots_mapS f 0 (sm_slots m) s) as [q|p|] eqn:Eq; cbn [bind] in E; try discriminate E. injection E as <-. cbn [fst]. revert Eq. generalize O. revert s Hs q.
  induction (sm_slots m) as [|sl l IH]; intros s Hs q i Eq; cbn [slots_mapS] in Eq; [injection Eq as <-; exact Hs|]. destruct (s_val sl) as [v|].
  - destruct (f s (Key i (s_ver sl)) v) as [sv|p|] eqn:Ef; cbn [bind] in Eq; try discriminate Eq. destruct (slots_mapS f (S i) l (fst sv)) as [w|p|] eqn:Ew; cbn [bind] in Eq; try discriminate Eq. injection Eq as <-. cbn [fst]. exact (IH (fst sv) (K s _ v sv Hs Ef) w (S i) Ew).
  - destruct (slots_mapS f (S i) l s) as [w|p|] eqn:Ew; cbn [bind] in Eq; try discriminate Eq. injection Eq as <-. cbn [fst]. exact (IH s Hs w (S i) Ew).
Qed.

Section Place.
  Variable m : motion.
  Hypothesis Hr : rigid m.
  Notation ML := (moved_link m).
  Notation MV := (moved_vehicle m).
  Notation LL := (sm_map ML).
  Notation VV := (sm_map MV).

  Lemma get_link_moved L id : get_link (LL L) id = outcome ML (get_link L id).
  Proof. unfold get_link. rewrite sm_get_map. destruct (sm_get L id); reflexivity. Qed.
  Lemma get_vehicle_moved V id : get_vehicle (VV V) id = outcome MV (get_vehicle V id).
  Proof. unfold get_vehicle. rewrite sm_get_map. destruct (sm_get V id); reflexivity. Qed.
  Ltac gl := rewrite get_link_moved, bind_outcome; apply bind_ext; intros ? ?.
  Ltac gv := rewrite get_vehicle_moved, bind_outcome; apply bind_ext; intros ? ?.

  (** ** Routes *)
  Lemma lanes_moved l : reachable_lanes (ML l) = reachable_lanes l.
  Proof. unfold reachable_lanes. cbn [moved_link lk_group lk_id]. destruct (lk_group l); reflexivity. Qed.
  Lemma from_lanes_moved l : reachable_from_lanes (ML l) = reachable_from_lanes l.
  Proof. unfold reachable_from_lanes. cbn [moved_link lk_group lk_id]. destruct (lk_group l); reflexivity. Qed.
  Lemma group_links_moved l id : group_links (ML l) id = group_links l id.
  Proof. unfold group_links. cbn [moved_link lk_group]. destruct (lk_group l); reflexivity. Qed.
  Lemma successors_moved L : successors (LL L) = successors L.
  Proof.
    apply functional_extensionality. intros id. unfold successors. gl. rewrite lanes_moved. apply bind_ext. intros lanes _. apply bind_left. apply mapM_ext. intros k _. gl. reflexivity.
  Qed.
  Lemma back_moved L mx id : propagate_back (LL L) mx id = propagate_back L mx id.
  Proof. unfold propagate_back. gl. reflexivity. Qed.
  Lemma across_moved L mx ft : propagate_across (LL L) mx ft = propagate_across L mx ft.
  Proof. unfold propagate_across. destruct (mx_get mx (snd ft)); [|reflexivity]. gl. reflexivity. Qed.
  Lemma matrix_step_moved L mx id : matrix_step (LL L) mx id = matrix_step L mx id.
  Proof.
    unfold matrix_step. gl. rewrite group_links_moved. rewrite (foldM_ext (propagate_back L) (propagate_back (LL L))) by (intros; apply back_moved).
    apply bind_ext. intros mx' _. change (lk_group (ML x)) with (option_map (moved_group m) (lk_group x)). destruct (lk_group x); [|reflexivity]. cbn [option_map]. change (g_lane_changes (moved_group m g)) with (g_lane_changes g). apply bind_ext. intros lcs _. apply foldM_ext. intros; apply across_moved.
  Qed.
  Lemma matrix_moved L d r : calc_lane_matrix (LL L) d r = calc_lane_matrix L d r.
  Proof. unfold calc_lane_matrix. apply foldM_ext. intros; apply matrix_step_moved. Qed.
  Lemma paths_inner_moved L mx d room : forall pre id x, make_paths_inner room (LL L) mx d pre id x = make_paths_inner room L mx d pre id x.
  Proof.
    induction room as [|room IH]; intros pre id x; cbn [make_paths_inner]; destruct (mx_get mx id); try reflexivity. destruct (_ <? _)%num; [|reflexivity]. gl.
    change (lk_length (ML x0)) with (lk_length x0). change (lk_out (ML x0)) with (lk_out x0). apply bind_left. apply mapM_ext. intros y _. apply IH.
  Qed.
  Lemma paths_moved L pf : make_paths (LL L) pf = make_paths L pf.
  Proof. unfold make_paths. rewrite paths_inner_moved. apply bind_ext. intros r0 _. gl. change (lk_changes (ML x)) with (lk_changes x). apply bind_left. apply mapM_ext. intros y _. apply paths_inner_moved. Qed.
  Lemma reroute_moved e1 e2 L pf : same_choices m e1 e2 -> reroute e2 (LL L) pf = reroute e1 L pf.
  Proof.
    intros (Ef & Ep). unfold reroute. destruct (_ || _); [reflexivity|]. gl. rewrite from_lanes_moved. apply bind_ext. intros ds _. rewrite successors_moved, <- Ef.
    replace (e_pick e2 (LL L) (pf_src pf) (pf_dst pf)) with (e_pick e1 L (pf_src pf) (pf_dst pf)) by (apply functional_extensionality; intros n; symmetry; apply Ep).
    apply bind_ext. intros [(route, c)|] _; [|reflexivity]. rewrite matrix_moved. reflexivity.
  Qed.
  Lemma origin_moved e1 e2 L pf id : same_choices m e1 e2 -> set_origin e2 (LL L) pf id = set_origin e1 L pf id.
  Proof.
    intros Se. unfold set_origin. destruct (mx_get _ id); cbn [bind]; [apply paths_moved|]. rewrite (reroute_moved e1 e2 L _ Se). apply bind_ext. intros. apply paths_moved.
  Qed.
  Lemma destination_moved e1 e2 L pf id : same_choices m e1 e2 -> pf_set_destination e2 (LL L) pf id = pf_set_destination e1 L pf id.
  Proof. intros Se. unfold pf_set_destination. rewrite (reroute_moved e1 e2 L _ Se). apply bind_ext. intros. apply paths_moved. Qed.

  (** ** Scans *)
  Definition mr (r : @relveh RA) : @relveh RA := RV (rv_key r) (MV (rv_veh r)) (rv_idx r) (rv_pos r).
  Section Process.
    Context {S1 S2 : Type} (g : S1 -> S2) (f : S1 -> @relveh RA -> res (S1 * bool)) (f' : S2 -> @relveh RA -> res (S2 * bool)).
    Hypothesis Hf : forall s r, f' (g s) (mr r) = outcome (fun sb => (g (fst sb), snd sb)) (f s r).
    Lemma scan_moved V len route x mn ids : forall s, scan f' (VV V) len route x mn ids (g s) = outcome (fun se => (g (fst se), snd se)) (scan f V len route x mn ids s).
    Proof.
      induction ids as [|id ids IH]; intros s; [reflexivity|]. cbn [scan]. rewrite get_vehicle_moved, bind_outcome, outcome_bind. apply bind_ext. intros v _. change (pos_front (MV v)) with (pos_front v). destruct (_ <? _)%num; [reflexivity|].
      change (get_route (MV v) (fst route)) with (get_route v (fst route)). destruct (get_route v (fst route)) as [(l, st)|]; [|apply IH]. destruct (negb _); [apply IH|].
      assert (bind (f' (g s) (RV id (MV v) (fst route) x)) (fun sb => if snd sb then scan f' (VV V) len route x mn ids (fst sb) else Ok (fst sb, Stop)) = outcome (fun se => (g (fst se), snd se)) (bind (f s (RV id v (fst route) x)) (fun sb => if snd sb then scan f V len route x mn ids (fst sb) else Ok (fst sb, Stop)))) as Go.
      { change (RV id (MV v) (fst route) x) with (mr (RV id v (fst route) x)). rewrite (Hf s (RV id v (fst route) x)), bind_outcome, outcome_bind. apply bind_ext. intros sb _. cbn [fst snd]. destruct (snd sb); [apply IH|reflexivity]. }
      destruct st; try exact Go; (destruct (_ >? _)%num; [reflexivity|exact Go]).
    Qed.
    Lemma process_moved L V fuel : forall l route x skip s, process_vehicles f' fuel (LL L) (VV V) (ML l) route x skip (g s) = outcome g (process_vehicles f fuel L V l route x skip s).
    Proof.
      induction fuel as [|fuel IH]; intros l route x skip s; [reflexivity|]. cbn [process_vehicles]. change (lk_active (ML l)) with (lk_active l). destruct (negb _); [reflexivity|].
      change (lk_limit (ML l)) with (lk_limit l). change (lk_length (ML l)) with (lk_length l). change (lk_vehicles (ML l)) with (lk_vehicles l). change (lk_in (ML l)) with (lk_in l).
      rewrite scan_moved, bind_outcome, outcome_bind. apply bind_ext. intros se _. cbn [fst snd]. destruct (snd se); [reflexivity|]. destruct (_ >=? _)%num; [reflexivity|].
      apply (foldM_moved (fun _ => True)); auto. intros t id _ _. rewrite get_link_moved, bind_outcome, outcome_bind. apply bind_ext. intros l' _. apply IH.
    Qed.
  End Process.
  Lemma process_same {S1} (f f' : S1 -> @relveh RA -> res (S1 * bool)) L V fuel l route x skip s : (forall s r, f' s (mr r) = f s r) ->
    process_vehicles f' fuel (LL L) (VV V) (ML l) route x skip s = process_vehicles f fuel L V l route x skip s.
  Proof.
    intros Hf. rewrite (process_moved (fun s => s) f f'); [apply outcome_id; reflexivity|]. intros t r. rewrite Hf. symmetry. apply outcome_id. intros (a, b). reflexivity.
  Qed.

  (** ** Stop lines *)
  Lemma gap_loop_moved V x time q route mv ids : gap_loop (VV V) x time q route mv ids = gap_loop V x time q route mv ids.
  Proof.
    induction ids as [|id ids IH]; [reflexivity|]. cbn [gap_loop]. gv. change (get_route (MV x0) (fst route)) with (get_route x0 (fst route)). destruct (get_route x0 (fst route)) as [(l, st)|]; [|apply IH]. destruct (negb _); [apply IH|reflexivity].
  Qed.
  Lemma skip_past_moved V x ids : skip_past (VV V) x ids = skip_past V x ids.
  Proof. induction ids as [|id ids IH]; [reflexivity|]. cbn [skip_past]. gv. change (pos_rear (MV x0)) with (pos_rear x0). destruct (_ >? _)%num; [apply IH|reflexivity]. Qed.
  Lemma check_gap_moved L V fuel : forall l x time q route mv, check_gap fuel (LL L) (VV V) (ML l) x time q route mv = check_gap fuel L V l x time q route mv.
  Proof.
    induction fuel as [|fuel IH]; intros l x time q route mv; [reflexivity|]. cbn [check_gap]. change (lk_limit (ML l)) with (lk_limit l). change (lk_vehicles (ML l)) with (lk_vehicles l). change (lk_in (ML l)) with (lk_in l).
    rewrite skip_past_moved. apply bind_ext. intros ids _. rewrite gap_loop_moved. apply bind_ext. intros [b|] _; [reflexivity|]. destruct (_ >? _)%num; [reflexivity|]. apply allM_ext. intros id. gl. apply IH.
  Qed.
  Lemma enter_loop_moved L V fuel l r q prio idxs : enter_loop fuel (LL L) (VV V) (ML l) (mr r) q prio idxs = enter_loop fuel L V l r q prio idxs.
  Proof.
    induction idxs as [|idx idxs IH]; [reflexivity|]. cbn [enter_loop]. change (lk_conflicts (ML l)) with (lk_conflicts l). apply bind_ext. intros c _. gl. change (lk_control (ML x)) with (lk_control x). change (lk_limit (ML l)) with (lk_limit l).
    change (rv_min_reach_time (mr r) (cf_own_max c) (lk_limit l)) with (rv_min_reach_time r (cf_own_max c) (lk_limit l)). rewrite check_gap_moved. apply bind_ext. intros [] _; [apply IH|reflexivity].
  Qed.
  Lemma can_enter_moved L V fuel l r q prio log : can_enter fuel (LL L) (VV V) (ML l) (mr r) q prio log = can_enter fuel L V l r q prio log.
  Proof. unfold can_enter. rewrite enter_loop_moved. reflexivity. Qed.
  Lemma stopline_moved L V fuel self log r : stopline_cb fuel (LL L) (VV V) (ML self) log (mr r) = stopline_cb fuel L V self log r.
  Proof.
    unfold stopline_cb. change (rv_route (mr r) 1) with (rv_route r 1). destruct (rv_route r 1) as [(id, st)|]; [|reflexivity].
    assert (bind (get_link (LL L) id) (fun l => match lk_control l with COpen => if negb (rv_can_stop (mr r) (nofZ (-5))) then Ok (rv_enter_link (mr r) :: log, true) else Ok (log, false)
      | CYield distance must_stop priority => match st with NotEntered => Ok (rv_stop_at_line (mr r) n0 :: (if (rv_front (mr r) >? - distance)%num && (negb must_stop || has_stopped (rv_veh (mr r))) then rv_queue_link (mr r) :: log else log), false)
        | QueuedAt frame => bind (can_enter fuel (LL L) (VV V) l (rv_offset (mr r) (lk_length (ML self))) frame priority log) (fun bl => if fst bl then Ok (rv_enter_link (mr r) :: snd bl, true) else Ok (rv_stop_at_line (mr r) n0 :: snd bl, false))
        | Entered => Panic PUnreachable end
      | CClosed => Ok (rv_stop_at_line (mr r) n0 :: log, false) end) =
      bind (get_link L id) (fun l => match lk_control l with COpen => if negb (rv_can_stop r (nofZ (-5))) then Ok (rv_enter_link r :: log, true) else Ok (log, false)
      | CYield distance must_stop priority => match st with NotEntered => Ok (rv_stop_at_line r n0 :: (if (rv_front r >? - distance)%num && (negb must_stop || has_stopped (rv_veh r)) then rv_queue_link r :: log else log), false)
        | QueuedAt frame => bind (can_enter fuel L V l (rv_offset r (lk_length self)) frame priority log) (fun bl => if fst bl then Ok (rv_enter_link r :: snd bl, true) else Ok (rv_stop_at_line r n0 :: snd bl, false))
        | Entered => Panic PUnreachable end
      | CClosed => Ok (rv_stop_at_line r n0 :: log, false) end)) as K.
    { gl. change (lk_control (ML x)) with (lk_control x). destruct (lk_control x); try reflexivity. destruct st; try reflexivity.
      change (rv_offset (mr r) (lk_length (ML self))) with (mr (rv_offset r (lk_length self))). rewrite can_enter_moved. reflexivity. }
    destruct st; [exact K|exact K|reflexivity].
  Qed.
  Lemma stoplines_moved L V fuel l log : apply_stoplines fuel (LL L) (VV V) (ML l) log = apply_stoplines fuel L V l log.
  Proof. unfold apply_stoplines. apply process_same. intros s r. apply stopline_moved. Qed.

  (** ** Car following *)
  Lemma follow_on_moved V limit ids : forall log, follow_on_link (VV V) limit ids log = follow_on_link V limit ids log.
  Proof.
    induction ids as [|id ids IH]; intros log; [reflexivity|]. cbn [follow_on_link]. destruct ids as [|id2 ids]; [gv; reflexivity|]. gv. gv. apply IH.
  Qed.
  Lemma entering_moved V self log r : entering_cb (VV V) (ML self) log (mr r) = entering_cb V self log r.
  Proof. unfold entering_cb. change (lk_vehicles (ML self)) with (lk_vehicles self). destruct (hd_error (lk_vehicles self)); [|reflexivity]. gv. reflexivity. Qed.
  Lemma count_moved V x ids : count_ahead (VV V) x ids = count_ahead V x ids.
  Proof. induction ids as [|id ids IH]; [reflexivity|]. cbn [count_ahead]. gv. change (v_pos (MV x0)) with (v_pos x0). rewrite IH. reflexivity. Qed.
  Lemma range_add i (x : @num RA) : i_add (sided_range m i) (sided m x) = sided_range m (i_add i x).
  Proof.
    unfold sided_range, sided, side. destruct (mo_flip m); unfold i_add; cbn [i_min i_max]; unR; f_equal; match goal with |- ?x = ?y => change (@eq R x y) end; ring.
  Qed.
  Lemma range_distance i (x : @num RA) : i_distance (sided_range m i) (sided m x) = i_distance i x.
  Proof.
    unfold sided_range, sided, side, i_distance. destruct (mo_flip m); cbn [i_min i_max]; rewrite !max_R; unR; [|rewrite Rmult_1_l; reflexivity]. rewrite Rmax_comm. f_equal; ring.
  Qed.
  Lemma table_moved p x : proj_sample (moved_table m p) x = outcome (mps m) (proj_sample p x).
  Proof.
    unfold proj_sample. cbn [moved_table pj_samples pj_inv]. rewrite map_length. destruct (length (pj_samples p)); [reflexivity|]. rewrite nth_error_map. destruct (nth_error _ _); reflexivity.
  Qed.
  Lemma v_project_moved v p : v_project (MV v) (moved_table m p) = outcome (mo m) (v_project v p).
  Proof.
    unfold v_project, proj_project. change (v_pos (MV v)) with (v_pos v). change (v_half_len (MV v)) with (v_half_len v). rewrite table_moved, bind_outcome, outcome_bind. apply bind_ext. intros s _. cbn [outcome]. unfold mo. cbn [o_pos o_lat o_rear o_vel mps ps_pos ps_lat]. rewrite <- range_add. reflexivity.
  Qed.
  Lemma cubic_moved f x : cubic_y (moved_cubic m f) x = sided m (cubic_y f x).
  Proof. unfold cubic_y, cubic_y_and_dy, moved_cubic, sided. cbn [cb_a cb_b cb_c cb_d cb_offset fst]. unR. match goal with |- ?x = ?y => change (@eq R x y) end. ring. Qed.
  Lemma filter_moved lc x : lc_filter (option_map (moved_change m) lc) x = option_map (moved_change m) (lc_filter lc x).
  Proof. destruct lc as [c|]; [|reflexivity]. cbn [option_map lc_filter moved_change lch_end]. destruct (_ >? _)%num; reflexivity. Qed.
  Lemma offset_moved v x : offset_at (MV v) x = sided m (offset_at v x).
  Proof.
    unfold offset_at. change (v_lane_change (MV v)) with (option_map (moved_change m) (v_lane_change v)). rewrite filter_moved. destruct (lc_filter (v_lane_change v) x) as [c|]; cbn [option_map]; [apply cubic_moved|]. unfold sided, n0. unR. symmetry. apply Rmult_0_r.
  Qed.
  Lemma clear_moved v o : is_clear (MV v) (mo m o) = is_clear v o.
  Proof. unfold is_clear. cbn [mo o_pos o_lat]. change (v_half_len (MV v)) with (v_half_len v). change (v_half_wid (MV v)) with (v_half_wid v). cbv zeta. rewrite offset_moved, range_distance. reflexivity. Qed.
  Lemma can_pass_moved fuel v o l : wfl l -> can_pass fuel (MV v) (mo m o) (ML l) = can_pass fuel v o l.
  Proof.
    intros W. unfold can_pass. rewrite clear_moved. destruct (is_clear v o); [reflexivity|]. change (lk_curve (ML l)) with (mc m (lk_curve l)). rewrite (pass_moved m Hr fuel _ W), bind_outcome. apply bind_ext. intros o' _. rewrite clear_moved. reflexivity.
  Qed.
  Lemma obstacle_moved fuel self o log r : wfl self -> obstacle_cb fuel (ML self) (mo m o) log (mr r) = obstacle_cb fuel self o log r.
  Proof. intros W. unfold obstacle_cb. cbn [mr rv_veh]. rewrite (can_pass_moved _ _ _ _ W). reflexivity. Qed.
  Lemma obstacles_moved L V fuel self p : wfl self -> forall ids skip log, follow_obstacles fuel (LL L) (VV V) (ML self) (moved_table m p) ids skip log = follow_obstacles fuel L V self p ids skip log.
  Proof.
    intros W. induction ids as [|id ids IH]; intros skip log; [reflexivity|]. cbn [follow_obstacles]. gv. rewrite v_project_moved, bind_outcome. apply bind_ext. intros o _. change (o_pos (mo m o)) with (o_pos o). change (lk_vehicles (ML self)) with (lk_vehicles self).
    rewrite count_moved. apply bind_ext. intros cnt _. change (lk_id (ML self)) with (lk_id self). rewrite (process_same (obstacle_cb fuel self o)) by (intros; apply obstacle_moved; exact W). apply bind_ext. intros log' _. apply IH.
  Qed.
  Lemma projections_moved g src : projections_from_link (moved_group m g) src = outcome (map (moved_table m)) (projections_from_link g src).
  Proof.
    unfold projections_from_link. change (find_link (moved_group m g) src) with (find_link g src). rewrite outcome_bind. apply bind_ext. intros idx _. cbn [moved_group g_links g_projs]. rewrite map_length. destruct (Nat.leb _ _); [|reflexivity]. cbn [outcome]. rewrite <- firstn_map, <- skipn_map. reflexivity.
  Qed.
  Definition wf (L : @linkset RA) : Prop := forall k l, sm_get L k = Some l -> wfl l.
  Lemma accelerations_moved L V fuel l log : wf L -> apply_accelerations fuel (LL L) (VV V) (ML l) log = apply_accelerations fuel L V l log.
  Proof.
    intros W. unfold apply_accelerations. change (lk_vehicles (ML l)) with (lk_vehicles l). change (lk_limit (ML l)) with (lk_limit l). rewrite follow_on_moved. apply bind_ext. intros log1 _. change (lk_id (ML l)) with (lk_id l).
    rewrite (process_same (entering_cb V l)) by (intros; apply entering_moved). apply bind_ext. intros log2 _. change (lk_group (ML l)) with (option_map (moved_group m) (lk_group l)). destruct (lk_group l) as [gr|]; [|reflexivity]. cbn [option_map]. rewrite projections_moved, bind_outcome. apply bind_ext. intros ps _.
    rewrite foldM_map. apply foldM_ext. intros log3 p. change (pj_dst (moved_table m p)) with (pj_dst p). rewrite get_link_moved, bind_outcome. apply bind_ext. intros l2 G. apply obstacles_moved. unfold get_link in G. destruct (sm_get L (pj_dst p)) as [l3|] eqn:G3; [|discriminate G]. injection G as <-. exact (W _ _ G3).
  Qed.

  (** ** Crossings *)
  Lemma find_moved L V fuel c buf : find_vehicles fuel (LL L) (VV V) c (map mr buf) = outcome (map mr) (find_vehicles fuel L V c buf).
  Proof.
    unfold find_vehicles. rewrite get_link_moved, bind_outcome, outcome_bind. apply bind_ext. intros l _. apply process_moved. intros s r. cbn [outcome fst snd]. change (rv_rear (mr r)) with (rv_rear r). destruct (_ <? _)%num; [rewrite map_app|]; reflexivity.
  Qed.
  Lemma insert_moved r l : insert_desc (mr r) (map mr l) = map mr (insert_desc r l).
  Proof. induction l as [|x l IH]; [reflexivity|]. cbn [map insert_desc]. change (rv_front (mr x)) with (rv_front x). change (rv_front (mr r)) with (rv_front r). destruct (_ <? _)%num; [reflexivity|]. cbn [map]. rewrite IH. reflexivity. Qed.
  Lemma sort_moved l : sort_desc (map mr l) = outcome (map mr) (sort_desc l).
  Proof.
    unfold sort_desc. rewrite map_length. assert (existsb (fun r => nnan (rv_front r)) (map mr l) = existsb (fun r => nnan (rv_front r)) l) as -> by (induction l as [|x l IH]; [reflexivity|cbn [map existsb]; rewrite IH; reflexivity]).
    destruct (_ && _); [reflexivity|]. cbn [outcome]. f_equal. change (@nil (@relveh RA)) with (map mr []) at 1. generalize (@nil (@relveh RA)). induction l as [|x l IH]; intros acc; [reflexivity|]. cbn [map fold_left]. rewrite insert_moved. apply IH.
  Qed.
  Lemma pairs2_moved sd l : forall log, conflict_pairs sd (map mr l) log = conflict_pairs sd l log.
  Proof.
    assert (forall a b, rv_follow_obstacle (mr b) (v_rear_coords (rv_veh (mr a))) (v_vel (rv_veh (mr a))) = rv_follow_obstacle b (v_rear_coords (rv_veh a)) (v_vel (rv_veh a))) as Hfo.
    { intros a b. unfold rv_follow_obstacle, vx_follow_obstacle. cbn [mr rv_key rv_veh moved_vehicle v_rear_coords v_world_dir v_world_pos v_vel v_half_len v_acc]. unfold sided_pair. destruct (mo_flip m); cbn [fst snd]; rewrite !m_sub, !(t_dot m Hr); [rewrite min_swap|]; reflexivity. }
    induction l as [|a l IH]; intros log; [reflexivity|]. destruct l as [|b l]; [reflexivity|].
    change (conflict_pairs sd (map mr (a :: b :: l)) log) with (conflict_pairs sd (map mr (b :: l)) (if negb (okey_eqb (rv_link a 0) (rv_link b 0)) then if sd && (rv_rear a >? n0)%num then rv_follow_obstacle (mr b) (v_rear_coords (rv_veh (mr a))) (v_vel (rv_veh (mr a))) :: log else rv_stop_at_line b n0 :: log else log)).
    rewrite IH, Hfo. reflexivity.
  Qed.
  Lemma cp_apply_moved L V fuel c log : cp_apply fuel (LL L) (VV V) c log = cp_apply fuel L V c log.
  Proof.
    unfold cp_apply. pose proof (find_moved L V fuel (cp_a c) []) as E. cbn [map] in E. rewrite E, bind_outcome. apply bind_ext. intros x1 _. destruct x1 as [|r x1]; [reflexivity|].
    change (map mr (r :: x1)) with (mr r :: map mr x1) at 1. cbv iota. rewrite find_moved, bind_outcome. apply bind_ext. intros x2 _. rewrite !map_length. destruct (Nat.eqb _ _); [reflexivity|]. rewrite sort_moved, bind_outcome. apply bind_ext. intros x3 _. rewrite pairs2_moved. reflexivity.
  Qed.
End Place.
