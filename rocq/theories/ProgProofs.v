(** * The parts of a step that end, in any arithmetic *)
From Coq Require Import List Bool ZArith NArith Arith Lia.
From Verif Require Import Arith Base BaseProofs SlotMap SlotMapProofs Util Geom Light Accel Net Path Vehicle LinkOps Sim SpecRoute DijProofs NetEvo EndsProofs.
Import ListNotations.

Section More.
  Lemma settles_bind' {X Y} (f : nat -> res X) (g : nat -> X -> res Y) :
    settles f -> (forall n x, f n = Ok x -> settles (fun n => g n x)) -> settles (fun n => bind (f n) (g n)).
  Proof.
    intros (n & r & Hr & Hf) Hg. destruct r as [x|p|]; [|exists n, (Panic p); split; [discriminate|]; intros fuel L; rewrite Hf by exact L; reflexivity|contradiction].
    destruct (Hg n x (Hf n (le_n _))) as (m & r & Hr' & Hgx). exists (Nat.max n m), r. split; [exact Hr'|]. intros fuel L. rewrite Hf by lia. cbn [bind]. apply Hgx. lia.
  Qed.
  Lemma settles_foldM' {S X} (I : S -> Prop) (f : nat -> S -> X -> res S) l : (forall s x, I s -> settles (fun n => f n s x)) -> (forall n s x s', I s -> f n s x = Ok s' -> I s') ->
    forall s, I s -> settles (fun n => foldM (f n) l s).
  Proof.
    intros H K. induction l as [|x l IH]; intros s Hs; [apply settles_ok|]. cbn [foldM]. apply (settles_bind' (fun n => f n s x) (fun n => foldM (f n) l)); [apply H; exact Hs|].
    intros n s' E. apply IH. eapply K; eauto.
  Qed.
  Lemma settles_slots {V S_} (I : S_ -> Prop) (f : nat -> S_ -> key -> V -> res (S_ * V)) l : (forall s k v, I s -> settles (fun n => f n s k v)) -> (forall n s k v s' v', I s -> f n s k v = Ok (s', v') -> I s') ->
    forall i s, I s -> settles (fun n => slots_mapS (f n) i l s).
  Proof.
    intros H K. induction l as [|sl l IH]; intros i s Hs; [apply settles_ok|]. cbn [slots_mapS]. destruct (s_val sl) as [v|].
    - apply (settles_bind' (fun n => f n s (Key i (s_ver sl)) v) (fun n sv => bind (slots_mapS (f n) (S i) l (fst sv)) (fun r => Ok (fst r, Slot (s_ver sl) (Some (snd sv)) :: snd r)))); [apply H; exact Hs|].
      intros n (s1 & v1) E. apply (settles_bind' (fun n => slots_mapS (f n) (S i) l s1)); [apply IH; eapply K; eauto|]. intros _ (s2 & l2) _. apply settles_ok.
    - apply (settles_bind' (fun n => slots_mapS (f n) (S i) l s)); [apply IH; exact Hs|]. intros _ (s2 & l2) _. apply settles_ok.
  Qed.
  Lemma settles_mapS {V S_} (I : S_ -> Prop) (f : nat -> S_ -> key -> V -> res (S_ * V)) m s : (forall s k v, I s -> settles (fun n => f n s k v)) -> (forall n s k v s' v', I s -> f n s k v = Ok (s', v') -> I s') ->
    I s -> settles (fun n => sm_mapS (f n) m s).
  Proof.
    intros H K Hs. unfold sm_mapS. apply (settles_bind' (fun n => slots_mapS (f n) 0 (sm_slots m) s)); [eapply settles_slots; eauto|]. intros _ (s1 & l1) _. apply settles_ok.
  Qed.
  Lemma fin_foldM {S X} (f : S -> X -> res S) l : (forall s x, fin (f s x)) -> forall s, fin (foldM f l s).
  Proof. intros H. induction l as [|x l IH]; intros s; [discriminate|]. cbn [foldM]. apply fin_bind; auto. Qed.
  Lemma fin_filterM {X} (f : X -> res bool) l : (forall x, fin (f x)) -> fin (filterM f l).
  Proof. intros H. induction l as [|x l IH]; [discriminate|]. cbn [filterM]. apply fin_bind; [apply H|]. intros b. apply fin_bind; [exact IH|]. intros r. destruct b; discriminate. Qed.
End More.

Section Parts.
  Context {A : Arith}.
  Lemma fin_lc_bit g i d : fin (lc_bit g i d).
  Proof. unfold lc_bit. fins. Qed.
  Lemma fin_walk_left f n : (forall i, fin (f i)) -> fin (walk_left f n).
  Proof. intros H. induction n as [|n IH]; [discriminate|]. cbn [walk_left]. apply fin_bind; [apply H|]. intros [|]; [exact IH|discriminate]. Qed.
  Lemma fin_walk_right f n : (forall i, fin (f i)) -> forall r, fin (walk_right f n r).
  Proof. intros H. induction n as [|n IH]; intros r; [discriminate|]. cbn [walk_right]. apply fin_bind; [apply H|]. intros [|]; [apply IH|discriminate]. Qed.
  Lemma fin_reachable_lanes l : fin (reachable_lanes l).
  Proof.
    unfold reachable_lanes, g_reachable_lanes. destruct (lk_group l); [|discriminate]. apply fin_bind; [apply fin_option|]. intros i.
    apply fin_bind; [apply fin_walk_left; intros; apply fin_lc_bit|]. intros a. apply fin_bind; [apply fin_walk_right; intros; apply fin_lc_bit|]. discriminate.
  Qed.
  Lemma fin_reachable_from_lanes l : fin (reachable_from_lanes l).
  Proof.
    unfold reachable_from_lanes, g_reachable_from_lanes. destruct (lk_group l); [|discriminate]. apply fin_bind; [apply fin_option|]. intros i.
    apply fin_bind; [apply fin_walk_left; intros; apply fin_lc_bit|]. intros a. apply fin_bind; [apply fin_walk_right; intros; apply fin_lc_bit|]. discriminate.
  Qed.
  Lemma fin_lane_changes g : fin (g_lane_changes g).
  Proof. unfold g_lane_changes. apply fin_bind; [apply fin_filterM; intros; apply fin_lc_bit|]. intros a. apply fin_bind; [apply fin_filterM; intros; apply fin_lc_bit|]. discriminate. Qed.
  Lemma fin_successors links k : fin (successors links k).
  Proof. unfold successors. apply fin_bind; [apply fin_get_link|]. intros l. apply fin_bind; [apply fin_reachable_lanes|]. intros ls. apply fin_bind; [|discriminate]. apply fin_mapM. intros x. apply fin_bind; [apply fin_get_link|discriminate]. Qed.
  Lemma fin_matrix links d r : fin (calc_lane_matrix links d r).
  Proof.
    unfold calc_lane_matrix. apply fin_foldM. intros m k. unfold matrix_step. apply fin_bind; [apply fin_get_link|]. intros l. apply fin_bind.
    - apply fin_foldM. intros m' x. unfold propagate_back. apply fin_bind; [apply fin_get_link|]. intros lx. destruct (reduce _ _); discriminate.
    - intros m'. destruct (lk_group l) as [g|]; [|discriminate]. apply fin_bind; [apply fin_lane_changes|]. intros lcs. apply fin_foldM. intros m2 ft. unfold propagate_across.
      destruct (mx_get m2 (snd ft)); [|discriminate]. apply fin_bind; [apply fin_get_link|discriminate].
  Qed.
  Lemma fin_paths_inner links mx dst room : forall pre id dist, fin (make_paths_inner room links mx dst pre id dist).
  Proof.
    induction room as [|room IH]; intros pre id dist; cbn [make_paths_inner]; destruct (mx_get mx id); try discriminate. destruct (nltb _ _); [|discriminate].
    apply fin_bind; [apply fin_get_link|]. intros l. apply fin_bind; [apply fin_mapM; intros s; apply IH|]. intros rs. destruct (existsb fst rs); discriminate.
  Qed.
  Lemma fin_make_paths links pf : fin (make_paths links pf).
  Proof.
    unfold make_paths. apply fin_bind; [apply fin_paths_inner|]. intros r0. apply fin_bind; [apply fin_get_link|]. intros l. apply fin_bind; [apply fin_mapM; intros s; apply fin_paths_inner|discriminate].
  Qed.
  Lemma fin_choose links acc k v : fin (choose_one links acc k v).
  Proof.
    unfold choose_one. apply fin_bind.
    - unfold choose_path. destruct (v_lane_change v); [discriminate|]. apply fin_bind.
      + apply fin_mapM. intros p. apply fin_bind; [|discriminate]. unfold evaluate_path. apply fin_bind; [apply fin_option|]. intros cur. apply fin_bind; [apply fin_option|]. intros nw.
        destruct (key_eqb cur nw); [discriminate|]. apply fin_bind; [apply fin_get_link|]. intros l. apply fin_bind; [|intros; discriminate].
        unfold link_project_approx, g_projection, proj_approx, proj_sample. fins.
      + intros [|]; discriminate.
    - intros [p|]; [|discriminate]. apply fin_bind; [apply fin_option|]. intros cur. apply fin_bind; [apply fin_option|]. intros nw. destruct (negb _); discriminate.
  Qed.
  Lemma fin_upd_link links k f : (forall l, fin (f l)) -> fin (upd_link links k f).
  Proof. intros H. unfold upd_link. apply fin_bind; [apply fin_get_link|]. intros l. apply fin_bind; [apply H|discriminate]. Qed.
  Lemma fin_insert_idx vs p ids : fin (insert_idx vs p ids).
  Proof. induction ids as [|id ids IH]; [discriminate|]. cbn [insert_idx]. fins; try apply fin_get_vehicle; auto. Qed.
  Lemma fin_insert vs k l : fin (insert_vehicle vs k l).
  Proof. unfold insert_vehicle. apply fin_bind; [apply fin_get_vehicle|]. intros v. apply fin_bind; [apply fin_insert_idx|discriminate]. Qed.
  Lemma fin_inverse lc p t : fin (inverse_sample lc p t).
  Proof.
    unfold inverse_sample, project_point_onto_curve, initial_guess. apply fin_bind.
    - apply fin_bind; [|discriminate]. apply fin_bind; [|discriminate]. generalize (seq 1 8). intros l. generalize 0%nat. intros i0.
      match goal with |- fin (min_by_snd ?b (map ?f l)) => generalize b; generalize (map f l) end. clear. induction l as [|y l IH]; intros b; [discriminate|]. cbn [min_by_snd]. destruct (_ || _); [discriminate|]. apply IH.
    - intros [pos|]; [|discriminate]. destruct (lc_seg lc pos). destruct (normalize_with_derivative _ _). discriminate.
  Qed.
  Lemma fin_light l dt : fin (light_step l dt).
  Proof. unfold light_step, update_phase, apply_phase. destruct (l_phases l); [discriminate|]. destruct (Nat.ltb _ _); [discriminate|]. fins. Qed.
  Lemma fin_update_lights s dt : fin (update_lights s dt).
  Proof.
    unfold update_lights. apply fin_bind; [|discriminate]. apply fin_mapS. intros ls k l. apply fin_bind; [apply fin_light|]. intros l'. apply fin_bind; [unfold get_states; fins|]. intros sts.
    apply fin_bind; [|discriminate]. apply fin_foldM. intros ls' kc. apply fin_upd_link. discriminate.
  Qed.
  Lemma fin_integrate s dt : fin (sim_integrate s dt).
  Proof.
    unfold sim_integrate. apply fin_bind; [|discriminate]. apply fin_mapS. intros q k v. unfold integrate. apply fin_bind; [unfold integrate_queue; fins|]. intros (a & b & c). discriminate.
  Qed.
  Lemma fin_coords s : fin (update_vehicle_coords s).
  Proof.
    unfold update_vehicle_coords. apply fin_bind; [|discriminate]. apply fin_mapS. intros q k v. apply fin_bind; [|discriminate]. unfold update_coords.
    apply fin_bind; [apply fin_option|]. intros id. apply fin_bind; [apply fin_get_link|]. intros l. destruct (v_lane_change v); discriminate.
  Qed.
End Parts.

Section Routes.
  Context {A : Arith}.
  Variable pick : linkset -> key -> key -> nat -> nat.
  (** No link costs less than nothing. *)
  Definition costs_pos (links : linkset) : Prop := forall k l, sm_get links k = Some l -> (0 <= lk_cost l)%Z.

  Lemma succ_edge links a es b w : successors links a = Ok es -> In (b, w) es -> exists k l, sm_get links k = Some l /\ In b (lk_out l) /\ w = lk_cost l.
  Proof.
    unfold successors. intros H Hin. apply bind_ok in H. destruct H as (la & _ & H). apply bind_ok in H. destruct H as (lanes & _ & H). apply bind_ok in H. destruct H as (ess & Hm & H). injection H as <-.
    apply in_concat in Hin. destruct Hin as (ds & Hds & Hin). revert ess Hm Hds. induction lanes as [|z xs IH]; intros ys H Hy; cbn [mapM] in H; [injection H as <-; destruct Hy|].
    unfold get_link in H. destruct (sm_get links z) as [lz|] eqn:Gz; [|discriminate H]. cbn [of_option bind] in H. apply bind_ok in H. destruct H as (ys' & M & H). injection H as <-. destruct Hy as [<-|Hy]; [|eapply IH; eauto].
    apply in_map_iff in Hin. destruct Hin as (o & Eo & Ho). injection Eo as <- <-. eauto.
  Qed.
  Lemma settles_dijkstra links p start goal : costs_pos links -> settles (fun n => dijkstra n p start (successors links) goal).
  Proof.
    intros C. set (N := nodup key_eq_dec (start :: flat_map lk_out (sm_values links))). set (n := S (S (list_sum (map (deg (successors links)) N)) + length N)).
    assert (forall fuel, n <= fuel -> dijkstra fuel p start (successors links) goal <> OutOfFuel) as K.
    { intros fuel L. apply dijkstra_ends with (N := N); unfold n in L; try lia.
      - intros a es b w H Hin. destruct (succ_edge _ _ _ _ _ H Hin) as (k & l & G & _ & ->). eauto.
      - apply NoDup_nodup.
      - apply nodup_In. left. reflexivity.
      - intros a es b w _ H Hin. destruct (succ_edge _ _ _ _ _ H Hin) as (k & l & G & Hb & _). apply nodup_In. right. apply in_flat_map. exists l. split; [apply in_values; eauto|exact Hb].
      - intros a _. apply fin_successors. }
    exists n, (dijkstra n p start (successors links) goal). split; [apply K; lia|]. intros fuel L. eapply dijkstra_more; [exact L|reflexivity|apply K; lia].
  Qed.
  Lemma settles_reroute links pf : costs_pos links -> settles (fun n => reroute (Env n pick) links pf).
  Proof.
    intros C. unfold reroute. destruct (_ || _); [apply settles_ok|]. apply settles_bind_fin; [apply fin_get_link|]. intros dl _. apply settles_bind_fin; [apply fin_reachable_from_lanes|]. intros ds _. cbn [e_fuel e_pick].
    apply settles_bind; [apply settles_dijkstra; exact C|]. intros [(r & c)|]; [|apply settles_ok]. apply settles_fin. apply fin_bind; [apply fin_matrix|discriminate].
  Qed.
  Lemma settles_origin links pf id : costs_pos links -> settles (fun n => set_origin (Env n pick) links pf id).
  Proof.
    intros C. unfold set_origin. apply (settles_bind (fun n => match mx_get (pf_matrix pf) id with Some _ => Ok (PF id (pf_dst pf) (pf_matrix pf) (pf_paths pf)) | None => reroute (Env n pick) links (PF id (pf_dst pf) (pf_matrix pf) (pf_paths pf)) end) (fun _ => make_paths links)).
    - destruct (mx_get _ _); [apply settles_ok|apply settles_reroute; exact C].
    - intros pf'. apply settles_fin. apply fin_make_paths.
  Qed.

  Lemma costs_upd links k f links' : (forall l l', f l = Ok l' -> lk_cost l' = lk_cost l) -> upd_link links k f = Ok links' -> costs_pos links -> costs_pos links'.
  Proof.
    intros F H C x l' G. destruct (upd_get _ _ _ _ _ _ H G) as [(-> & l & G0 & E)|(N & G0)]; [rewrite (F _ _ E)|]; eauto.
  Qed.
  Lemma remove_cost id l : lk_cost (remove_vehicle id l) = lk_cost l.
  Proof. unfold remove_vehicle. destruct (rposition _ _); reflexivity. Qed.
  Lemma insert_cost vs id l l' : insert_vehicle vs id l = Ok l' -> lk_cost l' = lk_cost l.
  Proof. unfold insert_vehicle. intros H. apply bind_ok in H. destruct H as (v & _ & H). apply bind_ok in H. destruct H as (i & _ & H). injection H as <-. reflexivity. Qed.
  Lemma costs_remove links k id links' : upd_link links k (fun l => Ok (remove_vehicle id l)) = Ok links' -> costs_pos links -> costs_pos links'.
  Proof. apply costs_upd. intros l l' H. injection H as <-. apply remove_cost. Qed.
  Lemma costs_insert links k vs id links' : upd_link links k (insert_vehicle vs id) = Ok links' -> costs_pos links -> costs_pos links'.
  Proof. apply costs_upd. apply insert_cost. Qed.

  Lemma settles_change s id lid dist : costs_pos (s_links s) -> settles (fun n => do_lane_change (Env n pick) s id lid dist).
  Proof.
    intros C. unfold do_lane_change. apply settles_bind_fin; [apply fin_get_vehicle|]. intros v _. apply settles_bind_fin; [destruct (v_link v); [apply fin_upd_link|]; discriminate|]. intros links E.
    assert (costs_pos links) as C1. { destruct (v_link v); [eapply costs_remove; eauto|injection E as <-; exact C]. }
    apply settles_bind_fin; [apply fin_get_link|]. intros l _. apply settles_bind_fin; [apply fin_inverse|]. intros o _. apply settles_bind_fin; [apply fin_option|]. intros ((pos & off) & sl) _.
    unfold set_location. apply settles_bind.
    - apply settles_bind; [apply settles_origin; exact C1|]. intros pf. apply settles_ok.
    - intros v'. apply settles_fin. apply fin_bind; [apply fin_upd_link; intros; apply fin_insert|discriminate].
  Qed.
  Lemma change_costs e s id lid dist s' : do_lane_change e s id lid dist = Ok s' -> costs_pos (s_links s) -> costs_pos (s_links s').
  Proof.
    unfold do_lane_change. intros H C. apply bind_ok in H. destruct H as (v & _ & H). apply bind_ok in H. destruct H as (links & E & H).
    assert (costs_pos links) as C1. { destruct (v_link v); [eapply costs_remove; eauto|injection E as <-; exact C]. }
    apply bind_ok in H. destruct H as (l & _ & H). apply bind_ok in H. destruct H as (o & _ & H). apply bind_ok in H. destruct H as (((pos & off) & sl) & _ & H). apply bind_ok in H. destruct H as (v' & _ & H). apply bind_ok in H. destruct H as (links' & E' & H). injection H as <-.
    eapply costs_insert; eauto.
  Qed.
  Lemma settles_lane_changes s : costs_pos (s_links s) -> settles (fun n => calculate_lane_changes (Env n pick) s).
  Proof.
    intros C. unfold calculate_lane_changes. destruct (nltb _ _); [apply settles_ok|]. apply settles_bind_fin; [apply fin_mapS; intros; apply fin_choose|]. intros (acc & vs) _. cbn [fst snd].
    apply (settles_foldM' (fun s => costs_pos (s_links s)) (fun n => exec_change (Env n pick))); [| |exact C].
    - intros s1 vp C1. unfold exec_change. apply settles_bind_fin; [apply fin_option|]. intros lid _. apply settles_bind; [apply settles_change; exact C1|]. intros s2. apply settles_fin. apply fin_bind; [apply fin_get_vehicle|discriminate].
    - intros n s1 vp s2 C1 H. unfold exec_change in H. apply bind_ok in H. destruct H as (lid & _ & H). apply bind_ok in H. destruct H as (s3 & E & H). apply bind_ok in H. destruct H as (v & _ & H). injection H as <-.
      exact (change_costs _ _ _ _ _ _ E C1).
  Qed.
  Lemma settles_advance s : costs_pos (s_links s) -> settles (fun n => advance_vehicles (Env n pick) s).
  Proof.
    intros C. unfold advance_vehicles. apply settles_bind.
    - apply (settles_mapS (fun st : linkset * (list (key * key) * list key) => costs_pos (fst st)) (fun n => advance_one (Env n pick))); [| |exact C].
      + intros (links & adv & ex) k v C1. cbn [fst] in C1. unfold advance_one. apply settles_bind_fin; [apply fin_option|]. intros lid _. apply settles_bind.
        * unfold advance. destruct (v_route v) as [|id rest]; [apply settles_ok|]. apply settles_bind_fin; [apply fin_get_link|]. intros l _. destruct (nltb _ _); [|apply settles_ok].
          apply settles_bind; [destruct rest; [apply settles_ok|apply settles_origin; exact C1]|]. intros pf. destruct (v_entered v); [apply settles_fin|apply settles_ok]; discriminate.
        * intros (b & v'). apply settles_fin. cbn [fst snd]. destruct b; [|discriminate]. apply fin_bind; [apply fin_upd_link; discriminate|]. intros ls. destruct (v_link v'); discriminate.
      + intros n (links & adv & ex) k v st' v' C1 H. cbn [fst] in C1. unfold advance_one in H. apply bind_ok in H. destruct H as (lid & _ & H). apply bind_ok in H. destruct H as (bv & _ & H).
        destruct (fst bv); [|injection H as <- _; exact C1]. apply bind_ok in H. destruct H as (ls & E & H). destruct (v_link (snd bv)); injection H as <- _; cbn [fst]; eapply costs_remove; eauto.
    - intros ((links & adv & ex) & vs). apply settles_fin. apply fin_bind; [|discriminate]. apply fin_foldM. intros ls vl. apply fin_upd_link. intros. apply fin_insert.
  Qed.
End Routes.
