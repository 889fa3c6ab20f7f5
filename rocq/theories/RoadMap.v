(** * Routing looks at the road map only (P_Map.v) *)
From Coq Require Import List Bool ZArith NArith Arith Lia.
From Verif Require Import Arith Base BaseProofs SlotMap Util Geom Light Accel Net Path Vehicle LinkOps Sim SpecSim SpecMap SlotMapProofs Safe NetInv SimInv AccSafe SimSafe StepSafe OpSafe Evo StepEvo SimProofs StepProofs NetEvo.
Import ListNotations.

Lemma bind_all {X Y} (r : res X) (f g : X -> res Y) : (forall x, f x = g x) -> bind r f = bind r g.
Proof. intros H. destruct r; cbn [bind]; auto. Qed.
Lemma bind_first {X Y} (r r' : res X) (f : X -> res Y) : r = r' -> bind r f = bind r' f.
Proof. intros ->. reflexivity. Qed.
Lemma mapM_all {X Y} (f g : X -> res Y) l : (forall x, f x = g x) -> mapM f l = mapM g l.
Proof. intros H. induction l as [|x l IH]; [reflexivity|]. cbn [mapM]. rewrite H. apply bind_all. intros y. rewrite IH. reflexivity. Qed.
Lemma foldM_all {S1 X} (f g : S1 -> X -> res S1) l : (forall s x, f s x = g s x) -> forall s, foldM f l s = foldM g l s.
Proof. intros H. induction l as [|x l IH]; intros s; [reflexivity|]. cbn [foldM]. rewrite H. apply bind_all. intros t. apply IH. Qed.
Lemma dij_run_all succ1 succ2 goal : (forall k, succ1 k = succ2 k) -> forall n pick1 pick2 t h, (forall i, pick1 i = pick2 i) -> dij_run n pick1 succ1 goal t h = dij_run n pick2 succ2 goal t h.
Proof.
  intros H. induction n as [|n IH]; intros pick1 pick2 t h Hp; [reflexivity|]. cbn [dij_run]. rewrite Hp. destruct (heap_pop _ _) as [((c, node), h')|]; [|reflexivity]. destruct (goal node); [reflexivity|]. destruct (match dt_get t node with Some (_, c0) => Z.ltb c0 c | None => false end).
  - apply IH. intros i. apply Hp.
  - rewrite H. apply bind_all. intros es. apply bind_all. intros th. apply IH. intros i. apply Hp.
Qed.

Section RoadMap.
  Context {A : Arith}.
  Variables a b : @linkset A.
  Hypothesis same : same_map a b.

  Lemma get_same {X} k (f g : link -> res X) : (forall l l', same_on_map l l' -> f l = g l') -> bind (get_link a k) f = bind (get_link b k) g.
  Proof. intros H. specialize (same k). unfold get_link. destruct (sm_get a k), (sm_get b k); cbn [of_option bind]; auto; destruct same. Qed.
  Ltac gs := apply get_same; let l := fresh "l" in let l' := fresh "l'" in intros l l' (Ei & Ec & Ek & Eo & Eg & El).

  Lemma lanes_same l l' : lk_id l = lk_id l' -> lk_group l = lk_group l' -> reachable_lanes l = reachable_lanes l' /\ reachable_from_lanes l = reachable_from_lanes l'.
  Proof. intros E1 E2. unfold reachable_lanes, reachable_from_lanes. rewrite E1, E2. auto. Qed.
  Lemma successors_same k : successors a k = successors b k.
  Proof.
    unfold successors. gs. rewrite (proj1 (lanes_same l l' Ei Eg)). apply bind_all. intros lanes. apply bind_first. apply mapM_all. intros x. clear - same. gs. rewrite Eo, Ek. reflexivity.
  Qed.
  Lemma back_same m k : propagate_back a m k = propagate_back b m k.
  Proof. unfold propagate_back. gs. unfold lk_length. rewrite Eo, Ec. reflexivity. Qed.
  Lemma across_same m ft : propagate_across a m ft = propagate_across b m ft.
  Proof. unfold propagate_across. destruct (mx_get m (snd ft)); [|reflexivity]. gs. unfold lk_length. rewrite Ec. reflexivity. Qed.
  Lemma mstep_same m k : matrix_step a m k = matrix_step b m k.
  Proof.
    unfold matrix_step. gs. unfold group_links. rewrite Eg. rewrite (foldM_all (propagate_back a) (propagate_back b) _ back_same). apply bind_all. intros m1. destruct (lk_group l'); [|reflexivity]. apply bind_all. intros lcs. apply foldM_all. apply across_same.
  Qed.
  Lemma matrix_same d r : calc_lane_matrix a d r = calc_lane_matrix b d r.
  Proof. unfold calc_lane_matrix. apply foldM_all. apply mstep_same. Qed.
  Lemma inner_same mx d : forall room pre id dist, make_paths_inner room a mx d pre id dist = make_paths_inner room b mx d pre id dist.
  Proof.
    induction room as [|room IH]; intros pre id dist; cbn [make_paths_inner]; destruct (mx_get mx id); try reflexivity. destruct (nltb dist PLAN_DIST); [|reflexivity]. gs. unfold lk_length. rewrite Eo, Ec. apply bind_first. apply mapM_all. intros x. apply IH.
  Qed.
  Lemma paths_same pf : make_paths a pf = make_paths b pf.
  Proof. unfold make_paths. rewrite inner_same. apply bind_all. intros r0. gs. rewrite El. apply bind_first. apply mapM_all. intros x. apply inner_same. Qed.
  Lemma reroute_same e1 e2 pf : ties_by_map e1 e2 -> reroute e1 a pf = reroute e2 b pf.
  Proof.
    intros (Ef & Ti). unfold reroute. destruct (key_eqb _ _ || key_eqb _ _); [reflexivity|]. gs. rewrite (proj2 (lanes_same l l' Ei Eg)). apply bind_all. intros dsts.
    unfold dijkstra. rewrite Ef. rewrite (dij_run_all (successors a) (successors b) (fun k => key_mem k dsts) successors_same (e_fuel e2) (e_pick e1 a (pf_src pf) (pf_dst pf)) (e_pick e2 b (pf_src pf) (pf_dst pf))) by (intros i; apply Ti; exact same).
    apply bind_all. intros [(route, c)|]; [|reflexivity]. rewrite matrix_same. reflexivity.
  Qed.
  Lemma destination_same e1 e2 pf d : ties_by_map e1 e2 -> pf_set_destination e1 a pf d = pf_set_destination e2 b pf d.
  Proof. intros T. unfold pf_set_destination. rewrite (reroute_same e1 e2 _ T). apply bind_all. apply paths_same. Qed.
  Lemma origin_same e1 e2 pf k : ties_by_map e1 e2 -> set_origin e1 a pf k = set_origin e2 b pf k.
  Proof. intros T. unfold set_origin. cbn [pf_matrix]. destruct (mx_get (pf_matrix pf) k); cbn [bind]; [apply paths_same|]. rewrite (reroute_same e1 e2 _ T). apply bind_all. apply paths_same. Qed.
  Lemma location_same e1 e2 v k pos lc : ties_by_map e1 e2 -> set_location e1 a v k pos lc = set_location e2 b v k pos lc.
  Proof. intros T. unfold set_location. rewrite (origin_same e1 e2 _ _ T). reflexivity. Qed.
  Lemma set_dest_same e1 e2 v d : ties_by_map e1 e2 -> set_destination e1 a v d = set_destination e2 b v d.
  Proof. intros T. unfold set_destination. rewrite (destination_same e1 e2 _ _ T). reflexivity. Qed.
  Lemma coords_same v : update_coords a v = update_coords b v.
  Proof. unfold update_coords. apply bind_all. intros id. gs. rewrite Ec. reflexivity. Qed.
End RoadMap.

Section MapKept.
  Context {A : Arith}.
  Definition road (l : link) := (lk_id l, lk_curve l, lk_cost l, lk_out l, lk_group l, lk_changes l).
  Lemma road_map l l' : road l' = road l -> same_on_map l l'.
  Proof. unfold road, same_on_map. intros E. injection E as -> -> -> -> -> ->. auto 10. Qed.
  Lemma same_map_refl x : same_map x x.
  Proof. intros k. destruct (sm_get x k); [apply road_map|]; auto. Qed.
  Lemma same_on_trans l1 l2 l3 : same_on_map l1 l2 -> same_on_map l2 l3 -> same_on_map l1 l3.
  Proof. unfold same_on_map. intros (-> & -> & -> & -> & -> & ->) (-> & -> & -> & -> & -> & ->). auto 10. Qed.
  Lemma same_map_trans x y z : same_map x y -> same_map y z -> same_map x z.
  Proof. intros H1 H2 k. specialize (H1 k). specialize (H2 k). destruct (sm_get x k), (sm_get y k), (sm_get z k); auto; try destruct H1; try destruct H2. eapply same_on_trans; [split; eauto|split; eauto]. Qed.
  Lemma same_map_sym x y : same_map x y -> same_map y x.
  Proof. intros H k. specialize (H k). destruct (sm_get x k), (sm_get y k); auto. destruct H as (E1 & E2 & E3 & E4 & E5 & E6). split; auto 10. Qed.
  Lemma removed_road k l : road (remove_vehicle k l) = road l.
  Proof. destruct (remove_vehicle_set k l) as (vs & ->). reflexivity. Qed.
  Lemma inserted_road vs k l l' : insert_vehicle vs k l = Ok l' -> road l' = road l.
  Proof. intros H. destruct (insert_vehicle_set _ _ _ _ H) as (x & ->). reflexivity. Qed.
  Lemma static_road l l' : lk_static l = lk_static l' -> road l = road l'.
  Proof. unfold lk_static, road. intros H. injection H as E1 E2 E3 E4 E5 E6 E7 E8 E9. congruence. Qed.

  Lemma map_kept e s o s' : Inv s -> keeps_map o -> exec e s o = Ok s' -> same_map (s_links s) (s_links s').
  Proof.
    intros I Ko H.
    assert (forall k l', sm_get (s_links s') k = Some l' -> exists l, sm_get (s_links s) k = Some l /\ road l' = road l) as K.
    { intros k l' G. assert (s_links s' = s_links s -> exists l, sm_get (s_links s) k = Some l /\ road l' = road l) as Z by (intros E; rewrite E in G; eauto).
      destruct o; simpl in H; try destruct Ko.
      - unfold add_link_convergance in H. destruct (key_eqb _ _); [injection H as <-; auto|].
        destruct (sm_get _ a); [|injection H as <-; auto]. destruct (sm_get _ b); [|injection H as <-; auto].
        bok H x Hx. destruct x; [|injection H as <-; auto]. bok H y Hy. injection H as <-. simpl in G.
        exact (fold_keeps road fst (fun kc l => Ok (add_conflict l (snd kc))) _ _ _ _ _ Hy ltac:(intros ? ? ? E; injection E as <-; reflexivity) G).
      - bok H x Hx. injection H as <-. auto.
      - bok H x Hx. destruct x as [s1 k1]. injection H as <-. unfold add_vehicle in Hx. bok Hx v0 Hv0. bok Hx v Hv. bok Hx links Hl.
        injection Hx as <- <-. simpl in G. exact (upd_keeps road _ _ _ _ _ _ Hl (fun l l1 E => inserted_road _ _ _ _ E) G).
      - unfold sim_remove_vehicle in H. destruct (sm_get _ v) as [v0|]; [|injection H as <-; auto]. simpl in H.
        destruct (v_link v0); [|injection H as <-; auto]. bok H x Hx. injection H as <-. simpl in G.
        refine (upd_keeps road _ _ _ _ _ _ Hx _ G). intros ? ? E. injection E as <-. apply removed_road.
      - unfold randomise_velocity_adjusts in H. bok H x Hx. injection H as <-. auto.
      - injection H as <-. apply Z. unfold set_vehicle_frozen. destruct frozen, (position _ _); auto.
      - unfold set_vehicle_destination in H. bok H x Hx. bok H y Hy. injection H as <-. auto.
      - unfold set_link_control in H. bok H x Hx. injection H as <-. simpl in G.
        refine (upd_keeps road _ _ _ _ _ _ Hx _ G). intros ? ? E. injection E as <-. reflexivity.
      - unfold do_lane_change in H. bok H x0 Hx0. bok H x1 Hx1. bok H x2 Hx2. bok H x3 Hx3. bok H x4 Hx4. destruct x4 as [[pos off] sl].
        bok H x5 Hx5. bok H x6 Hx6. injection H as <-. simpl in G.
        destruct (upd_keeps road _ _ _ _ _ _ Hx6 (fun l l1 E => inserted_road _ _ _ _ E) G) as (l1 & G1 & E1).
        destruct (v_link x0); [|injection Hx1 as <-; eauto].
        destruct (upd_keeps road _ _ _ _ _ _ Hx1 ltac:(intros ? ? E; injection E as <-; apply removed_road) G1) as (l2 & G2 & E2). exists l2. split; congruence.
      - destruct (same_net_get _ _ _ _ (step_same_net _ _ _ _ I H) G) as (l0 & G0 & E). exists l0. split; auto. symmetry. apply static_road. auto. }
    intros k. destruct (sm_get (s_links s') k) as [l'|] eqn:G'.
    - destruct (K k l' G') as (l & -> & E). apply road_map. exact E.
    - destruct (sm_get (s_links s) k) as [l|] eqn:G; [|exact Logic.I]. assert (sm_mem (s_links s') k = true) as M by (eapply links_stay; eauto; apply sm_mem_get; eauto). apply sm_mem_get in M. destruct M as (x & M). congruence.
  Qed.
End MapKept.
