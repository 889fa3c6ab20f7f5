(** * Where the network lies on the map does not matter (C83) *)
From Coq Require Import List Bool ZArith NArith Arith Lia Reals Lra FunctionalExtensionality.
From Verif Require Import Arith RealArith Base BaseProofs SlotMap Util Geom Light Accel Net Path Vehicle LinkOps Sim SpecSim SlotMapProofs Safe NetInv SimInv OpSafe Evo StepEvo RFacts LineProofs RaExample P_Coord P_Lanes SpecPlace PlaceGeom PlaceNet PlaceSim.
Import ListNotations.
Local Open Scope R_scope.

Lemma reachable_wf (s : @sim RA) : reachable s -> wf (s_links s).
Proof. intros Rc k l G. exact (lo_segs _ _ _ (nk_link _ (st_net _ _ _ (i_st _ (reachable_Inv _ Rc))) _ _ G)). Qed.

(** The same calls on the moved network give the same result there: the same panic, or the same state with everything drawn at the moved place. *)
Theorem C83_place :
  forall (m : motion) (e1 e2 : @env RA) (ops : list (@op RA)), rigid m -> same_choices m e1 e2 ->
    run e2 (@sim_new RA) (map (moved_call m) ops) = outcome (moved_sim m) (run e1 (@sim_new RA) ops).
Proof.
  intros m e1 e2 ops Hr Se. change (@sim_new RA) with (moved_sim m (@sim_new RA)) at 1. assert (@reachable RA (@sim_new RA)) as Rc by constructor. revert Rc. generalize (@sim_new RA) as s.
  induction ops as [|o ops IH]; intros s Rc; [reflexivity|]. cbn [map run]. rewrite (exec_moved m Hr e1 e2 s o Se (reachable_wf s Rc)), bind_outcome, outcome_bind. apply bind_ext. intros s' E. apply IH. exact (reach_call _ _ _ _ Rc E).
Qed.

(** ** Going back *)
Definition back (m : motion) : motion :=
  Motion (mo_flip m) (mo_cos m) (- side m * mo_sin m) (- (mo_cos m * mo_x m + mo_sin m * mo_y m)) (side m * (mo_sin m * mo_x m - mo_cos m * mo_y m)).
Lemma back_side m x : sided (back m) (sided m x) = x.
Proof. unfold sided, side, back. cbn [mo_flip]. destruct (mo_flip m); ring. Qed.
Lemma back_rigid m : rigid m -> rigid (back m).
Proof. unfold rigid, back, side. cbn [mo_cos mo_sin]. intros H. transitivity (mo_cos m * mo_cos m + mo_sin m * mo_sin m); [|exact H]. destruct (mo_flip m); ring. Qed.
Lemma back_moved m p : rigid m -> moved (back m) (moved m p) = p.
Proof.
  intros H. unfold rigid in H. destruct p as [x y]. unfold moved, turned, sided, back, side. cbn [px py mo_flip mo_cos mo_sin mo_x mo_y].
  assert (forall e c s a b x y : R, e * e = 1 -> c * c + s * s = 1 -> c * (c * x - s * (e * y) + a) - - e * s * (e * (s * x + c * (e * y) + b)) + - (c * a + s * b) = x) as K1.
  { intros e c s a b u v E1 E. transitivity ((c * c + e * e * (s * s)) * u + (e * e - 1) * (s * c * e * v + s * b)); [ring|rewrite E1]. replace (1 - 1) with 0 by ring. rewrite Rmult_1_l, E. ring. }
  assert (forall e c s a b x y : R, e * e = 1 -> c * c + s * s = 1 -> - e * s * (c * x - s * (e * y) + a) + c * (e * (s * x + c * (e * y) + b)) + e * (s * a - c * b) = y) as K2.
  { intros e c s a b u v E1 E. transitivity (e * e * (c * c + s * s) * v); [ring|rewrite E1, E; ring]. }
  destruct (mo_flip m); f_equal; solve [apply (K1 (-1) _ _ _ _ x y); [ring|exact H]|apply (K2 (-1) _ _ _ _ x y); [ring|exact H]|apply (K1 1 _ _ _ _ x y); [ring|exact H]|apply (K2 1 _ _ _ _ x y); [ring|exact H]].
Qed.
Lemma back_links m L : rigid m -> sm_map (moved_link (back m)) (sm_map (moved_link m) L) = L.
Proof.
  intros H. destruct L as [sl fr]. unfold sm_map. cbn [sm_slots sm_free]. f_equal. rewrite map_map. rewrite <- (map_id sl) at 2. apply map_ext. intros [sv so]. cbn [s_ver s_val]. f_equal. destruct so as [l|]; [|reflexivity]. cbn [option_map]. f_equal.
  destruct l as [a b c d e f g h i j k n o]. unfold moved_link. cbn [lk_id lk_group lk_curve lk_in lk_out lk_changes lk_conflicts lk_last lk_limit lk_cost lk_vehicles lk_control lk_active lc_scale lc_length lc_segments]. f_equal.
  { destruct b as [[g1 g2 g3]|]; [|reflexivity]. cbn [option_map]. unfold moved_group. cbn [g_links g_projs g_mask]. do 2 f_equal. rewrite map_map. rewrite <- (map_id g2) at 2. apply map_ext. intros [p1 p2 p3 p4]. unfold moved_table. cbn [pj_src pj_dst pj_inv pj_samples]. f_equal.
    rewrite map_map. rewrite <- (map_id p4) at 2. apply map_ext. intros [q1 q2]. cbn [ps_pos ps_lat]. rewrite back_side. reflexivity. }
  destruct c as [c1 c2 c3]. cbn [lc_scale lc_length lc_segments]. f_equal.
  rewrite map_map. rewrite <- (map_id c3) at 2. apply map_ext. intros [p0 p1 p2]. cbn [q0 q1 q2]. rewrite !back_moved by exact H. reflexivity.
Qed.
(** Whatever breaks the ties on the original map, something breaks them in the same way on the other. *)
Lemma choices_exist m (e1 : @env RA) : rigid m -> exists e2, same_choices m e1 e2.
Proof.
  intros H. exists (Env (e_fuel e1) (fun L => e_pick e1 (sm_map (moved_link (back m)) L))). split; [reflexivity|]. intros L src dst n. cbn [e_pick]. rewrite back_links by exact H. reflexivity.
Qed.

(** What can be seen of each vehicle: all is the same, except that it is drawn at the moved place. *)
Lemma map_keys {V} (h : V -> V) x : sm_keys (sm_map h x) = sm_keys x.
Proof.
  unfold sm_keys, sm_entries, sm_map. cbn [sm_slots]. generalize O. induction (sm_slots x) as [|s l IH]; intros i; [reflexivity|]. cbn [map entries_from s_val]. destruct (s_val s); cbn [option_map map fst s_ver]; rewrite IH; reflexivity.
Qed.
Theorem C83_vehicles :
  forall (m : motion) (ops : list (@op RA)) (s : @sim RA), rigid m -> history (@sim_new RA) ops s ->
    exists s' : @sim RA, history (@sim_new RA) (map (moved_call m) ops) s' /\ sm_keys (s_vehicles s') = sm_keys (s_vehicles s) /\ sm_keys (s_links s') = sm_keys (s_links s) /\
      (forall k (v : @vehicle RA), vehicle_at s k = Some v -> exists v' : @vehicle RA, vehicle_at s' k = Some v' /\
        v_link v' = v_link v /\ v_pos v' = v_pos v /\ v_vel v' = v_vel v /\ v_route v' = v_route v /\ v_destination v' = v_destination v /\ am_get (v_acc v') = am_get (v_acc v) /\
        v_world_pos v' = moved m (v_world_pos v) /\ v_world_dir v' = turned m (v_world_dir v)) /\
      (forall k (l : @link RA), link_at s k = Some l -> exists l' : @link RA, link_at s' k = Some l' /\
        lk_length l' = lk_length l /\ lk_vehicles l' = lk_vehicles l /\ lk_control l' = lk_control l /\
        forall x, sm_pos (sample_centre (lk_curve l') x) = moved m (sm_pos (sample_centre (lk_curve l) x)) /\ sm_tan (sample_centre (lk_curve l') x) = turned m (sm_tan (sample_centre (lk_curve l) x))).
Proof.
  intros m ops s Hr Hh. exists (moved_sim m s). assert (@reachable RA (@sim_new RA)) as R0 by constructor. split; [|split; [|split; [|split]]].
  - change (@sim_new RA) with (moved_sim m (@sim_new RA)). revert R0. induction Hh as [t|e t o t1 ops t2 E Hh IH]; intros Rc; [constructor|]. cbn [map]. destruct (choices_exist m e Hr) as (e2 & Se). apply (hist_call e2 _ _ (moved_sim m t1)).
    + rewrite (exec_moved m Hr e e2 t o Se (reachable_wf t Rc)), E. reflexivity.
    + apply IH. exact (reach_call _ _ _ _ Rc E).
  - cbn [moved_sim s_vehicles]. apply map_keys.
  - cbn [moved_sim s_links]. apply map_keys.
  - intros k v G. exists (moved_vehicle m v). unfold vehicle_at in *. cbn [moved_sim s_vehicles]. rewrite sm_get_map, G. repeat split.
  - intros k l G. exists (moved_link m l). unfold link_at in *. cbn [moved_sim s_links]. rewrite sm_get_map, G. do 4 (split; [reflexivity|]). intros x.
    pose proof (reachable_wf s (history_reachable _ _ _ Hh R0) k l G) as W. change (lk_curve (moved_link m l)) with (mc m (lk_curve l)). rewrite (centre_moved m Hr _ _ W). split; reflexivity.
Qed.

(** The routes offered are the same. *)
Lemma succ_moved m L : route_succ (sm_map (moved_link m) L) = route_succ L.
Proof.
  apply functional_extensionality. intros id. unfold route_succ. rewrite get_link_moved, bind_outcome. apply bind_ext. intros l _. rewrite lanes_moved. apply bind_ext. intros lanes _. apply bind_left. apply mapM_ext. intros k _. rewrite get_link_moved, bind_outcome. reflexivity.
Qed.
Theorem C83_routes :
  forall (m : motion) (e1 e2 : @env RA) (s : @sim RA), same_choices m e1 e2 -> all_routes e2 (moved_sim m s) = all_routes e1 s.
Proof.
  intros m e1 e2 s (Ef & _). unfold all_routes. cbn [moved_sim s_links]. rewrite map_values. apply bind_left.
  assert (filter (fun l : @link RA => match lk_in l with [] => true | _ => false end) (map (moved_link m) (sm_values (s_links s))) = map (moved_link m) (filter (fun l => match lk_in l with [] => true | _ => false end) (sm_values (s_links s)))) as ->.
  { induction (sm_values (s_links s)) as [|l ls IH]; [reflexivity|]. cbn [map filter]. change (lk_in (moved_link m l)) with (lk_in l). destruct (lk_in l); cbn [map]; rewrite IH; reflexivity. }
  rewrite mapM_map. apply mapM_ext. intros l _. unfold routes_from. change (lk_id (moved_link m l)) with (lk_id l). rewrite get_link_moved, bind_outcome. apply bind_ext. intros l1 _. rewrite lanes_moved. apply bind_ext. intros f _. rewrite <- Ef, succ_moved. apply bind_ext. intros ks _. apply bind_left.
  induction (f ++ ks) as [|k r IH]; [reflexivity|]. cbn [filterM]. rewrite get_link_moved, bind_outcome, IH. destruct (get_link (s_links s) k); reflexivity.
Qed.

(** Moving a curve is what one expects of the curves the library offers: its points are moved. *)
Theorem C83_curves :
  forall (m : motion) (a b c d : @pt RA), rigid m ->
    moved_curve m (ls_curve (ls_from_ends a b)) = ls_curve (ls_from_ends (moved m a) (moved m b)) /\
    moved_curve m (qb_curve (QBez a b c)) = qb_curve (QBez (moved m a) (moved m b) (moved m c)) /\
    moved_curve m (cb_curve (CBez a b c d)) = cb_curve (CBez (moved m a) (moved m b) (moved m c) (moved m d)).
Proof.
  intros m a b c d Hr.
  assert (forall (dt : @num RA -> @pt RA) bo, (fun t => turned m (default_dt2 dt bo t)) = default_dt2 (fun t => turned m (dt t)) bo) as D.
  { intros dt bo. apply functional_extensionality. intros t. unfold default_dt2, default_dt. rewrite ?(t_sub m), ?(t_div m), ?(t_mul m), ?(t_scale m). reflexivity. }
  split; [|split].
  - unfold moved_curve, ls_curve, ls_from_ends. cbn [c_sample c_bounds c_dt c_dt2 ls_start ls_tangent ls_length]. rewrite (m_sub m), (t_mag m Hr), (t_div m). change (@nnan RA) with (fun _ : R => false). cbv beta iota.
    f_equal; [apply functional_extensionality; intros t; unfold ls_sample; cbn [ls_start ls_tangent]; rewrite (t_scale m), (m_add m); reflexivity|rewrite D; reflexivity].
  - unfold moved_curve, qb_curve. cbn [c_sample c_bounds c_dt c_dt2]. f_equal; apply functional_extensionality; intros t; symmetry; [exact (q_sample m (QBez a b c) t)|exact (q_dt m (QBez a b c) t)|exact (q_dt2 m (QBez a b c) t)].
  - unfold moved_curve, cb_curve. cbn [c_sample c_bounds c_dt c_dt2].
    assert ((fun t => turned m (cb_dt (CBez a b c d) t)) = cb_dt (CBez (moved m a) (moved m b) (moved m c) (moved m d))) as E.
    { apply functional_extensionality. intros t. unfold cb_dt. cbn [b0 b1 b2 b3]. unfold vadd, vscale, moved, turned, sided, n1. cbn [px py]. unR. f_equal; match goal with |- ?x = ?y => change (@eq R x y) end; ring. }
    f_equal; [|exact E|rewrite D, E; reflexivity].
    apply functional_extensionality. intros t. unfold cb_sample. cbn [b0 b1 b2 b3]. unfold vadd, vscale, moved, turned, sided, n1. cbn [px py]. unR. f_equal; match goal with |- ?x = ?y => change (@eq R x y) end; ring.
Qed.

(** A quarter turn to the left and a shift; the two lanes of C65 and their vehicle, for any further steps. *)
Definition quarter : motion := Motion false 0 1 100 200.
Example C83_example :
  rigid quarter /\ moved quarter (@Pt RA 30 3) = @Pt RA 97 230 /\ turned quarter (@Pt RA 1 0) = @Pt RA 0 1 /\
  exists (s : @sim RA) (l1 : @link RA) (v : @vehicle RA), run ra_env (@sim_new RA) lanes_ops = Ok s /\ link_at s lane_a = Some l1 /\ straight (lk_curve l1) (@Pt RA 0 0) (@Pt RA 1 0) /\ vehicle_at s only_one = Some v /\ v_link v = Some lane_a /\
    exists e2, same_choices quarter ra_env e2 /\ run e2 (@sim_new RA) (map (moved_call quarter) lanes_ops) = Ok (moved_sim quarter s) /\
      map (moved_call quarter) lanes_ops <> lanes_ops /\
      exists l2 : @link RA, link_at (moved_sim quarter s) lane_a = Some l2 /\ forall x : R, 0 <= x <= lk_length l1 -> sm_pos (sample_centre (lk_curve l2) x) = @Pt RA 100 (200 + x).
Proof.
  assert (rigid quarter) as Hr by (unfold rigid, quarter; cbn [mo_cos mo_sin]; lra). split; [exact Hr|].
  split; [unfold moved, turned, sided, side, quarter; cbn [px py mo_flip mo_cos mo_sin mo_x mo_y]; f_equal; cbn; lra|]. split; [unfold turned, sided, side, quarter; cbn [px py mo_flip mo_cos mo_sin]; f_equal; cbn; lra|].
  destruct lanes_ok as (s & l1 & l2 & l3 & v & Hs & Ks & G1 & G2 & G3 & C1 & C2 & O1 & O2 & T1 & T2 & Ng & Ro & Kl & Gv & Lv). exists s, l1, v. do 5 (split; [assumption|]).
  destruct (choices_exist quarter ra_env Hr) as (e2 & Se). exists e2. split; [exact Se|]. split; [rewrite (C83_place quarter ra_env e2 lanes_ops Hr Se), Hs; reflexivity|]. split.
  - cbn [map lanes_ops moved_call]. intros E. apply (f_equal (fun l : list (@op RA) => match l with OAddLink c _ :: _ => (px (c_sample c (@n0 RA)) : R) | _ => 0 end)) in E. cbn in E. unfold sided, side in E. cbn in E. lra.
  - exists (moved_link quarter l1). split; [unfold link_at in *; cbn [moved_sim s_links]; rewrite sm_get_map, G1; reflexivity|]. intros x _.
    pose proof (history_reachable _ _ _ (run_history _ _ _ _ Hs) (@reach_new RA)) as Rc. pose proof (reachable_wf s Rc lane_a l1 G1) as W. change (lk_curve (moved_link quarter l1)) with (mc quarter (lk_curve l1)). rewrite (centre_moved quarter Hr _ _ W).
    destruct (T1 x) as (E & _). unfold sample_centre. destruct (lc_seg (lk_curve l1) x) as (q, t). cbn [fst snd] in E. cbn [sm_pos ms]. rewrite E. unfold on_line, moved, turned, sided, side, quarter. cbn [px py mo_flip mo_cos mo_sin mo_x mo_y]. f_equal; cbn; lra.
Qed.

Print Assumptions C83_place.
Print Assumptions C83_vehicles.
Print Assumptions C83_routes.
Print Assumptions C83_curves.
