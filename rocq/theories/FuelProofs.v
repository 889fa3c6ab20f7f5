(** * The result of a call does not depend on the bound on loops, nor, without destinations, on how ties are broken *)
From Coq Require Import List Bool ZArith NArith Arith Lia.
From Verif Require Import Arith Base BaseProofs SlotMap SlotMapProofs Util Geom Light Accel Net Path Vehicle LinkOps Sim SpecSim Safe NetInv SimInv StepSafe SimSafe OpSafe Evo StepEvo.
Import ListNotations.

(** The first computation was cut off, or both agree. *)
Definition fle {X} (a b : res X) : Prop := a = OutOfFuel \/ a = b.
Lemma fle_refl {X} (a : res X) : fle a a.
Proof. right. reflexivity. Qed.
Lemma fle_out {X} (a : res X) : fle OutOfFuel a.
Proof. left. reflexivity. Qed.
Lemma fle_bind_ok {X Y} (a b : res X) (f g : X -> res Y) : fle a b -> (forall x, a = Ok x -> fle (f x) (g x)) -> fle (bind a f) (bind b g).
Proof. intros [->| <-] H; [left; reflexivity|]. destruct a as [x|p|]; [exact (H x eq_refl)|right; reflexivity|left; reflexivity]. Qed.
Lemma fle_bind {X Y} (a b : res X) (f g : X -> res Y) : fle a b -> (forall x, fle (f x) (g x)) -> fle (bind a f) (bind b g).
Proof. intros H K. apply fle_bind_ok; auto. Qed.
Lemma fle_foldM {S X} (f g : S -> X -> res S) l : (forall s x, fle (f s x) (g s x)) -> forall s, fle (foldM f l s) (foldM g l s).
Proof. intros H. induction l as [|x l IH]; intros s; [apply fle_refl|]. cbn [foldM]. apply fle_bind; [apply H|exact IH]. Qed.
Lemma fle_mapM {X Y} (f g : X -> res Y) l : (forall x, fle (f x) (g x)) -> fle (mapM f l) (mapM g l).
Proof. intros H. induction l as [|x l IH]; [apply fle_refl|]. cbn [mapM]. apply fle_bind; [apply H|]. intros y. apply fle_bind; [exact IH|]. intros ys. apply fle_refl. Qed.
Lemma fle_allM {X} (f g : X -> res bool) l : (forall x, fle (f x) (g x)) -> fle (allM f l) (allM g l).
Proof. intros H. induction l as [|x l IH]; [apply fle_refl|]. cbn [allM]. apply fle_bind; [apply H|]. intros [|]; [exact IH|apply fle_refl]. Qed.
Lemma fle_slots {V S} (f g : S -> key -> V -> res (S * V)) l : forall i s, (forall s k v, In (k, v) (entries_from i l) -> fle (f s k v) (g s k v)) -> fle (slots_mapS f i l s) (slots_mapS g i l s).
Proof.
  induction l as [|sl l IH]; intros i s H; [apply fle_refl|]. cbn [slots_mapS entries_from] in *. destruct (s_val sl) as [v|].
  - apply fle_bind; [apply H; left; reflexivity|]. intros sv. apply fle_bind; [apply IH; intros s0 k w Hi; apply H; right; exact Hi|]. intros r. apply fle_refl.
  - apply fle_bind; [apply IH; exact H|]. intros r. apply fle_refl.
Qed.
Lemma fle_mapS {V S} (f g : S -> key -> V -> res (S * V)) m s : (forall s k v, sm_get m k = Some v -> fle (f s k v) (g s k v)) -> fle (sm_mapS f m s) (sm_mapS g m s).
Proof. intros H. unfold sm_mapS. apply fle_bind; [apply fle_slots; intros s0 k v Hi; apply H, in_entries, Hi|]. intros r. apply fle_refl. Qed.

Create HintDb fles.
Ltac fles := repeat first
  [ match goal with |- fle ?a ?a => apply fle_refl end
  | apply fle_out
  | solve [eauto with fles]
  | apply fle_bind; [|intros ?]
  | apply fle_foldM; intros ? ?
  | apply fle_mapM; intros ?
  | apply fle_allM; intros ?
  | match goal with |- fle (match ?x with _ => _ end) (match ?x with _ => _ end) => destruct x end
  | match goal with |- fle (if ?x then _ else _) (if ?x then _ else _) => destruct x end ].

Section Fuel.
  Context {A : Arith}.

  Lemma f_outer c dist et ep : forall n m s, n <= m -> fle (eq_outer n c dist et ep s) (eq_outer m c dist et ep s).
  Proof. induction n as [|n IH]; intros m s L; [apply fle_out|]. destruct m as [|m]; [lia|]. cbn [eq_outer]. destruct (nltb dist (i_max (e_dists s))); [apply IH; lia|apply fle_refl]. Qed.
  Lemma f_points n m c d : n <= m -> fle (equidistant_points_along_curve n c d) (equidistant_points_along_curve m c d).
  Proof. intros L. unfold equidistant_points_along_curve. apply fle_bind; [apply f_outer; exact L|]. intros x. apply fle_refl. Qed.
  Lemma f_link n m k c lim : n <= m -> fle (link_new n k c lim) (link_new m k c lim).
  Proof. intros L. unfold link_new, lc_new, lc_with_step. apply fle_bind; [apply fle_bind; [apply f_points; exact L|intros x; apply fle_refl]|]. intros x. apply fle_refl. Qed.
  Lemma f_samples a b : forall n m i x, n <= m -> fle (proj_samples n a b i x) (proj_samples m a b i x).
  Proof.
    induction n as [|n IH]; intros m i x L; [apply fle_out|]. destruct m as [|m]; [lia|]. cbn [proj_samples]. destruct (nltb _ _); [|apply fle_refl]. apply fle_bind; [apply fle_refl|]. intros [p|]; [|apply fle_refl].
    apply fle_bind; [apply IH; lia|]. intros l. apply fle_refl.
  Qed.
  Lemma f_group n m ls mask : n <= m -> fle (group_new n ls mask) (group_new m ls mask).
  Proof.
    intros L. unfold group_new. destruct (Nat.ltb _ _); [apply fle_refl|]. apply fle_bind; [|intros x; apply fle_refl]. apply fle_mapM. intros x. unfold mk_projection. apply fle_bind; [apply f_samples; exact L|]. intros y. apply fle_refl.
  Qed.
  Lemma f_cpl a b : forall n m x o mn mx, n <= m -> fle (cpl_loop n a b x o mn mx) (cpl_loop m a b x o mn mx).
  Proof.
    induction n as [|n IH]; intros m x o mn mx L; [apply fle_out|]. destruct m as [|m]; [lia|]. cbn [cpl_loop]. destruct (nltb x (lc_length a)); [|apply fle_refl]. apply fle_bind; [apply fle_refl|]. intros y. cbv zeta.
    match goal with |- fle (if ?c then _ else _) _ => destruct c end; apply IH; lia.
  Qed.
  Lemma f_cpl_new n m a b : n <= m -> fle (cpl_new n a b) (cpl_new m a b).
  Proof. intros L. unfold cpl_new. apply fle_bind; [apply f_cpl; exact L|]. intros x. apply fle_refl. Qed.
  Lemma f_cpoint n m a b : n <= m -> fle (cpoint_new n a b) (cpoint_new m a b).
  Proof. intros L. unfold cpoint_new. apply fle_bind; [apply f_cpl_new; exact L|]. intros [x|]; [|apply fle_refl]. apply fle_bind; [apply f_cpl_new; exact L|]. intros y. apply fle_refl. Qed.
  Lemma f_pass lc : forall n m o, n <= m -> fle (pass_loop n lc o) (pass_loop m lc o).
  Proof. induction n as [|n IH]; intros m o L; [apply fle_out|]. destruct m as [|m]; [lia|]. cbn [pass_loop]. cbv zeta. destruct (nltb _ _); [apply fle_refl|apply IH; lia]. Qed.
  Lemma f_scan {S} (f g : S -> relveh -> res (S * bool)) vs len route p mp ids : (forall s r, fle (f s r) (g s r)) -> forall s, fle (scan f vs len route p mp ids s) (scan g vs len route p mp ids s).
  Proof.
    intros H. induction ids as [|id ids IH]; intros s; [apply fle_refl|]. cbn [scan]. apply fle_bind; [apply fle_refl|]. intros v. destruct (nltb _ _); [apply fle_refl|]. destruct (get_route v (fst route)) as [(l, st)|]; [|apply IH].
    destruct (negb _); [apply IH|]. cbv zeta.
    assert (fle (bind (f s (RV id v (fst route) p)) (fun sb => if snd sb then scan f vs len route p mp ids (fst sb) else Ok (fst sb, Stop))) (bind (g s (RV id v (fst route) p)) (fun sb => if snd sb then scan g vs len route p mp ids (fst sb) else Ok (fst sb, Stop)))) as K.
    { apply fle_bind; [apply H|]. intros sb. destruct (snd sb); [apply IH|apply fle_refl]. }
    destruct st; try exact K; destruct (nltb _ _); [apply fle_refl|exact K|apply fle_refl|exact K].
  Qed.
  Lemma f_process {S} (f g : S -> relveh -> res (S * bool)) links vs : (forall s r, fle (f s r) (g s r)) -> forall n m l route p skip s, n <= m ->
    fle (process_vehicles f n links vs l route p skip s) (process_vehicles g m links vs l route p skip s).
  Proof.
    intros H. induction n as [|n IH]; intros m l route p skip s L; [apply fle_out|]. destruct m as [|m]; [lia|]. cbn [process_vehicles]. destruct (negb _); [apply fle_refl|]. cbv zeta. apply fle_bind; [apply f_scan; exact H|].
    intros se. destruct (snd se); [apply fle_refl|]. destruct (nleb _ _); [apply fle_refl|]. apply fle_foldM. intros s0 id. apply fle_bind; [apply fle_refl|]. intros l'. apply IH. lia.
  Qed.
  Lemma f_gap links vs : forall n m l p t q route mv, n <= m -> fle (check_gap n links vs l p t q route mv) (check_gap m links vs l p t q route mv).
  Proof.
    induction n as [|n IH]; intros m l p t q route mv L; [apply fle_out|]. destruct m as [|m]; [lia|]. cbn [check_gap]. cbv zeta. apply fle_bind; [apply fle_refl|]. intros ids. apply fle_bind; [apply fle_refl|]. intros [b|]; [apply fle_refl|].
    destruct (nltb _ _); [apply fle_refl|]. apply fle_allM. intros id. apply fle_bind; [apply fle_refl|]. intros l'. apply IH. lia.
  Qed.
  Lemma f_enter n m links vs l r q pr log : n <= m -> fle (can_enter n links vs l r q pr log) (can_enter m links vs l r q pr log).
  Proof.
    intros L. unfold can_enter. apply fle_bind; [|intros o; apply fle_refl]. generalize (rotated_range (length (lk_conflicts l)) (read_last log (lk_id l) (lk_last l))) as idxs. induction idxs as [|i idxs IH]; [apply fle_refl|]. cbn [enter_loop].
    apply fle_bind; [apply fle_refl|]. intros c. apply fle_bind; [apply fle_refl|]. intros l2. cbv zeta. apply fle_bind; [apply f_gap; exact L|]. intros [|]; [exact IH|apply fle_refl].
  Qed.
  Lemma f_stop n m links vs l log : n <= m -> fle (apply_stoplines n links vs l log) (apply_stoplines m links vs l log).
  Proof.
    intros L. unfold apply_stoplines. apply f_process; [|exact L]. intros s r. unfold stopline_cb. destruct (rv_route r 1) as [(id, st)|]; [|apply fle_refl]. destruct st; [|apply fle_bind; [apply fle_refl|]; intros l2|apply fle_refl].
    all: try (destruct (lk_control l2); try apply fle_refl). all: try (apply fle_bind; [apply fle_refl|]; intros l2; destruct (lk_control l2); try apply fle_refl). all: try (apply fle_bind; [apply f_enter; exact L|]; intros bl; apply fle_refl).
  Qed.
  Lemma f_obstacles n m links vs l p : n <= m -> forall ids skip log, fle (follow_obstacles n links vs l p ids skip log) (follow_obstacles m links vs l p ids skip log).
  Proof.
    intros L. induction ids as [|id ids IH]; intros skip log; [apply fle_refl|]. cbn [follow_obstacles]. apply fle_bind; [apply fle_refl|]. intros v. apply fle_bind; [apply fle_refl|]. intros o. apply fle_bind; [apply fle_refl|]. intros cnt. cbv zeta.
    apply fle_bind; [|intros x; apply IH]. apply f_process; [|exact L]. intros s r. unfold obstacle_cb, can_pass. apply fle_bind; [|intros x; apply fle_refl]. destruct (is_clear _ _); [apply fle_refl|]. apply fle_bind; [apply f_pass; exact L|]. intros x. apply fle_refl.
  Qed.
  Lemma f_acc n m links vs l log : n <= m -> fle (apply_accelerations n links vs l log) (apply_accelerations m links vs l log).
  Proof.
    intros L. unfold apply_accelerations. apply fle_bind; [apply fle_refl|]. intros x. apply fle_bind; [apply f_process; [intros s r; apply fle_refl|exact L]|]. intros y. destruct (lk_group l) as [g|]; [|apply fle_refl]. apply fle_bind; [apply fle_refl|]. intros ps.
    apply fle_foldM. intros s p. apply fle_bind; [apply fle_refl|]. intros l2. apply f_obstacles. exact L.
  Qed.
  Lemma f_cp n m links vs c log : n <= m -> fle (cp_apply n links vs c log) (cp_apply m links vs c log).
  Proof.
    intros L. assert (forall c b, fle (find_vehicles n links vs c b) (find_vehicles m links vs c b)) as F.
    { intros c0 b. unfold find_vehicles. apply fle_bind; [apply fle_refl|]. intros l. apply f_process; [intros s r; apply fle_refl|exact L]. }
    unfold cp_apply. apply fle_bind; [apply F|]. intros b1. destruct b1; [apply fle_refl|]. apply fle_bind; [apply F|]. intros b2. apply fle_refl.
  Qed.
  Lemma f_accelerations e1 e2 s : e_fuel e1 <= e_fuel e2 -> fle (sim_apply_accelerations e1 s) (sim_apply_accelerations e2 s).
  Proof.
    intros L. unfold sim_apply_accelerations. destruct (nltb _ _); [apply fle_refl|]. cbv zeta. apply fle_bind; [apply fle_refl|]. intros (links, vs). apply fle_bind; [unfold sim_stoplines; apply fle_foldM; intros x l; apply f_stop; exact L|]. intros log.
    apply fle_bind; [|intros x; apply fle_refl]. unfold sim_link_accelerations. apply fle_bind; [apply fle_foldM; intros x l; apply f_acc; exact L|]. intros lg. apply fle_foldM. intros x c. apply f_cp. exact L.
  Qed.

  (** Searches for routes *)
  Lemma f_run succ goal : forall n m pick1 pick2 t h, n <= m -> (forall i, pick1 i = pick2 i) -> fle (dij_run n pick1 succ goal t h) (dij_run m pick2 succ goal t h).
  Proof.
    induction n as [|n IH]; intros m p1 p2 t h L E; [apply fle_out|]. destruct m as [|m]; [lia|]. cbn [dij_run]. rewrite <- E. destruct (heap_pop (p1 0) h) as [((cost, node), h')|]; [|apply fle_refl]. destruct (goal node); [apply fle_refl|]. cbv zeta.
    match goal with |- fle (if ?c then _ else _) _ => destruct c end; [apply IH; [lia|intros i; apply E]|]. apply fle_bind; [apply fle_refl|]. intros es. apply fle_bind; [apply fle_refl|]. intros th. apply IH; [lia|intros i; apply E].
  Qed.
  Lemma f_path t : forall n m node acc, n <= m -> fle (dij_path n t node acc) (dij_path m t node acc).
  Proof. induction n as [|n IH]; intros m node acc L; [apply fle_out|]. destruct m as [|m]; [lia|]. cbn [dij_path]. destruct (dt_get t node) as [([p|], c)|]; [apply IH; lia|apply fle_refl|apply fle_refl]. Qed.
  Lemma f_reach succ : forall n m stack seen, n <= m -> fle (dfs_reach n succ stack seen) (dfs_reach m succ stack seen).
  Proof.
    induction n as [|n IH]; intros m stack seen L; [apply fle_out|]. destruct m as [|m]; [lia|]. cbn [dfs_reach]. destruct stack as [|k stack]; [apply fle_refl|]. destruct (key_mem k seen); [apply IH; lia|].
    apply fle_bind; [apply fle_refl|]. intros es. apply fle_bind; [apply IH; lia|]. intros l. apply fle_refl.
  Qed.
  Lemma f_routes e1 e2 s : e_fuel e1 <= e_fuel e2 -> fle (all_routes e1 s) (all_routes e2 s).
  Proof.
    intros L. unfold all_routes. apply fle_bind; [|intros x; apply fle_refl]. apply fle_mapM. intros l. unfold routes_from. apply fle_bind; [apply fle_refl|]. intros l1. apply fle_bind; [apply fle_refl|]. intros f. apply fle_bind; [apply f_reach; exact L|]. intros x. apply fle_refl.
  Qed.

  Local Notation T := (fun _ : panic => True).
  Section Envs.
    Variables e1 e2 : @env A.
    Hypothesis L : e_fuel e1 <= e_fuel e2.
    (** Ties are broken the same way. *)
    Definition same_picks : Prop := forall links src dst n, e_pick e1 links src dst n = e_pick e2 links src dst n.
    Definition settled (pf : pathfind) : Prop := same_picks \/ pf_dst pf = null_key.
    Lemma f_reroute links pf : settled pf -> fle (reroute e1 links pf) (reroute e2 links pf).
    Proof.
      intros [Q|Q]; unfold reroute; [|rewrite Q, key_eqb_refl, orb_true_r; apply fle_refl]. destruct (_ || _); [apply fle_refl|]. apply fle_bind; [apply fle_refl|]. intros dl. apply fle_bind; [apply fle_refl|]. intros ds.
      apply fle_bind; [|intros x; apply fle_refl]. unfold dijkstra. apply fle_bind; [apply f_run; [exact L|intros i; apply Q]|]. intros [(node, t)|]; [|apply fle_refl]. apply fle_bind; [apply f_path; exact L|]. intros x. apply fle_refl.
    Qed.
    Lemma f_origin links pf id : settled pf -> fle (set_origin e1 links pf id) (set_origin e2 links pf id).
    Proof. intros Q. unfold set_origin. cbv zeta. apply fle_bind; [|intros x; apply fle_refl]. destruct (mx_get _ _); [apply fle_refl|]. apply f_reroute. exact Q. Qed.
    Lemma f_location links v id p lc : settled (v_pathfind v) -> fle (set_location e1 links v id p lc) (set_location e2 links v id p lc).
    Proof. intros Q. unfold set_location. apply fle_bind; [apply f_origin; exact Q|]. intros x. apply fle_refl. Qed.
    Definition calm (vs : vehset) : Prop := forall k v, sm_get vs k = Some v -> settled (v_pathfind v).
    Lemma f_change s id lid d : calm (s_vehicles s) -> fle (do_lane_change e1 s id lid d) (do_lane_change e2 s id lid d).
    Proof.
      intros C. unfold do_lane_change. apply fle_bind_ok; [apply fle_refl|]. intros v Gv. unfold get_vehicle in Gv. apply of_option_ok in Gv. apply fle_bind; [apply fle_refl|]. intros links. apply fle_bind; [apply fle_refl|]. intros l. apply fle_bind; [apply fle_refl|]. intros o. apply fle_bind; [apply fle_refl|]. intros ((p, off), sl). cbv zeta.
      apply fle_bind; [apply f_location; exact (C _ _ Gv)|]. intros x. apply fle_refl.
    Qed.
    Lemma body_settled v v' : body v' = body v -> settled (v_pathfind v) -> settled (v_pathfind v').
    Proof. unfold body. intros E. injection E as _ _ _ _ _ _ _ _ _ E. intros [Q|Q]; [left; exact Q|right; congruence]. Qed.
    Lemma exec_calm e s vp s' : exec_change e s vp = Ok s' -> calm (s_vehicles s) -> calm (s_vehicles s').
    Proof.
      intros H C k v' G. destruct (exec_change_evo _ _ _ _ H) as (v & v1 & b & Gv & _ & Es & Bd & _). rewrite Es, !sm_get_set, sm_mem_set in G. destruct (key_eqb_spec (fst vp) k) as [<-|]; cbn [andb] in G; [|exact (C _ _ G)].
      replace (sm_mem (s_vehicles s) (fst vp)) with true in G by (symmetry; apply sm_mem_get; eauto). injection G as <-. change (v_pathfind (set_path v1 (snd vp))) with (v_pathfind v1). exact (body_settled _ _ Bd (C _ _ Gv)).
    Qed.
    Lemma f_lane_changes s : St (s_links s) (s_vehicles s) (s_seq s) -> calm (s_vehicles s) -> fle (calculate_lane_changes e1 s) (calculate_lane_changes e2 s).
    Proof.
      intros S0 C. unfold calculate_lane_changes. destruct (nltb _ _); [apply fle_refl|]. cbv zeta. apply fle_bind_ok; [apply fle_refl|]. intros (acc, vs1) Hx. cbn [with_lc_update s_links s_vehicles fst snd] in *.
      assert (calm vs1) as C1. { intros k v' G. destruct (choose_all_evo _ _ _ _ _ S0 Hx) as (K & _). destruct (K _ _ G) as (v & G0 & Bd & _). exact (body_settled _ _ Bd (C _ _ G0)). }
      clear Hx S0 C. assert (calm (s_vehicles (with_vehicles (with_lc_update s n0) vs1))) as C2 by exact C1. revert C2. generalize (with_vehicles (with_lc_update s n0) vs1) as t. clear C1 vs1. induction acc as [|vp acc IH]; intros t C; [apply fle_refl|]. cbn [foldM].
      apply fle_bind_ok; [|intros t' H; apply IH; exact (exec_calm _ _ _ _ H C)]. unfold exec_change. apply fle_bind; [apply fle_refl|]. intros lid. apply fle_bind; [apply f_change; exact C|]. intros x. apply fle_refl.
    Qed.
    Lemma f_advance s : calm (s_vehicles s) -> fle (advance_vehicles e1 s) (advance_vehicles e2 s).
    Proof.
      intros C. unfold advance_vehicles. apply fle_bind; [|intros x; apply fle_refl]. apply fle_mapS. intros (links, (adv, ex)) k v G. unfold advance_one. apply fle_bind; [apply fle_refl|]. intros lid. apply fle_bind; [|intros x; apply fle_refl]. unfold advance. destruct (v_route v) as [|id rest]; [apply fle_refl|].
      apply fle_bind; [apply fle_refl|]. intros l. cbv zeta. destruct (nltb _ _); [|apply fle_refl]. apply fle_bind; [|intros x; apply fle_refl]. destruct rest; [apply fle_refl|]. apply f_origin. exact (C _ _ G).
    Qed.
    Lemma f_step s dt : Inv s -> calm (s_vehicles s) -> fle (step e1 s dt) (step e2 s dt).
    Proof.
      intros [S0 F0 LW LI CP FR] C. unfold step. apply fle_bind_ok; [exact (f_lane_changes s S0 C)|]. intros s1 H1.
      destruct (safe_ok T _ _ _ (calculate_lane_changes_safe T e1 s S0 F0 (fun _ _ => I)) H1) as (S1 & F1 & N1 & _ & _ & A2 & _).
      assert (calm (s_vehicles s1)) as C1. { intros k v' G. destruct (lane_changes_evo _ _ _ S0 H1 _ _ G) as (v & G0 & (Bd & _)). exact (body_settled _ _ Bd (C _ _ G0)). }
      assert (Forall (fun c => valid (s_links s1) (cpl_link (cp_a c)) /\ valid (s_links s1) (cpl_link (cp_b c))) (s_conflicts s1)) as CP1.
      { rewrite A2. eapply Forall_impl; [|exact CP]. simpl. intros c (Ha & Hb). split; apply (same_net_valid _ _ _ N1); auto. }
      apply fle_bind_ok; [exact (f_accelerations e1 e2 s1 L)|]. intros s2 H2. destruct (safe_ok T _ _ _ (sim_apply_accelerations_safe T e1 s1 S1 F1 (fun _ _ => I) CP1) H2) as (S2 & F2 & N2 & L2 & Sh2 & K2 & _).
      assert (calm (s_vehicles s2)) as C2. { intros k v' G. destruct (K2 _ _ G) as (v & G0 & (a & f & ->)). exact (C1 _ _ G0). }
      apply fle_bind_ok; [apply fle_refl|]. intros s3 H3. destruct (lights_evo _ _ _ H3) as (Ev & _).
      apply fle_bind_ok; [apply fle_refl|]. intros s4 H4.
      assert (calm (s_vehicles s4)) as C4. { intros k v' G. destruct (integrate_evo _ _ _ H4) as (_ & K & _). destruct (K k v' G) as (v & q & q' & G0 & Hi & _). apply integrate_ok in Hi. destruct Hi as (_ & _ & _ & _ & _ & Ep & _). unfold settled. rewrite Ep. rewrite Ev in G0. exact (C2 _ _ G0). }
      apply fle_bind; [exact (f_advance s4 C4)|]. intros s5. apply fle_refl.
    Qed.
    Lemma f_exec s o : Inv s -> calm (s_vehicles s) -> (same_picks \/ forall v d, o <> OSetDestination v d) -> fle (exec e1 s o) (exec e2 s o).
    Proof.
      intros Hi C Q. destruct o; cbn [exec]; try apply fle_refl.
      - apply fle_bind; [|intros x; apply fle_refl]. unfold add_link. cbv zeta. apply fle_bind; [apply f_link; exact L|]. intros x. apply fle_refl.
      - unfold add_link_group. apply fle_bind; [apply fle_refl|]. intros ls. apply fle_bind; [apply f_group; exact L|]. intros x. apply fle_refl.
      - unfold add_link_convergance. destruct (key_eqb a b); [apply fle_refl|]. destruct (sm_get _ a); [|apply fle_refl]. destruct (sm_get _ b); [|apply fle_refl]. apply fle_bind; [apply f_cpoint; exact L|]. intros x. apply fle_refl.
      - apply fle_bind; [|intros x; apply fle_refl]. unfold add_vehicle. cbv zeta. apply fle_bind; [|intros x; apply fle_refl]. apply f_location. right. reflexivity.
      - destruct Q as [Q|Q]; [|exfalso; exact (Q v dst eq_refl)]. unfold set_vehicle_destination. apply fle_bind; [apply fle_refl|]. intros w. apply fle_bind; [|intros x; apply fle_refl]. unfold set_destination, pf_set_destination. cbv zeta. apply fle_bind; [|intros x; apply fle_refl].
        apply fle_bind; [|intros x; apply fle_refl]. apply f_reroute. left. exact Q.
      - exact (f_change s v l dist C).
      - exact (f_step s dt Hi C).
    Qed.
  End Envs.
End Fuel.
