(** * Geometry at another place on the map *)
From Coq Require Import List Bool ZArith NArith Arith Lia Reals Lra FunctionalExtensionality.
From Verif Require Import Arith RealArith Base SlotMap Util Geom Light Accel Net Path Vehicle LinkOps Sim SpecPlace RFacts.
Import ListNotations.
Local Open Scope R_scope.

Section Place.
  Variable m : motion.
  Hypothesis Hr : rigid m.
  Notation T := (turned m).
  Notation M := (moved m).

  Ltac pts := unfold vlerp in *; unfold vadd, vsub, vscale, vmul, vdiv, rot90, moved, turned, sided, vzero, n0, n1, n2 in *; cbn [px py] in *; unR; try (f_equal; unfold Rdiv; ring).
  Lemma t_add a b : vadd (T a) (T b) = T (vadd a b). Proof. pts. Qed.
  Lemma t_sub a b : vsub (T a) (T b) = T (vsub a b). Proof. pts. Qed.
  Lemma t_scale k a : vscale k (T a) = T (vscale k a). Proof. pts. Qed.
  Lemma t_mul a k : vmul (T a) k = T (vmul a k). Proof. pts. Qed.
  Lemma t_div a k : vdiv (T a) k = T (vdiv a k). Proof. pts. Qed.
  Lemma side_sq : side m * side m = 1. Proof. unfold side. destruct (mo_flip m); ring. Qed.
  Lemma side_cases : (mo_flip m = false /\ side m = 1) \/ (mo_flip m = true /\ side m = -1). Proof. unfold side. destruct (mo_flip m); auto. Qed.
  Lemma t_rot a : rot90 (T a) = vmul (T (rot90 a)) (side m).
  Proof. pose proof side_sq as S2. unfold rot90, vmul, turned, sided. cbn [px py]. unR. destruct side_cases as [(_ & E)|(_ & E)]; rewrite E; f_equal; match goal with |- ?x = ?y => change (@eq R x y) end; ring. Qed.
  Lemma m_sub p q : vsub (M p) (M q) = T (vsub p q). Proof. pts. Qed.
  Lemma m_add p a : vadd (M p) (T a) = M (vadd p a). Proof. pts. Qed.
  Lemma m_back p a : vsub (M p) (T a) = M (vsub p a). Proof. pts. Qed.
  Lemma m_lerp p q t : vlerp (M p) (M q) t = M (vlerp p q t). Proof. pts. Qed.
  Lemma t_dot a b : dot (T a) (T b) = dot a b.
  Proof. unfold dot, turned. cbn [px py]. unR. unfold rigid in Hr. pose proof side_sq as S2. unfold sided. transitivity ((mo_cos m * mo_cos m + mo_sin m * mo_sin m) * (px a * px b + (side m * side m) * (py a * py b))); [ring|rewrite Hr, S2; ring]. Qed.
  Lemma t_perp a b : perp_dot (T a) (T b) = sided m (perp_dot a b).
  Proof. unfold perp_dot, turned. cbn [px py]. unR. unfold rigid in Hr. unfold sided. transitivity ((mo_cos m * mo_cos m + mo_sin m * mo_sin m) * (side m * (px a * py b - py a * px b))); [ring|rewrite Hr; ring]. Qed.
  Lemma t_mag2 a : magnitude2 (T a) = magnitude2 a. Proof. apply t_dot. Qed.
  Lemma t_mag a : magnitude (T a) = magnitude a. Proof. unfold magnitude. rewrite t_mag2. reflexivity. Qed.
  Lemma t_norm_to a k : normalize_to (T a) k = T (normalize_to a k). Proof. unfold normalize_to. rewrite t_mag, t_mul. reflexivity. Qed.
  Lemma t_norm a : normalize (T a) = T (normalize a). Proof. apply t_norm_to. Qed.
  Lemma t_normd a b : normalize_with_derivative (T a) (T b) = (T (fst (normalize_with_derivative a b)), T (snd (normalize_with_derivative a b))).
  Proof. unfold normalize_with_derivative. cbn [fst snd]. rewrite t_mag, !t_div, t_dot, t_mul, t_sub, t_div. reflexivity. Qed.
  Lemma m_dist p q : distance (M p) (M q) = distance p q. Proof. unfold distance. rewrite m_sub. apply t_mag. Qed.
  Lemma t_zero a : (px (T a) =? n0)%num && (py (T a) =? n0)%num = (px a =? n0)%num && (py a =? n0)%num.
  Proof.
    assert (forall x y : @num RA, (x =? y)%num = true <-> (x : R) = y) as E. { intros x y. unR. destruct (Raux.Req_bool_spec x y); split; intros; auto; try discriminate; contradiction. }
    unfold rigid in Hr. assert (forall x y : R, mo_cos m * x - mo_sin m * y = 0 -> mo_sin m * x + mo_cos m * y = 0 -> x = 0 /\ y = 0) as K.
    { intros x y E1 E2. split.
      - transitivity ((mo_cos m * mo_cos m + mo_sin m * mo_sin m) * x); [rewrite Hr; ring|]. transitivity (mo_cos m * (mo_cos m * x - mo_sin m * y) + mo_sin m * (mo_sin m * x + mo_cos m * y)); [ring|rewrite E1, E2; ring].
      - transitivity ((mo_cos m * mo_cos m + mo_sin m * mo_sin m) * y); [rewrite Hr; ring|]. transitivity (mo_cos m * (mo_sin m * x + mo_cos m * y) - mo_sin m * (mo_cos m * x - mo_sin m * y)); [ring|rewrite E1, E2; ring]. }
    apply eq_true_iff_eq. rewrite !andb_true_iff, !E. unfold turned, n0. cbn [px py]. unR. split.
    - intros (E1 & E2). destruct (K _ _ E1 E2) as (E3 & E4). split; [exact E3|]. unfold sided in E4. destruct side_cases as [(_ & Es)|(_ & Es)]; rewrite Es in E4; (match goal with |- ?x = ?y => change (@eq R x y) end); lra.
    - intros (E1 & E2). rewrite E1, E2. unfold sided. split; [change (@eq R (mo_cos m * 0 - mo_sin m * (side m * 0)) 0)|change (@eq R (mo_sin m * 0 + mo_cos m * (side m * 0)) 0)]; ring.
  Qed.

  (** ** Link curves *)
  Definition mq (q : @qbez RA) : @qbez RA := QBez (M (q0 q)) (M (q1 q)) (M (q2 q)).
  Definition mc (lc : @link_curve RA) : @link_curve RA := LinkCurve (lc_scale lc) (lc_length lc) (map mq (lc_segments lc)).
  Definition ms (s : @lsample RA) : @lsample RA := LSample (M (sm_pos s)) (T (sm_tan s)).
  Lemma q_sample q t : qb_sample (mq q) t = M (qb_sample q t). Proof. unfold qb_sample, mq. cbn [q0 q1 q2]. pts. Qed.
  Lemma q_dt q t : qb_dt (mq q) t = T (qb_dt q t). Proof. unfold qb_dt, mq. cbn [q0 q1 q2]. pts. Qed.
  Lemma q_dt2 q t : qb_dt2 (mq q) t = T (qb_dt2 q t). Proof. unfold qb_dt2, mq. cbn [q0 q1 q2]. pts. Qed.
  Lemma seg_moved lc x : lc_segments lc <> [] -> lc_seg (mc lc) x = (mq (fst (lc_seg lc x)), snd (lc_seg lc x)).
  Proof.
    intros Ne. unfold lc_seg, lc_sample_index. cbn [mc lc_scale lc_segments fst snd]. rewrite map_length. f_equal.
    rewrite nth_indep with (d' := mq (QBez vzero vzero vzero)); [apply map_nth|]. rewrite map_length. destruct (lc_segments lc); [congruence|cbn [length]; lia].
  Qed.
  Lemma centre_moved lc x : lc_segments lc <> [] -> sample_centre (mc lc) x = ms (sample_centre lc x).
  Proof. intros Ne. unfold sample_centre. rewrite (seg_moved lc x Ne). destruct (lc_seg lc x) as (seg, t). cbn [fst snd]. unfold ms. cbn [sm_pos sm_tan]. rewrite q_sample, q_dt, t_norm. reflexivity. Qed.
  Lemma curve_moved lc : lc_segments lc <> [] -> lc_curve (mc lc) = moved_curve m (lc_curve lc).
  Proof.
    intros Ne. unfold lc_curve, moved_curve. cbn [c_sample c_bounds c_dt c_dt2]. f_equal; apply functional_extensionality; intros x; rewrite (seg_moved lc x Ne); destruct (lc_seg lc x) as (seg, t); cbn [fst snd]; [apply q_sample|apply q_dt|apply q_dt2].
  Qed.
  Lemma twice (a : @pt RA) (x : R) : vmul (vmul a (side m)) (sided m x) = vmul a x.
  Proof. pose proof side_sq as S2. unfold vmul, sided. cbn [px py]. unR. assert (forall p : R, p * side m * (side m * x) = p * x) as E by (intros p; transitivity (p * (side m * side m) * x); [ring|rewrite S2; ring]). f_equal; apply E. Qed.
  Lemma lat_moved s x : lat_offset (ms s) (sided m x) = M (lat_offset s x). Proof. unfold lat_offset, ms. cbn [sm_pos sm_tan]. rewrite t_rot, twice, t_mul, m_add. reflexivity. Qed.
  Lemma d_side a b : dot (T a) (rot90 (T b)) = sided m (dot a (rot90 b)).
  Proof. rewrite t_rot. transitivity (side m * dot (T a) (T (rot90 b))); [unfold dot, vmul; cbn [px py]; unR; ring|]. rewrite t_dot. reflexivity. Qed.
  Lemma long_moved s x : long_offset (ms s) x = M (long_offset s x). Proof. unfold long_offset, ms. cbn [sm_pos sm_tan]. rewrite t_mul, m_add. reflexivity. Qed.
  Lemma direction_moved p d q r : calc_direction (M p) (T d) (M q) r = T (calc_direction p d q r).
  Proof. unfold calc_direction. rewrite !t_scale, !m_back, !m_sub, t_mag2, t_dot, !m_add, m_sub. apply t_norm. Qed.

  (** ** Algorithms on curves *)
  Notation MC := (moved_curve m).
  Lemma guess_moved c p : initial_guess (MC c) (M p) = initial_guess c p.
  Proof.
    unfold initial_guess. cbn [moved_curve c_sample c_bounds]. f_equal. rewrite m_sub, t_mag. f_equal. apply map_ext. intros i. rewrite m_sub, t_mag. reflexivity.
  Qed.
  Lemma newton_moved c p err n : forall t, newton (MC c) (M p) err n t = newton c p err n t.
  Proof. induction n as [|n IH]; intros t; [reflexivity|]. cbn [newton moved_curve c_sample c_dt c_bounds]. rewrite m_sub, t_dot, t_mag. destruct (_ || _); [reflexivity|apply IH]. Qed.
  Lemma project_moved c p err t0 : project_point_onto_curve (MC c) (M p) err t0 = project_point_onto_curve c p err t0.
  Proof. unfold project_point_onto_curve. rewrite guess_moved. destruct t0 as [t|]; cbn [bind]; [rewrite newton_moved; reflexivity|]. destruct (initial_guess c p); cbn [bind]; [rewrite newton_moved|..]; reflexivity. Qed.
  Lemma p_side a b : perp_dot (rot90 (T a)) (T b) = perp_dot (rot90 a) b.
  Proof.
    rewrite t_rot. transitivity (side m * perp_dot (T (rot90 a)) (T b)); [unfold perp_dot, vmul; cbn [px py]; unR; ring|]. rewrite t_perp. unfold sided. pose proof side_sq as S2. transitivity (side m * side m * perp_dot (rot90 a) b); [unR; ring|]. rewrite S2. unR. ring.
  Qed.
  Definition minv (r : @num RA * @num RA * @num RA) : @num RA * @num RA * @num RA := (fst (fst r), sided m (snd (fst r)), sided m (snd r)).
  Lemma inverse_moved lc p d : lc_segments lc <> [] -> inverse_sample (mc lc) (M p) (T d) = outcome (option_map minv) (inverse_sample lc p d).
  Proof.
    intros Ne. unfold inverse_sample. rewrite (curve_moved lc Ne), project_moved. destruct (project_point_onto_curve (lc_curve lc) p (lit 1 1000) None) as [[x|]|pa|]; cbn [bind outcome]; try reflexivity.
    rewrite (seg_moved lc x Ne). destruct (lc_seg lc x) as (seg, t). cbn [fst snd]. rewrite q_sample, q_dt, q_dt2, t_normd. destruct (normalize_with_derivative (qb_dt seg t) (qb_dt2 seg t)) as (tn, td). cbn [fst snd].
    rewrite m_sub, d_side, (t_rot td), twice, t_mul, t_add, t_perp, p_side. cbn [outcome option_map]. unfold minv. cbn [fst snd]. match goal with |- Ok (Some (_, _, ?u)) = Ok (Some (_, _, ?w)) => replace u with w; [reflexivity|] end. unfold sided. unR. unfold Rdiv. match goal with |- ?x = ?y => change (@eq R x y) end. ring.
  Qed.

  Definition meq (s : @eqst RA) : @eqst RA := EqSt (e_ts s) (M (fst (e_ps s)), M (snd (e_ps s))) (e_dists s) (map M (e_points s)) (M (e_last s)).
  Lemma inner_moved c d et ep n : forall s, eq_inner (MC c) d et (M ep) n (meq s) = meq (eq_inner c d et ep n s).
  Proof.
    induction n as [|n IH]; intros s; [reflexivity|]. cbn [eq_inner]. cbn [moved_curve c_sample meq e_ts e_ps e_dists e_points e_last fst snd]. rewrite m_sub, t_mag.
    destruct (_ <? _)%num; [rewrite <- IH; reflexivity|]. destruct (_ >? _)%num; [rewrite <- IH; reflexivity|]. unfold meq. cbn [e_ts e_ps e_dists e_points e_last fst snd map]. rewrite m_sub, t_mag. reflexivity.
  Qed.
  Lemma outer_moved c d et ep n : forall s, eq_outer n (MC c) d et (M ep) (meq s) = outcome meq (eq_outer n c d et ep s).
  Proof. induction n as [|n IH]; intros s; [reflexivity|]. cbn [eq_outer meq e_dists]. destruct (_ >? _)%num; [|reflexivity]. change (EqSt _ _ _ _ _) with (meq s). rewrite inner_moved. apply IH. Qed.
  Lemma equidistant_moved n c d : equidistant_points_along_curve n (MC c) d = outcome (fun r => (map M (fst r), snd r)) (equidistant_points_along_curve n c d).
  Proof.
    unfold equidistant_points_along_curve. cbn [moved_curve c_sample c_bounds].
    match goal with |- bind (eq_outer _ _ _ _ (M ?ep) ?s2) _ = outcome _ (bind (eq_outer _ _ _ _ _ ?s1) _) => replace s2 with (meq s1) by (unfold meq; cbn [e_ts e_ps e_dists e_points e_last fst snd map]; rewrite m_sub, t_mag; reflexivity) end.
    change (Curve _ _ _ _) with (MC c). rewrite outer_moved. destruct (eq_outer _ _ _ _ _ _) as [s|pa|]; cbn [outcome bind]; try reflexivity. cbn [meq e_ps e_points fst snd].
    assert (forall sp, hd (M sp) (map M (e_points s)) = M (hd sp (e_points s))) as -> by (intros sp; destruct (e_points s); reflexivity).
    rewrite m_sub, t_mag, map_length. destruct (_ >? _)%num; cbn [outcome fst snd]; [|rewrite map_rev; reflexivity]. rewrite t_norm_to, m_add. cbn [rev]. rewrite map_app, map_rev. reflexivity.
  Qed.
  Lemma odd_moved l : make_odd (map M l) = map M (make_odd l).
  Proof. unfold make_odd. rewrite map_length. destruct (Nat.even (length l)); [|reflexivity]. rewrite <- map_rev. destruct (rev l) as [|p2 [|p1 r]]; try reflexivity. cbn [map]. rewrite m_lerp, map_app. reflexivity. Qed.
  Lemma mk_moved a b c : mk_segment (M a) (M b) (M c) = mq (mk_segment a b c). Proof. unfold mk_segment, mq. cbn [q0 q1 q2]. rewrite !m_lerp. reflexivity. Qed.
  Lemma segments_moved l : segments_of (map M l) = map mq (segments_of l).
  Proof.
    assert (forall n l, (length l <= n)%nat -> segments_of (map M l) = map mq (segments_of l)) as K.
    { induction n as [|n IH]; intros k Hk; [destruct k; [reflexivity|cbn in Hk; lia]|]. destruct k as [|a [|b [|c k]]]; try reflexivity.
      specialize (IH (c :: k)). cbn [length] in Hk, IH. cbn [map segments_of] in *. rewrite mk_moved, IH by lia. reflexivity. }
    apply (K (length l)). lia.
  Qed.
  Lemma lc_new_moved n c : lc_new n (MC c) = outcome mc (lc_new n c).
  Proof.
    unfold lc_new, lc_with_step. rewrite equidistant_moved. destruct (equidistant_points_along_curve n c nhalf) as [(pts, len)|pa|]; cbn [outcome bind fst snd]; try reflexivity.
    rewrite odd_moved, segments_moved. destruct (segments_of (make_odd pts)); reflexivity.
  Qed.
  Lemma link_new_moved n id c limit : link_new n id (MC c) limit = outcome (moved_link m) (link_new n id c limit).
  Proof. unfold link_new. rewrite lc_new_moved. destruct (lc_new n c) as [lc|pa|]; reflexivity. Qed.

  Definition mps (q : @psample RA) : @psample RA := @PSample RA (ps_pos q) (sided m (ps_lat q)).
  Lemma samples_moved n a b : lc_segments a <> [] -> lc_segments b <> [] -> forall i last, proj_samples n (mc a) (mc b) i last = outcome (map mps) (proj_samples n a b i last).
  Proof.
    intros Na Nb. induction n as [|n IH]; intros i last; [reflexivity|]. cbn [proj_samples]. change (lc_length (mc a)) with (lc_length a). destruct (_ <? _)%num; [|reflexivity].
    rewrite (centre_moved a _ Na). cbn [ms sm_pos]. rewrite (curve_moved b Nb), project_moved. destruct (project_point_onto_curve _ _ _ _) as [[p|]|pa|]; cbn [bind]; try reflexivity.
    rewrite (centre_moved b _ Nb). cbn [ms sm_pos sm_tan]. rewrite m_sub, d_side, IH. destruct (proj_samples n a b (S i) p); reflexivity.
  Qed.

  Definition wfl (l : @link RA) : Prop := lc_segments (lk_curve l) <> [].
  Notation ML := (moved_link m).
  Lemma mk_projection_moved n a b : wfl a -> wfl b -> mk_projection n (ML a) (ML b) = outcome (moved_table m) (mk_projection n a b).
  Proof. intros Na Nb. unfold mk_projection. change (lk_curve (ML a)) with (mc (lk_curve a)). change (lk_curve (ML b)) with (mc (lk_curve b)). rewrite (samples_moved n _ _ Na Nb). destruct (proj_samples n (lk_curve a) (lk_curve b) 0 n0); reflexivity. Qed.
  Lemma mapM_outcome {X Y Z} (f : X -> res Y) (g : X -> res Z) (h : Y -> Z) l : (forall x, In x l -> g x = outcome h (f x)) -> mapM g l = outcome (map h) (mapM f l).
  Proof.
    induction l as [|x l IH]; intros H; [reflexivity|]. cbn [mapM]. rewrite (H x) by (left; reflexivity). destruct (f x) as [y|p|]; cbn [outcome bind]; try reflexivity. rewrite IH by (intros z Hz; apply H; right; exact Hz). destruct (mapM f l); reflexivity.
  Qed.
  Lemma mapM_ext {X Y} (f g : X -> res Y) l : (forall x, In x l -> f x = g x) -> mapM f l = mapM g l.
  Proof. induction l as [|x l IH]; intros H; [reflexivity|]. cbn [mapM]. rewrite (H x) by (left; reflexivity). rewrite IH; [reflexivity|]. intros y Hy. apply H. right. exact Hy. Qed.
  Lemma mapM_map {X Y Z} (f : Y -> res Z) (g : X -> Y) l : mapM f (map g l) = mapM (fun x => f (g x)) l.
  Proof. induction l as [|x l IH]; [reflexivity|]. cbn [map mapM]. rewrite IH. reflexivity. Qed.
  Lemma pairs_moved ls : proj_pairs (map ML ls) = map (fun ab => (ML (fst ab), ML (snd ab))) (proj_pairs ls).
  Proof.
    unfold proj_pairs. assert (forall xs ys, list_prod (map ML xs) (map ML ys) = map (fun ab => (ML (fst ab), ML (snd ab))) (list_prod xs ys)) as ->.
    { intros xs ys. induction xs as [|x xs IH]; [reflexivity|]. cbn [map list_prod]. rewrite map_app, IH, !map_map. reflexivity. }
    generalize (list_prod ls ls). intros l. induction l as [|ab l IH]; [reflexivity|]. cbn [map filter fst snd]. change (lk_id (ML (fst ab))) with (lk_id (fst ab)). change (lk_id (ML (snd ab))) with (lk_id (snd ab)). destruct (negb _); cbn [map]; rewrite IH; reflexivity.
  Qed.
  Lemma group_new_moved n ls mask : List.Forall wfl ls -> group_new n (map ML ls) mask = outcome (moved_group m) (group_new n ls mask).
  Proof.
    intros W. unfold group_new. rewrite map_length, pairs_moved, mapM_map, map_map. destruct (Nat.ltb _ _); [reflexivity|]. rewrite (mapM_outcome (fun sd => mk_projection n (fst sd) (snd sd)) _ (moved_table m)).
    - destruct (mapM _ (proj_pairs ls)); reflexivity.
    - intros (a, b) Hab. unfold proj_pairs in Hab. apply filter_In in Hab. destruct Hab as (Hab & _). apply in_prod_iff in Hab. rewrite List.Forall_forall in W. apply mk_projection_moved; apply W; apply Hab.
  Qed.

  Lemma cpl_loop_moved n a b : lc_segments a <> [] -> lc_segments b <> [] -> forall x other mn mx, cpl_loop n (mc a) (mc b) x other mn mx = cpl_loop n a b x other mn mx.
  Proof.
    intros Na Nb. induction n as [|n IH]; intros x other mn mx; [reflexivity|]. cbn [cpl_loop]. change (lc_length (mc a)) with (lc_length a). destruct (_ <? _)%num; [|reflexivity].
    rewrite (centre_moved a _ Na). cbn [ms sm_pos sm_tan]. rewrite (curve_moved b Nb), project_moved. destruct (project_point_onto_curve _ _ _ _) as [[p|]|pa|]; cbn [bind]; try reflexivity; [|apply IH].
    rewrite (centre_moved b _ Nb). cbn [ms sm_pos sm_tan]. rewrite m_dist, t_dot. destruct (_ <? _)%num; apply IH.
  Qed.
  Lemma tangent_moved l c : wfl l -> cpl_tangent (ML l) c = T (cpl_tangent l c).
  Proof. intros W. unfold cpl_tangent. change (lk_curve (ML l)) with (mc (lk_curve l)). rewrite !(centre_moved _ _ W). cbn [ms sm_pos]. rewrite m_sub. apply t_norm. Qed.
  Lemma cpl_new_moved n a b : wfl a -> wfl b -> cpl_new n (ML a) (ML b) = cpl_new n a b.
  Proof. intros Na Nb. unfold cpl_new. change (lk_curve (ML a)) with (mc (lk_curve a)). change (lk_curve (ML b)) with (mc (lk_curve b)). rewrite (cpl_loop_moved n _ _ Na Nb). reflexivity. Qed.
  Lemma cpoint_new_moved n a b : wfl a -> wfl b -> cpoint_new n (ML a) (ML b) = cpoint_new n a b.
  Proof.
    intros Na Nb. unfold cpoint_new. rewrite (cpl_new_moved n a b Na Nb), (cpl_new_moved n b a Nb Na). destruct (cpl_new n a b) as [[ca|]|pa|]; cbn [bind]; try reflexivity. destruct (cpl_new n b a) as [[cb|]|pa|]; cbn [bind]; try reflexivity.
    rewrite (tangent_moved a ca Na), (tangent_moved b cb Nb), t_dot. reflexivity.
  Qed.

  (** ** Obstacles *)
  Definition mo (o : @obstacle RA) : @obstacle RA := Obst (o_pos o) (sided_range m (o_lat o)) (sided_pair m (M (fst (o_rear o)), M (snd (o_rear o)))) (o_vel o).
  Lemma local_moved p o d : project_local (M p) (M o) (rot90 (T d)) (T d) = @Pt RA (sided m (px (project_local p o (rot90 d) d))) (py (project_local p o (rot90 d) d)).
  Proof. unfold project_local. cbn [px py]. rewrite m_sub, d_side, t_dot. reflexivity. Qed.
  Lemma min_swap (x y : R) : @nmin RA x y = @nmin RA y x. Proof. rewrite !min_R. apply Rmin_comm. Qed.
  Lemma pass_moved n lc : lc_segments lc <> [] -> forall o, pass_loop n (mc lc) (mo o) = outcome mo (pass_loop n lc o).
  Proof.
    intros Ne. induction n as [|n IH]; intros o; [reflexivity|]. cbn [pass_loop]. cbv zeta. change (o_pos (mo o)) with (o_pos o). change (o_vel (mo o)) with (o_vel o). rewrite (centre_moved _ _ Ne). cbn [ms sm_pos sm_tan].
    set (sa := sample_centre lc (o_pos o)). set (P := fun q => project_local q (sm_pos sa) (rot90 (sm_tan sa)) (sm_tan sa)).
    assert (forall q, project_local (M q) (M (sm_pos sa)) (rot90 (T (sm_tan sa))) (T (sm_tan sa)) = @Pt RA (sided m (px (P q))) (py (P q))) as Q by (intros q; apply local_moved).
    assert (@nmin RA (py (project_local (fst (o_rear (mo o))) (M (sm_pos sa)) (rot90 (T (sm_tan sa))) (T (sm_tan sa)))) (py (project_local (snd (o_rear (mo o))) (M (sm_pos sa)) (rot90 (T (sm_tan sa))) (T (sm_tan sa)))) = @nmin RA (py (P (fst (o_rear o)))) (py (P (snd (o_rear o))))) as E1.
    { cbn [mo o_rear]. unfold sided_pair. destruct (mo_flip m); cbn [fst snd]; rewrite !Q; cbn [py]; [apply min_swap|reflexivity]. }
    assert (@Itv RA (px (project_local (fst (o_rear (mo o))) (M (sm_pos sa)) (rot90 (T (sm_tan sa))) (T (sm_tan sa)))) (px (project_local (snd (o_rear (mo o))) (M (sm_pos sa)) (rot90 (T (sm_tan sa))) (T (sm_tan sa)))) = sided_range m (@Itv RA (px (P (fst (o_rear o)))) (px (P (snd (o_rear o)))))) as E2.
    { cbn [mo o_rear]. unfold sided_pair, sided_range. destruct (mo_flip m) eqn:Ef; cbn [fst snd i_min i_max]; rewrite !Q; cbn [px]; [reflexivity|]. unfold sided, side. rewrite Ef. f_equal; unR; apply Rmult_1_l. }
    rewrite E1, E2. fold (P (fst (o_rear o))) (P (snd (o_rear o))). destruct (_ <? _)%num; [reflexivity|]. rewrite <- IH. reflexivity.
  Qed.
End Place.
