(** * Planning depends only on the connected part of the network *)
From Coq Require Import List Bool ZArith NArith Arith Lia.
From Verif Require Import Arith Base BaseProofs SlotMap SlotMapProofs Util Geom Light Accel Net Path Vehicle LinkOps Sim SpecSim Safe NetInv SimInv SpecLocal.
Import ListNotations.

(** Both computations return and the results are related. *)
Definition rr {X Y} (R : X -> Y -> Prop) (a : res X) (b : res Y) : Prop := forall x y, a = Ok x -> b = Ok y -> R x y.
Lemma rr_bind {X Y X' Y'} (R : X -> Y -> Prop) (R' : X' -> Y' -> Prop) a b f g : rr R a b -> (forall x y, R x y -> a = Ok x -> b = Ok y -> rr R' (f x) (g y)) -> rr R' (bind a f) (bind b g).
Proof. intros H K x y Hx Hy. apply bind_ok in Hx. destruct Hx as (u & Hu & Hx). apply bind_ok in Hy. destruct Hy as (v & Hv & Hy). exact (K u v (H u v Hu Hv) Hu Hv x y Hx Hy). Qed.
Lemma rr_bind_eq {X X' Y'} (R' : X' -> Y' -> Prop) (a b : res X) f g : rr eq a b -> (forall x, a = Ok x -> b = Ok x -> rr R' (f x) (g x)) -> rr R' (bind a f) (bind b g).
Proof. intros H K. apply (rr_bind eq); [exact H|]. intros x y <-. apply K. Qed.
Lemma rr_ok {X Y} (R : X -> Y -> Prop) x y : R x y -> rr R (Ok x) (Ok y).
Proof. intros H u v Hu Hv. injection Hu as <-. injection Hv as <-. exact H. Qed.
Lemma rr_refl {X} (a : res X) : rr eq a a.
Proof. intros x y Hx Hy. congruence. Qed.
Lemma rr_eq {X} (a b : res X) : a = b -> rr eq a b.
Proof. intros ->. apply rr_refl. Qed.
Lemma rr_impl {X Y} (R R' : X -> Y -> Prop) a b : (forall x y, R x y -> R' x y) -> rr R a b -> rr R' a b.
Proof. intros H K x y Hx Hy. apply H. exact (K x y Hx Hy). Qed.
Lemma rr_mapM {X Y} (f g : X -> res Y) l : (forall x, In x l -> rr eq (f x) (g x)) -> rr eq (mapM f l) (mapM g l).
Proof.
  induction l as [|x l IH]; intros H; cbn [mapM]; [apply rr_refl|]. apply rr_bind_eq; [apply H; left; reflexivity|]. intros y _ _. apply rr_bind_eq; [apply IH; intros z Hz; apply H; right; exact Hz|]. intros ys _ _. apply rr_refl.
Qed.
Lemma rr_foldM {X S1 S2} (R : S1 -> S2 -> Prop) f g (l : list X) : (forall s t x, In x l -> R s t -> rr R (f s x) (g t x)) -> forall s t, R s t -> rr R (foldM f l s) (foldM g l t).
Proof.
  induction l as [|x l IH]; intros H s t Rs; cbn [foldM]; [apply rr_ok; exact Rs|]. apply (rr_bind R); [apply H; [left; reflexivity|exact Rs]|]. intros s1 t1 R1 _ _. apply IH; [|exact R1]. intros s2 t2 y Hy. apply H. right. exact Hy.
Qed.

Section LocPath.
  Context {A : Arith}.
  Variable part : key -> bool.
  Definition agree (a b : linkset) : Prop := forall k, part k = true -> sm_get a k = sm_get b k.
  Definition closed (links : linkset) : Prop := forall k l y, sm_get links k = Some l -> touches l y -> part y = part k.
  Lemma agree_get a b k : agree a b -> part k = true -> get_link a k = get_link b k.
  Proof. intros G H. unfold get_link. rewrite (G k H). reflexivity. Qed.
  Lemma closed_same a b : same_net a b -> closed a -> closed b.
  Proof.
    intros S C k l y G T. destruct (same_net_get _ _ _ _ S G) as (l0 & G0 & E0). apply (C k l0 y G0). unfold lk_static in E0. injection E0 as F1 F2 F3 F4 F5 F6 F7 F8 F9. unfold touches in *. rewrite F2, F4, F5, F6, F7. exact T.
  Qed.

  Section Two.
  Variables L1 L2 : linkset.
  Hypothesis N : net_ok L1.
  Hypothesis C : closed L1.
  Hypothesis G : agree L1 L2.
  Lemma get_both k l : part k = true -> get_link L1 k = Ok l -> sm_get L1 k = Some l /\ lk_id l = k.
  Proof. intros Hk H. unfold get_link in H. apply of_option_ok in H. split; [exact H|]. exact (lo_id _ _ _ (nk_link _ N _ _ H)). Qed.
  Lemma slice_in {X} a b (l : list X) x : In x (slice a b l) -> In x l.
  Proof. unfold slice. intros H. apply firstn_in in H. apply skipn_in in H. exact H. Qed.
  Lemma lanes_col k l ls : sm_get L1 k = Some l -> reachable_lanes l = Ok ls -> forall x, In x ls -> part x = part k.
  Proof.
    intros Gk H x Hx. unfold reachable_lanes in H. destruct (lk_group l) as [g|] eqn:Eg.
    - apply bind_ok in H. destruct H as (i & _ & H). unfold g_reachable_lanes in H. apply bind_ok in H. destruct H as (a & _ & H). apply bind_ok in H. destruct H as (b & _ & H). injection H as <-. apply slice_in in Hx.
      apply (C k l x Gk). right. right. right. left. exists g. auto.
    - injection H as <-. destruct Hx as [<-|[]]. rewrite (lo_id _ _ _ (nk_link _ N _ _ Gk)). reflexivity.
  Qed.
  Lemma from_lanes_col k l ls : sm_get L1 k = Some l -> reachable_from_lanes l = Ok ls -> forall x, In x ls -> part x = part k.
  Proof.
    intros Gk H x Hx. unfold reachable_from_lanes in H. destruct (lk_group l) as [g|] eqn:Eg.
    - apply bind_ok in H. destruct H as (i & _ & H). unfold g_reachable_from_lanes in H. apply bind_ok in H. destruct H as (a & _ & H). apply bind_ok in H. destruct H as (b & _ & H). injection H as <-. apply slice_in in Hx.
      apply (C k l x Gk). right. right. right. left. exists g. auto.
    - injection H as <-. destruct Hx as [<-|[]]. rewrite (lo_id _ _ _ (nk_link _ N _ _ Gk)). reflexivity.
  Qed.
  Lemma out_col k l x : sm_get L1 k = Some l -> In x (lk_out l) -> part x = part k.
  Proof. intros Gk H. apply (C k l x Gk). left. exact H. Qed.
  Lemma get_rr k : part k = true -> rr eq (get_link L1 k) (get_link L2 k).
  Proof. intros H. apply rr_eq. apply agree_get; auto. Qed.
  Lemma succ_rr k : part k = true -> rr eq (successors L1 k) (successors L2 k).
  Proof.
    intros Hk. unfold successors. apply rr_bind_eq; [apply get_rr; exact Hk|]. intros l Hl _. destruct (get_both _ _ Hk Hl) as (Gl & _). apply rr_bind_eq; [apply rr_refl|]. intros lanes Ll _.
    apply rr_bind_eq; [|intros; apply rr_refl]. apply rr_mapM. intros x Hx. apply rr_bind_eq; [|intros; apply rr_refl]. apply get_rr. rewrite (lanes_col _ _ _ Gl Ll x Hx). exact Hk.
  Qed.
  Lemma succ_col k es : part k = true -> successors L1 k = Ok es -> forall x w, In (x, w) es -> part x = true.
  Proof.
    intros Hk H x w Hx. unfold successors in H. apply bind_ok in H. destruct H as (l & Hl & H). destruct (get_both _ _ Hk Hl) as (Gl & _). apply bind_ok in H. destruct H as (lanes & Ll & H). apply bind_ok in H. destruct H as (ess & He & H). injection H as <-.
    apply in_concat in Hx. destruct Hx as (es & H1 & H2). destruct (mapM_in _ _ _ _ He H1) as (y & Hy & Ey). apply bind_ok in Ey. destruct Ey as (ly & Hly & Ey). injection Ey as <-. apply in_map_iff in H2. destruct H2 as (o & Eo & Ho). injection Eo as <- _.
    assert (part y = true) as Py. { rewrite (lanes_col _ _ _ Gl Ll y Hy). exact Hk. } destruct (get_both _ _ Py Hly) as (Gy & _). rewrite (out_col _ _ _ Gy Ho). exact Py.
  Qed.

  (** ** The search *)
  Definition tcol (t : dtable) : Prop := forall k p c, dt_get t k = Some (p, c) -> part k = true /\ forall q, p = Some q -> part q = true.
  Definition hcol (h : list (Z * key)) : Prop := forall c k, In (c, k) h -> part k = true.
  Lemma dt_get_set t k v x : dt_get (dt_set t k v) x = if key_eqb k x then Some v else dt_get t x.
  Proof.
    induction t as [|(k', v') t IH]; cbn [dt_set dt_get]; [reflexivity|]. destruct (key_eqb_spec k' k) as [->|Ne]; cbn [dt_get].
    - destruct (key_eqb k x); reflexivity.
    - rewrite IH. destruct (key_eqb_spec k' x) as [->|]; [|reflexivity]. destruct (key_eqb_spec k x) as [->|]; [congruence|reflexivity].
  Qed.
  Lemma relax_col node cost es : part node = true -> (forall x w, In (x, w) es -> part x = true) -> forall t h t' h', tcol t -> hcol h -> dij_relax node cost es t h = Ok (t', h') -> tcol t' /\ hcol h'.
  Proof.
    intros Hn. induction es as [|(s, w) es IH]; intros He t h t' h' Ht Hh H; cbn [dij_relax] in H; [injection H as <- <-; auto|].
    destruct (Z.ltb _ _); [discriminate H|]. assert (part s = true) as Hs by (apply (He s w); left; reflexivity). assert (forall x w, In (x, w) es -> part x = true) as He' by (intros x y Hx; apply (He x y); right; exact Hx).
    destruct (match dt_get t s with Some (_, c') => _ | None => _ end).
    - apply (IH He') in H; [exact H| |].
      + intros k p c. rewrite dt_get_set. destruct (key_eqb_spec s k) as [->|]; [|apply Ht]. intros E. injection E as <- _. split; [exact Hs|]. intros q E. injection E as <-. exact Hn.
      + intros c k Hi. apply in_app_iff in Hi. destruct Hi as [Hi|[Hi|[]]]; [exact (Hh c k Hi)|]. injection Hi as _ <-. exact Hs.
    - apply (IH He') in H; auto.
  Qed.
  Lemma pop_in p h e h' : heap_pop p h = Some (e, h') -> In e h /\ forall x, In x h' -> In x h.
  Proof.
    unfold heap_pop. destruct (heap_min h) as [m|]; [|discriminate]. intros H. destruct (nth_error h _) as [e0|] eqn:En in H; [|discriminate H]. injection H as <- <-. split; [exact (nth_error_In _ _ En)|].
    intros x Hx. unfold remove_at in Hx. apply in_app_iff in Hx. destruct Hx as [Hx|Hx]; [exact (firstn_in _ _ _ Hx)|]. exact (skipn_in _ _ _ Hx).
  Qed.
  Lemma run_rr goal : forall f1 f2 pick1 pick2 t h, (forall n, pick1 n = pick2 n) -> tcol t -> hcol h -> rr eq (dij_run f1 pick1 (successors L1) goal t h) (dij_run f2 pick2 (successors L2) goal t h).
  Proof.
    induction f1 as [|f1 IH]; intros f2 pick1 pick2 t h Ep Ht Hh; [intros x y Hx; discriminate Hx|]. destruct f2 as [|f2]; [intros x y _ Hy; discriminate Hy|]. cbn [dij_run]. rewrite <- (Ep 0).
    destruct (heap_pop (pick1 0) h) as [((cost, node), h')|] eqn:Eh; [|apply rr_refl]. apply pop_in in Eh. destruct Eh as (Hi & Hs). destruct (goal node); [apply rr_refl|].
    assert (hcol h') as Hh'. { intros c k Hk. exact (Hh c k (Hs _ Hk)). } assert (part node = true) as Hn by exact (Hh cost node Hi).
    destruct (match dt_get t node with Some (_, c) => _ | None => _ end); [apply IH; auto|]. apply rr_bind_eq; [apply succ_rr; exact Hn|]. intros es He _. apply rr_bind_eq; [apply rr_refl|]. intros (t1, h1) Hr _. cbn [fst snd].
    destruct (relax_col node cost es Hn (succ_col _ _ Hn He) t h' t1 h1 Ht Hh' Hr) as (A1 & A2). apply IH; auto.
  Qed.
  Lemma run_col goal : forall f pick t h node t', tcol t -> hcol h -> dij_run f pick (successors L1) goal t h = Ok (Some (node, t')) -> tcol t' /\ part node = true.
  Proof.
    induction f as [|f IH]; intros pick t h node t' Ht Hh H; cbn [dij_run] in H; [discriminate H|]. destruct (heap_pop (pick 0) h) as [((cost, nd), h')|] eqn:Eh; [|discriminate H]. apply pop_in in Eh. destruct Eh as (Hi & Hs).
    assert (hcol h') as Hh'. { intros c k Hk. exact (Hh c k (Hs _ Hk)). } assert (part nd = true) as Hn by exact (Hh cost nd Hi). destruct (goal nd); [injection H as <- <-; auto|].
    destruct (match dt_get t nd with Some (_, c) => _ | None => _ end); [eapply IH; eauto|]. apply bind_ok in H. destruct H as (es & He & H). apply bind_ok in H. destruct H as ((t1 & h1) & Hr & H). cbn [fst snd] in H.
    destruct (relax_col nd cost es Hn (succ_col _ _ Hn He) t h' t1 h1 Ht Hh' Hr) as (A1 & A2). eapply IH; eauto.
  Qed.
  Lemma path_rr t : forall f1 f2 node acc, rr eq (dij_path f1 t node acc) (dij_path f2 t node acc).
  Proof.
    induction f1 as [|f1 IH]; intros f2 node acc; [intros x y Hx; discriminate Hx|]. destruct f2 as [|f2]; [intros x y _ Hy; discriminate Hy|]. cbn [dij_path]. destruct (dt_get t node) as [([p|], c)|]; [apply IH|apply rr_refl|apply rr_refl].
  Qed.
  Lemma path_col t : tcol t -> forall f node acc r, part node = true -> (forall x, In x acc -> part x = true) -> dij_path f t node acc = Ok r -> forall x, In x r -> part x = true.
  Proof.
    intros Ht. induction f as [|f IH]; intros node acc r Hn Ha H; cbn [dij_path] in H; [discriminate H|]. assert (forall x, In x (node :: acc) -> part x = true) as Ha' by (intros x [<-|Hx]; auto).
    destruct (dt_get t node) as [([p|], c)|] eqn:E; [|injection H as <-; exact Ha'|injection H as <-; exact Ha']. destruct (Ht _ _ _ E) as (_ & Hp). exact (IH p _ _ (Hp p eq_refl) Ha' H).
  Qed.
  Lemma start_col k : part k = true -> tcol [(k, (None, 0%Z))] /\ hcol [(0%Z, k)].
  Proof.
    intros Hk. split.
    - intros x p c E. cbn [dt_get] in E. destruct (key_eqb_spec k x) as [->|]; [|discriminate E]. injection E as <- _. split; [exact Hk|]. intros q Eq. discriminate Eq.
    - intros c x [E|[]]. injection E as _ <-. exact Hk.
  Qed.
  Lemma dijkstra_rr f1 f2 pick1 pick2 k goal : part k = true -> (forall n, pick1 n = pick2 n) -> rr (fun a b => a = b /\ forall r c, a = Some (r, c) -> forall x, In x r -> part x = true) (dijkstra f1 pick1 k (successors L1) goal) (dijkstra f2 pick2 k (successors L2) goal).
  Proof.
    intros Hk Ep. unfold dijkstra. destruct (start_col k Hk) as (T0 & H0). apply rr_bind_eq; [apply run_rr; auto|]. intros o Ho _. destruct o as [(node, t)|]; [|apply rr_ok; split; [reflexivity|intros r c E; discriminate E]].
    destruct (run_col goal _ _ _ _ _ _ T0 H0 Ho) as (Ht & Hn). apply rr_bind_eq; [apply path_rr|]. intros p Hp _. apply rr_ok. split; [reflexivity|]. intros r c E. injection E as <- _. eapply path_col; eauto. intros x [].
  Qed.

  (** ** The table and the paths *)
  Lemma group_col k l x : sm_get L1 k = Some l -> In x (group_links l k) -> part x = part k.
  Proof.
    intros Gl H. unfold group_links in H. destruct (lk_group l) as [g|] eqn:Eg; [|destruct H as [<-|[]]; reflexivity]. apply (C k l x Gl). right. right. right. left. exists g. auto.
  Qed.
  Lemma nth_in_or (l : list key) i : nth i l null_key = null_key \/ In (nth i l null_key) l.
  Proof. destruct (Nat.lt_ge_cases i (length l)); [right; apply nth_In; assumption|left; apply nth_overflow; assumption]. Qed.
  Lemma changes_in g lcs f t : g_lane_changes g = Ok lcs -> In (f, t) lcs -> In f (g_links g).
  Proof.
    intros H Hi. unfold g_lane_changes in H. apply bind_ok in H. destruct H as (r & Hr & H). apply bind_ok in H. destruct H as (l & Hl & H). injection H as <-. apply in_app_iff in Hi.
    assert (forall fm xs ys, filterM fm xs = Ok ys -> forall y : nat, In y ys -> In y xs) as Q.
    { intros fm xs. induction xs as [|x xs IH]; intros ys E y Hy; cbn [filterM] in E; [injection E as <-; destruct Hy|]. apply bind_ok in E. destruct E as (b & _ & E). apply bind_ok in E. destruct E as (zs & Ez & E). injection E as <-. destruct b; [destruct Hy as [<-|Hy]; [left; reflexivity|right; eauto]|right; eauto]. }
    destruct Hi as [Hi|Hi]; apply in_map_iff in Hi; destruct Hi as (i & E & Hi); injection E as <- _; apply nth_In.
    - apply (Q _ _ _ Hr) in Hi. apply in_rev in Hi. apply in_seq in Hi. lia.
    - apply (Q _ _ _ Hl) in Hi. apply in_seq in Hi. lia.
  Qed.
  Lemma back_rr m k : part k = true -> rr eq (propagate_back L1 m k) (propagate_back L2 m k).
  Proof. intros Hk. unfold propagate_back. apply rr_bind_eq; [apply get_rr; exact Hk|]. intros; apply rr_refl. Qed.
  Lemma across_rr m ft : part (fst ft) = true -> rr eq (propagate_across L1 m ft) (propagate_across L2 m ft).
  Proof. intros Hk. unfold propagate_across. destruct (mx_get m (snd ft)); [|apply rr_refl]. apply rr_bind_eq; [apply get_rr; exact Hk|]. intros; apply rr_refl. Qed.
  Lemma foldM_rr {X S_} (f g : S_ -> X -> res S_) l : (forall s x, In x l -> rr eq (f s x) (g s x)) -> forall s, rr eq (foldM f l s) (foldM g l s).
  Proof. intros H s. apply (rr_foldM eq); [|reflexivity]. intros s1 t1 x Hx <-. apply H. exact Hx. Qed.
  Lemma matrix_step_rr m k : part k = true -> rr eq (matrix_step L1 m k) (matrix_step L2 m k).
  Proof.
    intros Hk. unfold matrix_step. apply rr_bind_eq; [apply get_rr; exact Hk|]. intros l Hl _. destruct (get_both _ _ Hk Hl) as (Gl & _). apply rr_bind_eq.
    - apply foldM_rr. intros m1 x Hx. apply back_rr. rewrite (group_col _ _ _ Gl Hx). exact Hk.
    - intros m1 _ _. destruct (lk_group l) as [g|] eqn:Eg; [|apply rr_refl]. apply rr_bind_eq; [apply rr_refl|]. intros lcs Hc _. apply foldM_rr. intros m2 (a, b) Hx. apply across_rr. cbn [fst].
      rewrite (C k l a Gl); [exact Hk|]. right. right. right. left. exists g. split; [exact Eg|]. exact (changes_in _ _ _ _ Hc Hx).
  Qed.
  Lemma matrix_rr dst route : (forall x, In x route -> part x = true) -> rr eq (calc_lane_matrix L1 dst route) (calc_lane_matrix L2 dst route).
  Proof. intros H. unfold calc_lane_matrix. apply foldM_rr. intros m x Hx. apply matrix_step_rr. apply H. apply in_rev. exact Hx. Qed.
  Lemma reroute_rr e1 e2 pf : part (pf_src pf) = true -> (pf_dst pf = null_key \/ part (pf_dst pf) = true) -> (forall n, e_pick e1 L1 (pf_src pf) (pf_dst pf) n = e_pick e2 L2 (pf_src pf) (pf_dst pf) n) -> rr eq (reroute e1 L1 pf) (reroute e2 L2 pf).
  Proof.
    intros Hs Hd Ep. unfold reroute. destruct (key_eqb (pf_src pf) null_key || key_eqb (pf_dst pf) null_key) eqn:En; [apply rr_refl|]. assert (part (pf_dst pf) = true) as Hd'. { destruct Hd as [Hd|Hd]; [|exact Hd]. rewrite Hd, key_eqb_refl, orb_true_r in En. discriminate En. }
    apply rr_bind_eq; [apply get_rr; exact Hd'|]. intros dl Hl _. apply rr_bind_eq; [apply rr_refl|]. intros ds Hds _. apply (rr_bind (fun a b => a = b /\ forall r c, a = Some (r, c) -> forall x, In x r -> part x = true)); [apply dijkstra_rr; auto|].
    intros a b (<- & Ha) _ _. destruct a as [(route, c)|]; [|apply rr_refl]. apply rr_bind_eq; [apply matrix_rr; exact (Ha route c eq_refl)|]. intros; apply rr_refl.
  Qed.
  Lemma inner_rr mx dst : forall room pre k d, part k = true -> rr eq (make_paths_inner room L1 mx dst pre k d) (make_paths_inner room L2 mx dst pre k d).
  Proof.
    induction room as [|room IH]; intros pre k d Hk; cbn [make_paths_inner]; destruct (mx_get mx k); try apply rr_refl. destruct (nltb d PLAN_DIST); [|apply rr_refl]. apply rr_bind_eq; [apply get_rr; exact Hk|]. intros l Hl _. destruct (get_both _ _ Hk Hl) as (Gl & _).
    apply rr_bind_eq; [|intros; apply rr_refl]. apply rr_mapM. intros x Hx. apply IH. rewrite (out_col _ _ _ Gl Hx). exact Hk.
  Qed.
  Lemma paths_rr pf : part (pf_src pf) = true -> rr eq (make_paths L1 pf) (make_paths L2 pf).
  Proof.
    intros Hs. unfold make_paths. apply rr_bind_eq; [apply inner_rr; exact Hs|]. intros r0 _ _. apply rr_bind_eq; [apply get_rr; exact Hs|]. intros l Hl _. destruct (get_both _ _ Hs Hl) as (Gl & _). apply rr_bind_eq; [|intros; apply rr_refl].
    apply rr_mapM. intros x Hx. apply inner_rr. rewrite (C _ l x Gl); [exact Hs|]. right. right. left. exact Hx.
  Qed.
  Lemma reroute_src e L pf pf' : reroute e L pf = Ok pf' -> pf_src pf' = pf_src pf.
  Proof.
    unfold reroute. destruct (_ || _); [intros H; injection H as <-; reflexivity|]. intros H. apply bind_ok in H. destruct H as (dl & _ & H). apply bind_ok in H. destruct H as (ds & _ & H). apply bind_ok in H. destruct H as (r & _ & H). destruct r as [(route, c)|]; [|injection H as <-; reflexivity].
    apply bind_ok in H. destruct H as (m & _ & H). injection H as <-. reflexivity.
  Qed.
  Lemma origin_rr e1 e2 pf id : same_ties part e1 e2 -> part id = true -> (pf_dst pf = null_key \/ part (pf_dst pf) = true) -> rr eq (set_origin e1 L1 pf id) (set_origin e2 L2 pf id).
  Proof.
    intros T Hi Hd. unfold set_origin. cbn [pf_matrix]. destruct (mx_get (pf_matrix pf) id).
    - cbn [bind]. apply paths_rr. exact Hi.
    - apply rr_bind_eq; [apply reroute_rr; cbn [pf_src pf_dst]; [exact Hi|exact Hd|]|].
      + intros n. apply T; [exact G|exact Hi].
      + intros pf1 H1 _. apply paths_rr. rewrite (reroute_src _ _ _ _ H1). exact Hi.
  Qed.
  Lemma evaluate_rr v p : (forall x, v_link v = Some x -> part x = true) -> rr eq (evaluate_path L1 v p) (evaluate_path L2 v p).
  Proof.
    intros Hv. unfold evaluate_path. apply rr_bind_eq; [apply rr_refl|]. intros cur Hc _. apply of_option_ok in Hc. apply rr_bind_eq; [apply rr_refl|]. intros new _ _. destruct (key_eqb cur new); [apply rr_refl|]. apply rr_bind_eq; [apply get_rr; exact (Hv cur Hc)|]. intros; apply rr_refl.
  Qed.
  Lemma choose_rr v : (forall x, v_link v = Some x -> part x = true) -> rr eq (choose_path L1 v) (choose_path L2 v).
  Proof.
    intros Hv. unfold choose_path. destruct (v_lane_change v); [apply rr_refl|]. apply rr_bind_eq; [|intros; apply rr_refl]. apply rr_mapM. intros p _. apply rr_bind_eq; [apply evaluate_rr; exact Hv|]. intros; apply rr_refl.
  Qed.
  End Two.
End LocPath.
