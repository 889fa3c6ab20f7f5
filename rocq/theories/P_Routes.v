(** * The list of all routes (C31) *)
From Coq Require Import List Bool ZArith NArith Arith Lia Relation_Operators Operators_Properties.
From Verif Require Import Arith F64 RealArith Base BaseProofs SlotMap SlotMapProofs Util Geom Light Accel Net Path Vehicle LinkOps Sim SpecLight SpecSim Safe NetInv SimInv StepSafe OpSafe Evo StepEvo SimProofs StepProofs SimExample P_Sim P_Motion NetEvo SpecNet SpecRoute P_Lane DijProofs RouteProofs P_Route.
Import ListNotations.

(** ** The depth-first search *)
Section Dfs.
  Variable succ : key -> res (list key).
  Definition edge (a b : key) : Prop := exists es, succ a = Ok es /\ In b es.
  Definition reach : key -> key -> Prop := clos_refl_trans key edge.
  Lemma dfs_sound fuel : forall stack seen l x, dfs_reach fuel succ stack seen = Ok l -> In x l -> ~ In x seen /\ exists a, In a stack /\ reach a x.
  Proof.
    induction fuel as [|fuel IH]; intros stack seen l x H Hx; cbn [dfs_reach] in H; [discriminate H|].
    destruct stack as [|n stack]; [injection H as <-; destruct Hx|]. destruct (key_mem n seen) eqn:M.
    - destruct (IH _ _ _ _ H Hx) as (N & a & Ha & R). split; [exact N|]. exists a. split; [right; exact Ha|exact R].
    - bok H es He. bok H l0 Hl. injection H as <-. apply key_mem_out in M. destruct Hx as [<-|Hx]; [split; [exact M|]; exists n; split; [left; reflexivity|apply rt_refl]|].
      destruct (IH _ _ _ _ Hl Hx) as (N & a & Ha & R). split; [intros X; apply N; right; exact X|]. apply in_app_iff in Ha. destruct Ha as [Ha|Ha]; [|exists a; split; [right; exact Ha|exact R]].
      apply filter_In in Ha. exists n. split; [left; reflexivity|]. eapply rt_trans; [apply rt_step; exists es; split; [exact He|apply Ha]|exact R].
  Qed.
  Lemma dfs_closed fuel : forall stack seen l, dfs_reach fuel succ stack seen = Ok l ->
    (forall a b, In a seen -> edge a b -> In b seen \/ In b stack) ->
    (forall a, In a stack -> In a seen \/ In a l) /\ forall a b, In a seen \/ In a l -> edge a b -> In b seen \/ In b l.
  Proof.
    induction fuel as [|fuel IH]; intros stack seen l H Cl; cbn [dfs_reach] in H; [discriminate H|].
    destruct stack as [|n stack]; [injection H as <-; split; [intros ? []|]; intros a b [Ha|[]] E; destruct (Cl _ _ Ha E) as [|[]]; auto|]. destruct (key_mem n seen) eqn:M.
    - apply key_mem_in in M. destruct (IH _ _ _ H) as (P1 & P2).
      { intros a b Ha E. destruct (Cl _ _ Ha E) as [|[<-|]]; auto. }
      split; [|exact P2]. intros a [<-|Ha]; auto.
    - bok H es He. bok H l0 Hl. injection H as <-. destruct (IH _ _ _ Hl) as (P1 & P2).
      { assert (forall b, (In b seen \/ In b (n :: stack)) \/ In b es -> In b (n :: seen) \/ In b (filter (fun s => negb (key_mem s (n :: seen))) es ++ stack)) as K.
        { intros b [[Hb|[<-|Hb]]|Hb]; [left; right; exact Hb|left; left; reflexivity|right; apply in_app_iff; auto|].
          destruct (key_mem b (n :: seen)) eqn:Mb; [left; apply key_mem_in; exact Mb|right]. apply in_app_iff. left. apply filter_In. rewrite Mb. auto. }
        intros a b [<-|Ha] E; apply K; [right; destruct E as (es' & E & Hb); congruence|left; eapply Cl; eassumption]. }
      assert (forall a, In a (n :: seen) \/ In a l0 -> In a seen \/ In a (n :: l0)) as K by (intros a [[<-|Ha]|Ha]; cbn [In]; auto).
      assert (forall a, In a seen \/ In a (n :: l0) -> In a (n :: seen) \/ In a l0) as K' by (intros a [Ha|[<-|Ha]]; cbn [In]; auto).
      split; [|intros a b Ha E; apply K; eapply P2; [apply K'; exact Ha|exact E]]. intros a [<-|Ha]; [right; left; reflexivity|]. apply K, P1. apply in_app_iff. auto.
  Qed.
  Lemma dfs_exact fuel a l x : dfs_reach fuel succ [a] [] = Ok l -> (In x l <-> reach a x).
  Proof.
    intros H. split.
    - intros Hx. destruct (dfs_sound _ _ _ _ _ H Hx) as (_ & y & [<-|[]] & R). exact R.
    - intros R. destruct (dfs_closed _ _ _ _ H) as (P1 & P2); [intros ? ? []|]. apply clos_rt_rtn1 in R. induction R as [|y z E _ IH]; [destruct (P1 a (or_introl eq_refl)) as [[]|X]; exact X|].
      destruct (P2 y z (or_intror IH) E) as [[]|X]; exact X.
  Qed.
  Lemma dfs_nodup fuel : forall stack seen l, dfs_reach fuel succ stack seen = Ok l -> NoDup l.
  Proof.
    induction fuel as [|fuel IH]; intros stack seen l H; pose proof H as H0; cbn [dfs_reach] in H; [discriminate H|].
    destruct stack as [|n stack]; [injection H as <-; constructor|]. destruct (key_mem n seen) eqn:M; [eauto|].
    bok H es He. bok H l0 Hl. injection H as <-. constructor; [|eauto]. intros X. destruct (dfs_sound _ _ _ _ _ Hl X) as (N & _). apply N. left. reflexivity.
  Qed.
  Section Ends.
    Variable nodes : list key.
    Hypothesis Nd : NoDup nodes.
    Hypothesis Total : forall a, In a nodes -> exists es, succ a = Ok es /\ forall b, In b es -> In b nodes.
    Let w (a : key) : res (list (key * Z)) := bind (succ a) (fun es => Ok (map (fun b => (b, 0%Z)) es)).
    Lemma dfs_ends fuel : forall stack seen, (forall a, In a stack -> In a nodes) -> length stack + rest w nodes seen < fuel -> exists l, dfs_reach fuel succ stack seen = Ok l.
    Proof.
      induction fuel as [|fuel IH]; intros stack seen Hs L; [lia|]. cbn [dfs_reach]. destruct stack as [|n stack]; [eauto|]. cbn [length] in L. destruct (key_mem n seen) eqn:M.
      - apply IH; [intros a Ha; apply Hs; right; exact Ha|lia].
      - destruct (Total n (Hs n (or_introl eq_refl))) as (es & E & Hn). rewrite E. cbn [bind].
        assert (deg w n = length es) as D by (unfold deg, w; rewrite E; cbn [bind]; apply map_length).
        pose proof (rest_drop w nodes seen n Nd (Hs n (or_introl eq_refl)) (proj1 (key_mem_out _ _) M)) as R.
        destruct (IH (filter (fun s => negb (key_mem s (n :: seen))) es ++ stack) (n :: seen)) as (l & El).
        + intros a Ha. apply in_app_iff in Ha. destruct Ha as [Ha|Ha]; [apply filter_In in Ha; apply Hn, Ha|apply Hs; right; exact Ha].
        + rewrite app_length. assert (length (filter (fun s => negb (key_mem s (n :: seen))) es) <= length es) as F.
          { generalize (fun s => negb (key_mem s (n :: seen))). intros f. clear. induction es as [|x es IHe]; cbn [filter length]; [lia|]. destruct (f x); cbn [length]; lia. }
          lia.
        + rewrite El. cbn [bind]. eauto.
    Qed.
  End Ends.
End Dfs.

Section RoutesProofs.
  Context {A : Arith}.
  Variables (ops : list op) (s : sim).
  Hypothesis Hist : history sim_new ops s.
  Hypothesis Apart : groups_apart ops.
  Let links := s_links s.
  Let Same := same_net_refl links.
  Lemma route_succ_ok a : valid links a -> exists es, route_succ links a = Ok es /\ forall b, In b es <-> exists x, changes links a x /\ succ_of links x b.
  Proof.
    intros V. pose proof V as V0. apply sm_mem_get in V. destruct V as (l & G). destruct (lanes_changes _ _ _ Hist Same Apart _ _ G) as (to & from & E1 & _ & S1 & _).
    assert (forall x, In x to -> exists lx, sm_get links x = Some lx) as Vx.
    { intros x Hx. apply S1 in Hx. apply sm_mem_get. eapply (changes_valid _ _ _ Hist Same); eauto. }
    destruct (mapM_total (fun k => bind (get_link links k) (fun l => Ok (lk_out l))) to) as (ess & E).
    { intros x Hx. destruct (Vx _ Hx) as (lx & Gx). unfold get_link. rewrite Gx. cbn. eauto. }
    exists (concat ess). split.
    - unfold route_succ, get_link in *. rewrite G. cbn [of_option bind]. rewrite E1. cbn [bind]. rewrite E. reflexivity.
    - intros b. rewrite in_concat. split.
      + intros (es & He & Hb). destruct (mapM_in _ _ _ _ E He) as (x & Hx & Ex). destruct (Vx _ Hx) as (lx & Gx). unfold get_link in Ex. rewrite Gx in Ex. cbn in Ex. injection Ex as <-.
        exists x. split; [apply S1; exact Hx|exists lx; auto].
      + intros (x & Hx & lx & Gx & Hb). apply S1 in Hx. destruct (mapM_in_l _ _ _ _ E Hx) as (es & He & Ex). exists es. split; [exact He|]. unfold get_link in Ex. cbv beta in Ex. rewrite Gx in Ex. cbn in Ex. injection Ex as <-. exact Hb.
  Qed.
  Lemma route_succ_valid a es : route_succ links a = Ok es -> valid links a.
  Proof. intros H. unfold route_succ in H. bok H l Hl. unfold get_link in Hl. apply of_option_ok in Hl. apply sm_mem_get. eauto. Qed.
  Lemma reach_drive a b : valid links a -> (reach (route_succ links) a b <-> exists p z, drive links a p b z).
  Proof.
    intros V. split.
    - intros R. clear V. apply clos_rt_rt1n in R. induction R as [a|a b c (es & E & Hb) _ (p & z & D)]; [exists [a], 0%Z; constructor|].
      destruct (route_succ_ok a (route_succ_valid _ _ E)) as (es' & E' & S1). rewrite E in E'. injection E' as <-. apply S1 in Hb. destruct Hb as (x & Hx & l & G & Ho).
      eexists _, _. eapply drive_on; eassumption.
    - intros (p & z & D). induction D as [a|a x l b p c z Hx G Ho _ IH]; [apply rt_refl|]. destruct (route_succ_ok a V) as (es & E & S1).
      apply (rt_trans _ _ a b c); [apply rt_step; exists es; split; [exact E|]; apply S1; exists x; split; [exact Hx|exists l; auto]|]. apply IH. eapply (succ_valid _ _ _ Hist Same x b). exists l; auto.
  Qed.
  Lemma reach_valid a b : valid links a -> reach (route_succ links) a b -> valid links b.
  Proof. intros V R. apply reach_drive in R; [|exact V]. destruct R as (p & z & D). eapply (drive_valid _ _ _ Hist Same); eassumption. Qed.
  Definition last_link (k : key) : bool := match sm_get links k with Some l => match lk_out l with [] => true | _ => false end | None => false end.
  Lemma routes_from_ok e src f0 : sm_get links src = Some f0 -> forall rs, routes_from e links f0 = Ok rs ->
    exists f l, reachable_lanes f0 = Ok f /\ dfs_reach (e_fuel e) (route_succ links) [src] [] = Ok l /\ rs = map (fun d => (src, d)) (filter last_link (f ++ l)).
  Proof.
    intros G rs H. pose proof (lo_id _ _ _ (nk_link _ (hist_net _ _ _ Hist Same) _ _ G)) as Ei. unfold routes_from in H. rewrite Ei in H. bok H l0 Hl0. unfold get_link in Hl0. rewrite G in Hl0. cbn in Hl0. injection Hl0 as <-.
    bok H f Hf. bok H l Hl. exists f, l. split; [exact Hf|]. split; [exact Hl|].
    rewrite (filterM_ok last_link) in H; [cbn [bind] in H; injection H as <-; reflexivity|].
    intros x Hx. assert (valid links x) as V.
    { assert (valid links src) as Vs by (apply sm_mem_get; eauto). apply in_app_iff in Hx. destruct Hx as [Hx|Hx].
      - destruct (lanes_changes _ _ _ Hist Same Apart _ _ G) as (to & from & E1 & _ & S1 & _). rewrite Hf in E1. injection E1 as <-. apply S1 in Hx. eapply (changes_valid _ _ _ Hist Same); eauto.
      - apply (dfs_exact _ _ _ _ _ Hl) in Hx. eapply reach_valid; eassumption. }
    apply sm_mem_get in V. destruct V as (lx & Gx). unfold get_link, last_link. rewrite Gx. reflexivity.
  Qed.
End RoutesProofs.

(** Exactly which pairs [all_routes] lists: the first has no links into it, the second none out of it, and one gets to it from the first by
    changing lanes only, or by driving with a change of lanes possible on every road but the last. *)
Theorem C31_exact :
  forall (A : Arith) ops e s rs src dst, history sim_new ops s -> groups_apart ops -> all_routes e s = Ok rs ->
    (In (src, dst) rs <->
      (exists l, link_at s src = Some l /\ lk_in l = []) /\ (exists l, link_at s dst = Some l /\ lk_out l = []) /\
      (changes (s_links s) src dst \/ exists p z, drive (s_links s) src p dst z)).
Proof.
  intros A ops e s rs src dst Hist Ap H. unfold all_routes in H. bok H rss Hr. injection H as <-.
  assert (forall k, last_link s k = true <-> exists l, link_at s k = Some l /\ lk_out l = []) as L.
  { intros k. unfold last_link, link_at. destruct (sm_get (s_links s) k) as [l|]; [|split; [discriminate|intros (l & E & _); discriminate E]].
    destruct (lk_out l) eqn:Eo; split; eauto; [discriminate|]. intros (l' & E & Eo'). injection E as <-. congruence. }
  rewrite in_concat. split.
  - intros (r & Hin & Hd). destruct (mapM_in _ _ _ _ Hr Hin) as (f0 & Hf & Er). apply filter_In in Hf. destruct Hf as (Hv & Hi). apply in_values in Hv. destruct Hv as (k & G).
    destruct (routes_from_ok _ _ Hist Ap _ _ _ G _ Er) as (f & l & Ef & El & ->). apply in_map_iff in Hd. destruct Hd as (d & E & Hd). injection E as -> ->. apply filter_In in Hd. destruct Hd as (Hd & Ld).
    split; [exists f0; split; [exact G|]; destruct (lk_in f0); [reflexivity|discriminate Hi]|]. split; [apply L; exact Ld|].
    apply in_app_iff in Hd. destruct Hd as [Hd|Hd].
    + left. destruct (lanes_changes _ _ _ Hist (same_net_refl _) Ap _ _ G) as (to & from & E1 & _ & S1 & _). rewrite Ef in E1. injection E1 as <-. apply S1. exact Hd.
    + right. apply (dfs_exact _ _ _ _ _ El) in Hd. eapply (reach_drive _ _ Hist Ap); [|exact Hd]. apply sm_mem_get. eauto.
  - intros ((f0 & G & Hi) & Ld & Hd). apply L in Ld.
    assert (In f0 (filter (fun l => match lk_in l with [] => true | _ => false end) (sm_values (s_links s)))) as Hf by (apply filter_In; split; [apply in_values; eauto|rewrite Hi; reflexivity]).
    destruct (mapM_in_l _ _ _ _ Hr Hf) as (r & Hin & Er). exists r. split; [exact Hin|]. destruct (routes_from_ok _ _ Hist Ap _ _ _ G _ Er) as (f & l & Ef & El & ->).
    apply in_map_iff. exists dst. split; [reflexivity|]. apply filter_In. split; [|exact Ld]. apply in_app_iff. destruct Hd as [Hd|Hd].
    + left. destruct (lanes_changes _ _ _ Hist (same_net_refl _) Ap _ _ G) as (to & from & E1 & _ & S1 & _). rewrite Ef in E1. injection E1 as <-. apply S1. exact Hd.
    + right. apply (dfs_exact _ _ _ _ _ El). apply (reach_drive _ _ Hist Ap); [|exact Hd]. apply sm_mem_get. eauto.
Qed.
Print Assumptions C31_exact.
(** Every pair is a real route: a vehicle on the first link that is sent to the second gets a path there (C29_routed). *)
Theorem C31_real :
  forall (A : Arith) ops e s rs src dst, history sim_new ops s -> groups_apart ops -> all_routes e s = Ok rs -> In (src, dst) rs -> leads (s_links s) src dst.
Proof.
  intros A ops e s rs src dst Hist Ap H Hin. apply (C31_exact _ _ _ _ _ _ _ Hist Ap H) in Hin. destruct Hin as (_ & _ & Hd).
  apply (leads_drive (s_links s)). destruct Hd as [Hc|(p & z & D)]; [exists [src], src, 0%Z; split; [constructor|exact Hc]|exists p, dst, z; split; [exact D|apply rt_refl]].
Qed.
Print Assumptions C31_real.
(** The enumeration ends and never panics, whatever the network. *)
Theorem C31_ends :
  forall (A : Arith) ops s, history sim_new ops s -> groups_apart ops -> exists n, forall e, n <= e_fuel e -> exists rs, all_routes e s = Ok rs.
Proof.
  intros A ops s Hist Ap. set (w := fun a => bind (route_succ (s_links s) a) (fun es => Ok (map (fun b => (b, 0%Z)) es))).
  exists (2 + rest w (sm_keys (s_links s)) []). intros e Le. unfold all_routes.
  destruct (mapM_total (routes_from e (s_links s)) (filter (fun l => match lk_in l with [] => true | _ => false end) (sm_values (s_links s)))) as (rss & E); [|rewrite E; cbn [bind]; eauto].
  intros f0 Hf. apply filter_In in Hf. destruct Hf as (Hv & _). apply in_values in Hv. destruct Hv as (k & G). assert (valid (s_links s) k) as V by (apply sm_mem_get; eauto).
  pose proof (lo_id _ _ _ (nk_link _ (hist_net _ _ _ Hist (same_net_refl _)) _ _ G)) as Ei.
  destruct (lanes_changes _ _ _ Hist (same_net_refl _) Ap _ _ G) as (to & from & E1 & _ & S1 & _).
  destruct (dfs_ends (route_succ (s_links s)) (sm_keys (s_links s)) (nodup_keys _)) with (fuel := e_fuel e) (stack := [k]) (seen := @nil key) as (l & El).
  { intros a Ha. apply in_keys in Ha. destruct (route_succ_ok _ _ Hist Ap a Ha) as (es & Ee & Se). exists es. split; [exact Ee|]. intros b Hb. apply in_keys. apply Se in Hb. destruct Hb as (x & _ & Hx). apply (succ_valid _ _ _ Hist (same_net_refl _) x b Hx). }
  { intros a [<-|[]]. apply in_keys. exact V. }
  { cbn [length]. fold w. lia. }
  unfold routes_from, get_link. rewrite Ei, G. cbn [of_option bind]. rewrite E1. cbn [bind]. rewrite El. cbn [bind].
  rewrite (filterM_ok (last_link s)); [cbn [bind]; eauto|]. intros x Hx. assert (valid (s_links s) x) as Vx.
  { apply in_app_iff in Hx. destruct Hx as [Hx|Hx]; [apply S1 in Hx; eapply (changes_valid _ _ _ Hist (same_net_refl _)); eauto|]. apply (dfs_exact _ _ _ _ _ El) in Hx. exact (reach_valid _ _ Hist Ap _ _ V Hx). }
  apply sm_mem_get in Vx. destruct Vx as (lx & Gx). unfold last_link. rewrite Gx. reflexivity.
Qed.
Print Assumptions C31_ends.

(** Not every route is listed: one that ends with a change of lanes is not. *)
Definition ex_last_lane : list (@op F64) :=
  [ OAddLink (ex_line 0 0 20 0) (fz 15); OAddLink (ex_line 20 0 40 0) (fz 15); OAddLink (ex_line 20 3 40 3) (fz 15); OAddGroup [nth_id 1; nth_id 2] 15; OAddConnection (nth_id 0) (nth_id 1) ].
Definition is_route (r : key * key) (a b : key) : bool := key_eqb (fst r) a && key_eqb (snd r) b.
Lemma ex_last_ok : okb (run ex_env sim_new ex_last_lane) (fun s => has_out s (nth_id 0) (nth_id 1) && has_change s (nth_id 1) (nth_id 2) &&
  match sm_get (s_links s) (nth_id 0), sm_get (s_links s) (nth_id 2) with Some a, Some b => (length (lk_in a) + length (lk_out b) =? 0)%nat | _, _ => false end &&
  okb (all_routes ex_env s) (fun rs => existsb (fun r => is_route r (nth_id 0) (nth_id 1)) rs && negb (existsb (fun r => is_route r (nth_id 0) (nth_id 2)) rs))) = true.
Proof. vm_compute. reflexivity. Qed.
Theorem C31_complete_refuted :
  exists ops e s rs src dst ls ld, history (@sim_new F64) ops s /\ groups_apart ops /\ all_routes e s = Ok rs /\
    link_at s src = Some ls /\ lk_in ls = [] /\ link_at s dst = Some ld /\ lk_out ld = [] /\ leads (s_links s) src dst /\ ~ In (src, dst) rs.
Proof.
  destruct (okb_ok _ _ ex_last_ok) as (s & H & Hb). bsplit Hb. destruct (okb_ok _ _ B) as (rs & Hr & Hc). bsplit Hc.
  destruct (sm_get (s_links s) (nth_id 0)) as [a|] eqn:Ga; [|discriminate B0]. destruct (sm_get (s_links s) (nth_id 2)) as [b|] eqn:Gb; [|discriminate B0]. apply Nat.eqb_eq in B0.
  exists ex_last_lane, ex_env, s, rs, (nth_id 0), (nth_id 2), a, b. split; [eapply run_history; exact H|]. split; [unfold groups_apart; cbn [ex_last_lane flat_map app]; repeat constructor; simpl; intuition discriminate|].
  split; [exact Hr|]. split; [exact Ga|]. split; [destruct (lk_in a); [reflexivity|discriminate B0]|]. split; [exact Gb|]. split; [destruct (lk_out b); [reflexivity|destruct (lk_in a); discriminate B0]|].
  split; [eapply rt_trans; apply rt_step; [left; apply has_out_ok; eassumption|right; apply has_change_ok; eassumption]|].
  intros X. apply negb_true_iff in B2. assert (existsb (fun r => is_route r (nth_id 0) (nth_id 2)) rs = true) as Y; [|congruence]. apply existsb_exists. eexists. split; [exact X|]. unfold is_route. cbn [fst snd]. rewrite !key_eqb_refl. reflexivity.
Qed.
Print Assumptions C31_complete_refuted.
(** A link on its own is listed twice. *)
Lemma ex_alone_ok : okb (run ex_env sim_new [OAddLink (ex_line 0 0 20 0) (fz 15)]) (fun s => okb (all_routes ex_env s) (fun rs => match rs with [r; r'] => is_route r (nth_id 0) (nth_id 0) && is_route r' (nth_id 0) (nth_id 0) | _ => false end)) = true.
Proof. vm_compute. reflexivity. Qed.
Lemma is_route_ok r a b : is_route r a b = true -> r = (a, b).
Proof. destruct r. unfold is_route. cbn [fst snd]. intros H. apply andb_prop in H. destruct H as (H1 & H2). apply key_eqb_eq in H1, H2. congruence. Qed.
Theorem C31_once_refuted :
  exists ops e s, history (@sim_new F64) ops s /\ groups_apart ops /\ exists rs, all_routes e s = Ok rs /\ ~ NoDup rs.
Proof.
  destruct (okb_ok _ _ ex_alone_ok) as (s & H & Hb). destruct (okb_ok _ _ Hb) as (rs & Hr & Hc). eexists _, ex_env, s. split; [eapply run_history; exact H|]. split; [constructor|]. exists rs. split; [exact Hr|].
  destruct rs as [|r [|r' [|]]]; try discriminate Hc. apply andb_prop in Hc. destruct Hc as (Hc & B). apply is_route_ok in Hc, B. subst r r'. intros N. inversion N as [|? ? N1 _ Eq]. apply N1. left. reflexivity.
Qed.
Print Assumptions C31_once_refuted.
(** The example of the routes: from either lane one gets to the exit of the first. *)
Lemma ex_routes_ok : okb (run ex_env sim_new ex_before) (fun s => okb (all_routes ex_env s) (fun rs =>
  existsb (fun r => is_route r lane1 exit1) rs && existsb (fun r => is_route r lane2 exit1) rs && existsb (fun r => is_route r side exit2) rs && negb (existsb (fun r => is_route r lane1 exit2) rs))) = true.
Proof. vm_compute. reflexivity. Qed.
Example C31_example : exists s rs, history (@sim_new F64) ex_before s /\ groups_apart ex_before /\ all_routes ex_env s = Ok rs /\ In (lane2, exit1) rs /\ In (side, exit2) rs.
Proof.
  destruct (okb_ok _ _ ex_routes_ok) as (s & H & Hb). destruct (okb_ok _ _ Hb) as (rs & Hr & Hc). bsplit Hc. exists s, rs. split; [eapply run_history; exact H|]. split; [exact ex_apart|]. split; [exact Hr|].
  apply existsb_exists in B0, B1. destruct B0 as (r0 & H0 & E0), B1 as (r1 & H1 & E1). apply is_route_ok in E0, E1. subst. auto.
Qed.
