(** * Among several ways on roads without lanes beside each other, the first is taken *)
From Coq Require Import List Bool ZArith NArith Arith Lia Relation_Operators Operators_Properties.
From Verif Require Import Arith RealArith Base BaseProofs SlotMap Util Geom Light Accel Net Path Vehicle LinkOps Sim SpecSim SlotMapProofs Safe NetInv SimInv AccSafe SimSafe StepSafe OpSafe Evo StepEvo SimProofs StepProofs Motion SpecRoute PlanProofs RouteProofs RouteEvo P_Route P_Exit NetEvo SpecArrive ArriveProofs SpecCheap CheapProofs.
Import ListNotations.

Section First.
  Context {A : Arith}.
  Hypothesis Cast : @cast_in_range A.
  Definition flat (m : matrix) : Prop := forall x d, mx_get m x = Some d -> d = dists_exit.
  Lemma offset_exit (x : num) : dists_offset dists_exit x = dists_exit.
  Proof.
    assert (0 <= make_dist x)%Z as P. { unfold make_dist. apply Cast. unfold u32_max. lia. }
    unfold dists_offset, dists_exit, sat_add. cbn [d0 d1 d2 d3]. rewrite Z.min_r by lia. reflexivity.
  Qed.
  Lemma flat_insert m x d : flat m -> d = dists_exit -> flat (mx_insert m x d).
  Proof. intros F -> y d'. unfold mx_insert. destruct (key_eqb x null_key); [apply F|]. cbn [mx_get]. destruct (key_eqb x y); [congruence|apply F]. Qed.
  Lemma flat_table links d route m : (forall x l, sm_get links x = Some l -> lk_group l = None) -> calc_lane_matrix links d route = Ok m -> flat m.
  Proof.
    intros Gr H. unfold calc_lane_matrix in H. assert (flat (mx_insert [] d dists_exit)) as C0 by (apply flat_insert; [intros x y Q; discriminate Q|reflexivity]).
    revert C0 H. generalize (mx_insert [] d dists_exit). generalize (rev route). intros q. induction q as [|x q IH]; intros m0 C0 H; cbn [foldM] in H; [injection H as <-; exact C0|].
    bok H m1 Hx. apply (IH m1); [|exact H]. clear IH H. unfold matrix_step in Hx. bok Hx l Gl. unfold get_link in Gl. destruct (sm_get links x) as [l'|] eqn:E; [|discriminate Gl]. injection Gl as ->. bok Hx m2 Hf.
    rewrite (Gr _ _ E) in Hx. injection Hx as <-. unfold group_links in Hf. rewrite (Gr _ _ E) in Hf. cbn [foldM] in Hf. bok Hf m3 Hb. injection Hf as ->.
    unfold propagate_back in Hb. unfold get_link in Hb. rewrite E in Hb. cbn [of_option bind] in Hb. destruct (reduce _ _) as [d1|] eqn:Er; [|injection Hb as <-; exact C0].
    injection Hb as <-. apply flat_insert; [exact C0|].
    assert (forall d', In d' (flat_map (fun o => match mx_get m0 o with Some d => [d] | None => [] end) (lk_out l)) -> d' = dists_exit) as Fl.
    { intros d' Hd. apply in_flat_map in Hd. destruct Hd as (o & _ & Hd). destruct (mx_get m0 o) as [d2|] eqn:E2; [|destruct Hd]. destruct Hd as [<-|[]]. exact (C0 _ _ E2). }
    revert Er Fl. generalize (flat_map (fun o => match mx_get m0 o with Some d => [d] | None => [] end) (lk_out l)). intros ds Er Fl. destruct ds as [|z ds]; [discriminate Er|]. cbn [reduce] in Er. injection Er as Er.
    assert (z = dists_exit) as -> by (apply Fl; left; reflexivity). assert (forall d', In d' ds -> d' = dists_exit) as Fl2 by (intros; apply Fl; right; auto).
    assert (d1 = dists_exit) as ->; [|apply offset_exit]. rewrite <- Er. clear - Fl2. induction ds as [|z ds IH]; [reflexivity|]. cbn [fold_left]. rewrite (Fl2 z (or_introl eq_refl)).
    change (dists_combine dists_exit dists_exit) with dists_exit. apply IH. intros; apply Fl2; right; auto.
  Qed.

  (** [y] is the first link after [x] that has an entry. *)
  Definition first_of (links : linkset) (m : matrix) (x y : key) : Prop :=
    exists l before after, sm_get links x = Some l /\ lk_out l = before ++ y :: after /\ inM m y /\ forall z, In z before -> ~ inM m z.
  Fixpoint fchain (links : linkset) (m : matrix) (r : list key) : Prop :=
    match r with
    | x :: q => match q with y :: _ => first_of links m x y | [] => True end /\ fchain links m q
    | [] => True
    end.
  Lemma fchain_tl links m r : fchain links m r -> fchain links m (tl r).
  Proof. destruct r; [auto|]. intros H. apply H. Qed.
  Lemma inner_first room links mx dst pre id dist r : flat mx -> make_paths_inner room links mx dst pre id dist = Ok r ->
    (forall p, In p (snd r) -> pt_dists p = dists_exit /\ exists q, pt_links p = pre ++ id :: q) /\
    (fst r = false -> snd r = []) /\
    (fst r = true -> exists p0 rest q, snd r = p0 :: rest /\ pt_links p0 = pre ++ id :: q /\ fchain links mx (id :: q)).
  Proof.
    intros Fl. revert pre id dist r. induction room as [|room IH]; intros pre id dist r H.
    - cbn [make_paths_inner] in H. destruct (mx_get mx id) as [d|] eqn:E; injection H as <-; cbn [fst snd]; [|split; [intros p []|split; [auto|discriminate]]].
      rewrite (Fl _ _ E), offset_exit. split; [intros p [<-|[]]; cbn; eauto|]. split; [discriminate|]. intros _. exists (Path (pre ++ [id]) dists_exit (key_eqb id dst)), [], []. repeat split.
    - pose proof H as H0. cbn [make_paths_inner] in H. destruct (mx_get mx id) as [d|] eqn:E; [|injection H as <-; cbn [fst snd]; split; [intros p []|split; [auto|discriminate]]].
      rewrite (Fl _ _ E), offset_exit in H. assert (forall p, p = Path (pre ++ [id]) dists_exit (key_eqb id dst) -> pt_dists p = dists_exit /\ exists q, pt_links p = pre ++ id :: q) as Lf by (intros p ->; cbn; eauto).
      destruct (nltb dist PLAN_DIST) eqn:Ld.
      + bok H l G. unfold get_link in G. destruct (sm_get links id) as [l'|] eqn:Gl; [|discriminate G]. injection G as ->. bok H rs Hm.
        assert (forall p, In p (concat (map snd rs)) -> pt_dists p = dists_exit /\ exists q, pt_links p = pre ++ id :: q) as Sub.
        { intros p Hp. rewrite in_concat in Hp. destruct Hp as (x & Hx & Hp). apply in_map_iff in Hx. destruct Hx as (r0 & <- & Hr). destruct (mapM_in _ _ _ _ Hm Hr) as (b & Hb & Eb). destruct (IH _ _ _ _ Eb) as (K & _).
          destruct (K p Hp) as (K1 & q & K2). split; [exact K1|]. exists (b :: q). rewrite K2, <- app_assoc. reflexivity. }
        apply mapM_ok in Hm.
        assert (existsb fst rs = true -> exists before b after p0 rest q, lk_out l = before ++ b :: after /\ inM mx b /\ (forall z, In z before -> ~ inM mx z) /\ concat (map snd rs) = p0 :: rest /\ pt_links p0 = (pre ++ [id]) ++ b :: q /\ fchain links mx (b :: q)) as Fst.
        { clear H H0 Sub Gl Lf. induction Hm as [|b r0 out rs Hb Hm IHm]; intros Ex; [discriminate Ex|]. destruct (IH _ _ _ _ Hb) as (K1 & K2 & K3). pose proof (inner_ok _ _ _ _ _ _ _ _ Hb) as (K0 & _).
          cbn [existsb] in Ex. destruct (fst r0) eqn:F0.
          - destruct (K3 eq_refl) as (p0 & rest & q & E1 & E2 & E3). exists [], b, out, p0, (rest ++ concat (map snd rs)), q. split; [reflexivity|]. split; [apply K0; reflexivity|]. split; [intros z []|].
            split; [cbn [map concat]; rewrite E1; reflexivity|]. split; [exact E2|exact E3].
          - destruct (IHm Ex) as (before & b' & after & p0 & rest & q & E1 & E2 & E3 & E4 & E5). exists (b :: before), b', after, p0, rest, q. split; [rewrite E1; reflexivity|]. split; [exact E2|].
            split; [intros z [<-|Hz]; [intros Q; apply K0 in Q; discriminate Q|exact (E3 z Hz)]|]. split; [cbn [map concat]; rewrite (K2 eq_refl); exact E4|exact E5]. }
        destruct (existsb fst rs) eqn:Ex; injection H as <-; cbn [fst snd].
        * split; [exact Sub|]. split; [discriminate|]. intros _. destruct (Fst eq_refl) as (before & b & after & p0 & rest & q & E1 & E2 & E3 & E4 & E5 & E6). exists p0, rest, (b :: q). split; [exact E4|].
          split; [rewrite E5, <- app_assoc; reflexivity|]. split; [|exact E6]. exists l, before, after. auto.
        * split; [intros p Hp; apply in_app_iff in Hp; destruct Hp as [Hp|[<-|[]]]; [exact (Sub p Hp)|apply Lf; reflexivity]|]. split; [discriminate|]. intros _.
          assert (concat (map snd rs) = []) as ->. { clear - Hm Ex IH. induction Hm as [|b r0 out rs Hb Hm IHm]; [reflexivity|]. cbn [existsb] in Ex. apply orb_false_iff in Ex. destruct Ex as (X1 & X2). cbn [map concat]. rewrite (IHm X2).
            destruct (IH _ _ _ _ Hb) as (_ & K2 & _). rewrite (K2 X1). reflexivity. }
          exists (Path (pre ++ [id]) dists_exit (key_eqb id dst)), [], []. repeat split.
      + injection H as <-. cbn [fst snd]. split; [intros p [<-|[]]; cbn; eauto|]. split; [discriminate|]. intros _. exists (Path (pre ++ [id]) dists_exit (key_eqb id dst)), [], []. repeat split.
  Qed.

  (** The candidates all cost the same, and the first of them goes on along first links. *)
  Definition paths_ok (links : linkset) (m : matrix) (pf : pathfind) : Prop :=
    (forall p, In p (pf_paths pf) -> pt_dists p = dists_exit /\ hd_error (pt_links p) = Some (pf_src pf)) /\
    forall p rest, pf_paths pf = p :: rest -> fchain links m (pt_links p).
  Lemma make_paths_first links pf pf' : (forall x l, sm_get links x = Some l -> lk_changes l = []) -> flat (pf_matrix pf) -> make_paths links pf = Ok pf' -> paths_ok links (pf_matrix pf) pf'.
  Proof.
    intros Nc Fl H. unfold make_paths in H. bok H r0 H0. bok H l G. unfold get_link in G. destruct (sm_get links (pf_src pf)) as [l'|] eqn:Gl; [|discriminate G]. injection G as ->.
    rewrite (Nc _ _ Gl) in H. cbn [mapM] in H. cbn [bind] in H. injection H as <-. unfold paths_ok. cbn [pf_paths pf_src]. cbn [map concat]. rewrite app_nil_r.
    destruct (inner_first _ _ _ _ _ _ _ _ Fl H0) as (K1 & K2 & K3). split.
    - intros p Hp. destruct (K1 p Hp) as (E1 & q & E2). split; [exact E1|]. rewrite E2. reflexivity.
    - intros p rest E. destruct (fst r0) eqn:F; [|rewrite (K2 eq_refl) in E; discriminate E]. destruct (K3 eq_refl) as (p0 & rest0 & q & E1 & E2 & E3). rewrite E1 in E. injection E as <- _. rewrite E2. exact E3.
  Qed.
  Lemma min_first {X} (b : X * Z) l : (forall y, In y l -> snd y = snd b) -> min_by_key b l = fst b.
  Proof. induction l as [|y l IH]; intros H; [reflexivity|]. cbn [min_by_key]. rewrite (H y (or_introl eq_refl)), Z.ltb_irrefl. apply IH. intros; apply H; right; auto. Qed.
  Lemma choose_first links m v p : paths_ok links m (v_pathfind v) -> v_link v = Some (pf_src (v_pathfind v)) -> forall links', choose_path links' v = Ok (Some p) -> hd_error (pt_links p) = v_link v /\ fchain links m (pt_links p).
  Proof.
    intros (P1 & P2) L links' H. split; [apply choose_path_in in H; rewrite L; apply (P1 p), H|]. unfold choose_path in H. destruct (v_lane_change v); [discriminate H|]. bok H x Hx. destruct x as [|y l]; [discriminate H|].
    assert (forall z, In z (y :: l) -> exists q, In q (pf_paths (v_pathfind v)) /\ z = (q, ncast usize_max (nmul (nofZ 1000) (dists_cost dists_exit (v_pos v))))) as K.
    { intros z Hz. destruct (mapM_in _ _ _ _ Hx Hz) as (q & Hq & E). cbv beta in E. bok E c Hc. injection E as <-. exists q. split; [exact Hq|]. f_equal. destruct (P1 q Hq) as (D & Hd).
      unfold evaluate_path in Hc. unfold v_link in L. rewrite L, Hd, D in Hc. cbn [of_option bind] in Hc. rewrite key_eqb_refl in Hc. injection Hc as <-. reflexivity. }
    rewrite min_first in H. 2: { intros z Hz. destruct (K z (or_intror Hz)) as (q & _ & ->). destruct (K y (or_introl eq_refl)) as (q' & _ & ->). reflexivity. }
    destruct (keys_eqb (pt_links (fst y)) (v_route v)); [discriminate H|]. injection H as <-.
    destruct (pf_paths (v_pathfind v)) as [|p0 ps] eqn:Ep; [discriminate Hx|]. apply (P2 (fst y) ps). f_equal. cbn [mapM] in Hx. bok Hx z Hz. bok Hz c Hc. injection Hz as <-. bok Hx zs Hzs. injection Hx as <- _. reflexivity.
  Qed.

  (** ** From then on *)
  Lemma fchain_same N links m r : same_net N links -> fchain links m r -> fchain N m r.
  Proof.
    intros Sn. induction r as [|x q IH]; [auto|]. intros (F & C). split; [|exact (IH C)]. destruct q as [|y q]; [exact Logic.I|]. destruct F as (l & before & after & G & E & M & N0).
    destruct (same_net_get _ _ _ _ Sn G) as (l0 & G0 & Es). unfold lk_static in Es. injection Es as F1 F2 F3 F4 F5 F6 F7 F8 F9. exists l0, before, after. split; [exact G0|]. split; [congruence|auto].
  Qed.
  Lemma no_change_same N links : same_net N links -> (forall x l, sm_get N x = Some l -> lk_changes l = []) -> forall x l, sm_get links x = Some l -> lk_changes l = [].
  Proof. intros Sn H x l G. destruct (same_net_get _ _ _ _ Sn G) as (l0 & G0 & Es). unfold lk_static in Es. injection Es as F1 F2 F3 F4 F5 F6 F7 F8 F9. rewrite <- (H _ _ G0). congruence. Qed.
  Definition firstly (N : linkset) (m : matrix) (v : vehicle) : Prop := on_track m v /\ paths_ok N m (v_pathfind v) /\ fchain N m (v_route v).
  Lemma exec_first N m e s o s' k : flat m -> (forall x l, sm_get N x = Some l -> lk_changes l = []) -> Inv s -> same_net N (s_links s) -> exec e s o = Ok s' -> redirects k o = false -> moves k o = false -> sm_issued (s_vehicles s) k ->
    (forall v, sm_get (s_vehicles s) k = Some v -> firstly N m v) -> forall v', sm_get (s_vehicles s') k = Some v' -> firstly N m v'.
  Proof.
    intros Fl Nc I Sn H Hr Hmv Is K v' G.
    assert (on_track m v') as T by (eapply (exec_track e s o s' m k); eauto; intros v Gv; apply (K v Gv)).
    split; [exact T|]. split.
    - destruct (exec_pf _ _ _ _ _ _ I H G) as [(v & Gv & E)|[(v & d & -> & _)|(a & l & _ & -> & _)]].
      + destruct (K v Gv) as (T0 & P0 & _). apply clos_rt_rtn1 in E. destruct T as (Em & _). revert Em. destruct E as [|pf1 pf2 St _]; intros Em; [exact P0|]. destruct St as (e1 & links' & id & S1 & V & E). unfold set_origin in E. apply bind_ok in E. destruct E as (pfa & _ & E).
        pose proof (same_net_trans _ _ _ Sn S1) as Sn1. pose proof (make_paths_planned _ _ _ E) as (_ & _ & M3 & _).
        assert (pf_matrix pfa = m) as Ma by congruence. rewrite <- Ma in Fl. pose proof (make_paths_first links' pfa pf2 (no_change_same _ _ Sn1 Nc) Fl E) as (Q1 & Q2). rewrite Ma in Q2. split; [exact Q1|].
        intros p rest Ep. eapply fchain_same; [exact Sn1|exact (Q2 p rest Ep)].
      + cbn [redirects] in Hr. rewrite key_eqb_refl in Hr. discriminate Hr.
      + exfalso. revert Is. apply next_key_not_issued. apply I.
    - destruct (is_step o) eqn:Hs.
      + destruct o; try discriminate Hs. destruct (step_exit _ _ _ _ _ _ I H G) as (v & v1 & s1 & Gv & _ & _ & C & _ & _ & Ne & E3). destruct (K v Gv) as (T0 & P0 & F0).
        assert (v_link v = Some (pf_src (v_pathfind v))) as L. { destruct (vbase_link _ _ _ _ (st_veh _ _ _ (i_st _ I) _ _ Gv)) as (x & Hx & _ & E). rewrite Hx, <- E. reflexivity. }
        assert (fchain N m (v_route v1)) as F1.
        { destruct C as [(_ & ->)|(_ & C)]; [exact F0|]. destruct C as [C|p C Hh|p b links' pos lc v2 C Hh Nl Hs']; [exact F0| |].
          - apply (choose_first N m v p P0 L _ C).
          - exfalso. apply Nl. rewrite <- Hh. symmetry. apply (choose_first N m v p P0 L _ C). }
        destruct E3 as [(-> & _)| ->]; [exact F1|apply fchain_tl; exact F1].
      + destruct (call_exit _ _ _ _ _ _ I H Hs G) as [(v & Gv & E1 & _)|(_ & [D|[D|(a & l & _ & ->)]])]; [|congruence|congruence|].
        * rewrite E1. apply (K v Gv).
        * exfalso. revert Is. apply next_key_not_issued. apply I.
  Qed.
  Lemma history_first N m k s ops s' : flat m -> (forall x l, sm_get N x = Some l -> lk_changes l = []) -> history s ops s' -> Inv s -> same_net N (s_links s) ->
    (forall o, In o ops -> redirects k o = false /\ moves k o = false /\ builds o = false) -> sm_issued (s_vehicles s) k ->
    (forall v, sm_get (s_vehicles s) k = Some v -> firstly N m v) -> same_net N (s_links s') /\ Inv s' /\ forall v', sm_get (s_vehicles s') k = Some v' -> firstly N m v'.
  Proof.
    intros Fl Nc H. induction H as [|e s o s1 ops s' H Hh IH]; intros I Sn Ho Is K; [auto|]. destruct (Ho o (or_introl eq_refl)) as (Hr & Hmv & Hb).
    apply IH; [eapply exec_Inv; eauto| |intros; apply Ho; right; auto|eapply history_issued; [econstructor; [exact H|constructor]|exact I|exact Is]|].
    - eapply same_net_trans; [exact Sn|]. eapply history_static; [econstructor; [exact H|constructor]|exact I|]. intros o' [<-|[]]. exact Hb.
    - eapply exec_first; eauto.
  Qed.

  (** The table after a destination was set. *)
  Lemma dest_flat ops e s k d s' v v' : history sim_new ops s -> groups_apart ops -> exec e s (OSetDestination k d) = Ok s' ->
    vehicle_at s k = Some v -> vehicle_at s' k = Some v' -> no_lanes s -> leads (s_links s) (pf_src (v_pathfind v)) d ->
    flat (pf_matrix (v_pathfind v')) /\ paths_ok (s_links s) (pf_matrix (v_pathfind v')) (v_pathfind v').
  Proof.
    intros Hist Ap H G G' Gr Ld. pose proof (history_Inv _ _ _ Hist Inv_new) as I. unfold vehicle_at in *. cbn [exec] in H. unfold set_vehicle_destination in H. bok H v0 Hv0. bok H v1 Hv1. injection H as <-.
    unfold get_vehicle in Hv0. rewrite G in Hv0. injection Hv0 as <-. cbn [s_vehicles with_vehicles] in G'. rewrite sm_get_set, key_eqb_refl in G'.
    replace (sm_mem (s_vehicles s) k) with true in G' by (symmetry; apply sm_mem_get; eauto). injection G' as <-.
    unfold set_destination in Hv1. bok Hv1 pfb Hpb. injection Hv1 as <-. cbn [set_can_exit set_pathfind v_route v_pathfind s_links with_vehicles].
    unfold pf_set_destination in Hpb. apply bind_ok in Hpb. destruct Hpb as (pfa & Ha & Hpl). pose proof Hpl as Hpl0. apply make_paths_planned in Hpl0. destruct Hpl0 as (M1 & M2 & M3 & M4). rewrite M3.
    pose proof (vbase_src _ _ _ _ (st_veh _ _ _ (i_st _ I) _ _ G)) as Vs.
    assert (flat (pf_matrix pfa)) as Fl.
    { unfold reroute in Ha. cbn [pf_src pf_dst] in Ha.
      replace (key_eqb (pf_src (v_pathfind v)) null_key) with false in Ha by (symmetry; apply key_eqb_neq, (valid_not_null ops s _ Hist (same_net_refl _)); auto).
      destruct (key_eqb_spec d null_key) as [->|Nd].
      { cbn [orb] in Ha. injection Ha as <-. intros x y Q. discriminate Q. }
      cbn [orb] in Ha. bok Ha dl Gd0. unfold get_link in Gd0. destruct (sm_get (s_links s) d) as [dl'|] eqn:Gd; [|discriminate Gd0]. injection Gd0 as ->. bok Ha dsts Hd. bok Ha r Hr.
      pose proof (search_ok ops s (s_links s) Hist (same_net_refl _) Ap (costs_ok ops s Hist Cast (s_links s) (same_net_refl _)) (e_fuel e) (e_pick e (s_links s) (pf_src (v_pathfind v)) d) _ _ _ _ Vs Gd Hd) as Q. rewrite Hr in Q.
      destruct r as [(p, c)|]; [|exfalso; apply Q; exact Ld]. bok Ha m Hmx. injection Ha as <-. cbn [pf_matrix]. exact (flat_table (s_links s) d p m (fun x l Gx => proj1 (Gr x l Gx)) Hmx). }
    split; [exact Fl|]. apply (make_paths_first (s_links s) pfa pfb); auto. intros x l Gx. apply (Gr x l Gx).
  Qed.
  Lemma sent_first ops1 e s0 k d s1 ops2 s v0 a : history sim_new ops1 s0 -> groups_apart ops1 ->
    vehicle_at s0 k = Some v0 -> v_route v0 = [a] -> leads (s_links s0) a d -> exec e s0 (OSetDestination k d) = Ok s1 -> history s1 ops2 s ->
    (forall o, In o ops2 -> redirects k o = false /\ moves k o = false /\ builds o = false) -> no_lanes s0 ->
    exists m v1, flat m /\ vehicle_at s1 k = Some v1 /\ pf_matrix (v_pathfind v1) = m /\ v_route v1 = [a] /\ firstly (s_links s0) m v1 /\ same_net (s_links s0) (s_links s) /\ Inv s /\ forall v, vehicle_at s k = Some v -> firstly (s_links s0) m v.
  Proof.
    intros Hist Ap G0 R0 Ld H H2 Ho Nl. pose proof (history_Inv _ _ _ Hist Inv_new) as I0. pose proof (exec_Inv _ _ _ _ I0 H) as I1.
    assert (v_link v0 = Some a) as L0 by (unfold v_link; rewrite R0; reflexivity).
    destruct (dest_there _ _ _ _ _ H) as (v0' & v1 & _ & G1).
    destruct (dest_bound _ _ _ _ _ _ _ _ Hist Ap Cast H G0 G1) as (El & Er & Es & Ed & Fo & Pl & _ & _).
    destruct (link_src _ _ _ _ I0 G0 L0) as (Sa & _).
    destruct (dest_flat ops1 e s0 k d s1 v0 v1 Hist Ap H G0 G1 Nl) as (Fl & Po); [rewrite Sa; exact Ld|].
    assert (on_track (pf_matrix (v_pathfind v1)) v1) as T1.
    { split; auto. split; [|intros p y Hp Hy; eapply planned_in; eauto]. intros y Hy. rewrite Er, R0 in Hy. destruct Hy as [<-|[]]. unfold RouteEvo.found in Fo. rewrite Es, Ed, Sa in Fo. auto. }
    assert (firstly (s_links s0) (pf_matrix (v_pathfind v1)) v1) as F1 by (split; [exact T1|]; split; [exact Po|]; rewrite Er, R0; cbn; auto).
    exists (pf_matrix (v_pathfind v1)), v1. split; [exact Fl|]. split; [exact G1|]. split; [reflexivity|]. split; [congruence|]. split; [exact F1|].
    apply (history_first (s_links s0) (pf_matrix (v_pathfind v1)) k s1 ops2 s Fl); auto.
    - intros x l Gx. apply (Nl x l Gx).
    - rewrite El. apply same_net_refl.
    - exact (issued_mem _ _ _ G1).
    - intros w Gw. unfold vehicle_at in G1. rewrite G1 in Gw. injection Gw as <-. exact F1.
  Qed.

  (** ** Where it goes *)
  Lemma step_first N m e s dt s' k v v' : Inv s -> firstly N m v -> step e s dt = Ok s' -> sm_get (s_vehicles s) k = Some v -> sm_get (s_vehicles s') k = Some v' ->
    v_link v' = v_link v \/ exists x y, v_link v = Some x /\ v_link v' = Some y /\ first_of N m x y.
  Proof.
    intros I (T0 & P0 & F0) H Gv0 G. destruct (step_exit _ _ _ _ _ _ I H G) as (v0 & v1 & s1 & Gv & _ & _ & C & _ & _ & Ne & E3). assert (v0 = v) by congruence. subst v0.
    assert (v_link v = Some (pf_src (v_pathfind v))) as L. { destruct (vbase_link _ _ _ _ (st_veh _ _ _ (i_st _ I) _ _ Gv)) as (x & Hx & _ & E). rewrite Hx, <- E. reflexivity. }
    assert (hd_error (v_route v1) = v_link v /\ fchain N m (v_route v1)) as (L1 & F1).
    { destruct C as [(_ & ->)|(_ & C)]; [split; [reflexivity|exact F0]|]. destruct C as [C|p C Hh|p b links' pos lc v2 C Hh Nl Hs']; [split; [reflexivity|exact F0]|exact (choose_first N m v p P0 L _ C)|].
      exfalso. apply Nl. rewrite <- Hh. symmetry. apply (choose_first N m v p P0 L _ C). }
    destruct E3 as [(E3 & _)|E3]; [left; unfold v_link at 1; rewrite E3; exact L1|]. right. rewrite E3 in Ne. unfold v_link at 2. rewrite E3.
    destruct (v_route v1) as [|x [|y q]]; [contradiction|contradiction|]. exists x, y. split; [rewrite <- L1; reflexivity|]. split; [reflexivity|]. apply F1.
  Qed.
  Lemma history_stays N m k (P : key -> Prop) s ops s' : flat m -> (forall x l, sm_get N x = Some l -> lk_changes l = []) -> (forall x y, P x -> first_of N m x y -> P y) -> history s ops s' -> Inv s -> same_net N (s_links s) ->
    (forall o, In o ops -> redirects k o = false /\ moves k o = false /\ builds o = false) -> sm_issued (s_vehicles s) k ->
    (forall v, sm_get (s_vehicles s) k = Some v -> firstly N m v /\ forall x, v_link v = Some x -> P x) -> forall v' x, sm_get (s_vehicles s') k = Some v' -> v_link v' = Some x -> P x.
  Proof.
    intros Fl Nc Cl H. induction H as [|e s o s1 ops s' H Hh IH]; intros I Sn Ho Is K v' x G L; [exact (proj2 (K v' G) x L)|]. destruct (Ho o (or_introl eq_refl)) as (Hr & Hmv & Hb).
    apply (IH (exec_Inv _ _ _ _ I H)) with v'; auto.
    - eapply same_net_trans; [exact Sn|]. eapply history_static; [econstructor; [exact H|constructor]|exact I|]. intros o' [<-|[]]. exact Hb.
    - intros; apply Ho; right; auto.
    - eapply history_issued; [econstructor; [exact H|constructor]|exact I|exact Is].
    - intros v1 G1. split; [eapply exec_first; eauto; intros w Gw; apply (K w Gw)|]. intros y Ly. clear IH Hh.
      destruct (is_step o) eqn:Hs.
      + destruct o; try discriminate Hs. destruct (step_exit _ _ _ _ _ _ I H G1) as (v & _ & _ & Gv & _). destruct (K v Gv) as (F & P0).
        destruct (step_first N m e s dt s1 k v v1 I F H Gv G1) as [E|(a & b & La & Lb & Fab)]; [apply P0; congruence|]. assert (b = y) by congruence. subst b. exact (Cl a y (P0 a La) Fab).
      + destruct (call_exit _ _ _ _ _ _ I H Hs G1) as [(v & Gv & E1 & _)|(_ & [D|[D|(a & l & _ & ->)]])]; [|congruence|congruence|].
        * apply (K v Gv). unfold v_link in *. rewrite <- E1. exact Ly.
        * exfalso. revert Is. apply next_key_not_issued. apply I.
  Qed.
End First.
