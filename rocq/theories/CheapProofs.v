(** * Which way a vehicle takes on roads without lanes beside each other *)
From Coq Require Import List Bool ZArith NArith Arith Lia Reals Lra Relation_Operators Operators_Properties.
From Verif Require Import Arith RealArith Base BaseProofs SlotMap Util Geom Light Accel Net Path Vehicle LinkOps Sim SpecLight LightProofs SpecSim SlotMapProofs Safe NetInv SimInv AccSafe SimSafe StepSafe OpSafe Evo StepEvo SimProofs StepProofs Ord LogProofs SpecMotion Motion RFacts P_Motion SpecRoute PlanProofs RouteProofs RouteEvo P_Route P_Exit NetEvo P_Lane SpecEnter EnterProofs P_Enter SpecAhead P_Ahead SpecConf ConfProofs P_Conf SpecSide SpecReason P_Reason P_Alone QueueProofs ArriveKin SpecArrive ArriveProofs WhereProofs SpecCheap.
Import ListNotations.

Local Notation drive := SpecRoute.drive.
Section Cheap.
  Context {A : Arith}.
  Lemma table_nodes links d route m : (forall x l, sm_get links x = Some l -> lk_group l = None) -> calc_lane_matrix links d route = Ok m -> forall x, inM m x -> x = d \/ In x route.
  Proof.
    intros Gr H. unfold calc_lane_matrix in H. assert (forall x, inM (mx_insert [] d dists_exit) x -> x = d \/ In x route) as C0.
    { intros a Ha. apply inM_insert in Ha. destruct Ha as [->|Ha]; auto. exfalso. apply Ha. reflexivity. }
    assert (forall x, In x (rev route) -> In x route) as Rv by (intros x Hx; apply in_rev; exact Hx).
    revert C0 H Rv. generalize (mx_insert [] d dists_exit). generalize (rev route). intros q. induction q as [|x q IH]; intros m0 C0 H Rv; cbn [foldM] in H; [injection H as <-; exact C0|].
    bok H m1 Hx. apply (IH m1); [|exact H|intros y Hy; apply Rv; right; exact Hy]. clear IH H. unfold matrix_step in Hx. bok Hx l Gl. unfold get_link in Gl. destruct (sm_get links x) as [l'|] eqn:E; [|discriminate Gl]. injection Gl as ->. bok Hx m2 Hf.
    rewrite (Gr _ _ E) in Hx. injection Hx as <-. unfold group_links in Hf. rewrite (Gr _ _ E) in Hf. cbn [foldM] in Hf. bok Hf m3 Hb. injection Hf as ->.
    unfold propagate_back in Hb. unfold get_link in Hb. rewrite E in Hb. cbn [of_option bind] in Hb. destruct (reduce _ _) as [d1|] eqn:Er; [|injection Hb as <-; exact C0].
    injection Hb as <-. intros a Ha. apply inM_insert in Ha. destruct Ha as [->|Ha]; [right; apply Rv; left; reflexivity|auto].
  Qed.

  Section Net.
    Variable links : linkset.
    Hypothesis NoCh : forall x l, sm_get links x = Some l -> lk_changes l = [].
    Hypothesis Pos : forall x l, sm_get links x = Some l -> (0 <= lk_cost l)%Z.
    Lemma no_change a x : changes links a x -> a = x.
    Proof.
      intros H. unfold changes in H. induction H as [a b (l & G & Hb)|a|a b c _ IH1 _ IH2]; [|reflexivity|congruence]. rewrite (NoCh _ _ G) in Hb. destruct Hb.
    Qed.
    Lemma drive_in a p d c : drive links a p d c -> In a p /\ In d p /\ (0 <= c)%Z.
    Proof.
      induction 1 as [a|a x l b p d z Hc G Hb _ IH]; [repeat split; [left; auto|left; auto|lia]|]. destruct IH as (_ & I2 & I3). pose proof (Pos _ _ G). repeat split; [left; auto|right; exact I2|lia].
    Qed.
    Lemma drive_suffix a p d c y : drive links a p d c -> In y p ->
      exists p1 p2 c1 c2, p = p1 ++ p2 /\ drive links y p2 d c2 /\ c = (c1 + c2)%Z /\ (0 <= c1)%Z /\ (forall q c', drive links y q d c' -> drive links a (p1 ++ q) d (c1 + c')) /\
        (y = a \/ In a p1) /\ (forall x, In x p1 -> clos_trans key (succ_of links) x y).
    Proof.
      induction 1 as [a|a x l b p d z Hc G Hb D IH]; intros Hy.
      - destruct Hy as [<-|[]]. exists [], [a], 0%Z, 0%Z. split; [reflexivity|]. split; [constructor|]. split; [reflexivity|]. split; [lia|]. split; [intros q c' D; exact D|]. split; [auto|]. intros x [].
      - apply no_change in Hc. subst x. destruct (key_eqb_spec y a) as [->|Ny].
        + exists [], (a :: p), 0%Z, (lk_cost l + z)%Z. split; [reflexivity|]. split; [econstructor; [apply rt_refl|exact G|exact Hb|exact D]|]. split; [lia|]. split; [lia|]. split; [intros q c' D'; exact D'|]. split; [auto|]. intros x [].
        + destruct Hy as [->|Hy]; [contradiction|]. destruct (IH Hy) as (p1 & p2 & c1 & c2 & Ep & D2 & Ec & P1 & Ext & Hd & Bef). pose proof (Pos _ _ G) as Pl.
          exists (a :: p1), p2, (lk_cost l + c1)%Z, c2. split; [rewrite Ep; reflexivity|]. split; [exact D2|]. split; [lia|]. split; [lia|]. split.
          { intros q c' Dq. cbn [app]. rewrite <- Z.add_assoc. econstructor; [apply rt_refl|exact G|exact Hb|exact (Ext _ _ Dq)]. }
          split; [right; left; reflexivity|]. assert (succ_of links a b) as Sab by (exists l; auto). intros x [<-|Hx]; [|exact (Bef x Hx)].
          destruct Hd as [->|Hd]; [apply t_step; exact Sab|]. apply t_trans with b; [apply t_step; exact Sab|exact (Bef b Hd)].
    Qed.
    (** On a cheapest way through roads without a way back, going on to any link of the way is cheapest. *)
    Lemma cheap_next a r d c x y l : no_way_back links -> drive links a r d c -> (forall p' c', drive links a p' d c' -> (c <= c')%Z) -> In x r -> In y r -> sm_get links x = Some l -> In y (lk_out l) ->
      exists p, cheapest links x (x :: p) d /\ hd_error p = Some y.
    Proof.
      intros Ac D Mn Hx Hy G Hl. destruct (drive_suffix _ _ _ _ x D Hx) as (p1 & p2 & c1 & c2 & Ep & D2 & Ec & P1 & Ext & _ & Bef).
      assert (succ_of links x y) as Sxy by (exists l; auto). assert (x <> y) as Nxy by (intros <-; apply (Ac x); apply t_step; exact Sxy).
      assert (In y p2) as Hy2. { rewrite Ep in Hy. apply in_app_iff in Hy. destruct Hy as [Hy|Hy]; auto. exfalso. apply (Ac y). apply t_trans with x; [exact (Bef y Hy)|apply t_step; exact Sxy]. }
      inversion D2 as [|? x0 l0 b q ? z Hc0 G0 Hb0 D3]; subst; [destruct Hy2 as [Hy2|[]]; congruence|]. apply no_change in Hc0. subst x0. assert (l0 = l) by congruence. subst l0. destruct Hy2 as [Hy2|Hy2]; [congruence|].
      destruct (drive_suffix _ _ _ _ y D3 Hy2) as (q1 & q2 & e1 & e2 & Eq & D4 & Ee & Q1 & _).
      exists q2. split.
      - exists (lk_cost l + e2)%Z. split; [econstructor; [apply rt_refl|exact G|exact Hl|exact D4]|]. intros p' c' D'. specialize (Mn _ _ (Ext _ _ D')). lia.
      - destruct D4; reflexivity.
    Qed.
    Lemma cheap_chain a r d c q x : no_way_back links -> drive links a r d c -> (forall p' c', drive links a p' d c' -> (c <= c')%Z) -> chain links (x :: q) -> (forall y, In y (x :: q) -> In y r) ->
      exists p, cheapest links x ((x :: q) ++ p) d.
    Proof.
      intros Ac D Mn. revert x. induction q as [|y q IH]; intros x Ch Hr.
      - destruct (drive_suffix _ _ _ _ x D (Hr x (or_introl eq_refl))) as (p1 & p2 & c1 & c2 & Ep & D2 & Ec & P1 & Ext & _ & _).
        assert (exists p, p2 = x :: p) as (p & Ep2) by (destruct D2; eauto). exists p. cbn [app]. rewrite <- Ep2. exists c2. split; [exact D2|]. intros p' c' D'. specialize (Mn _ _ (Ext _ _ D')). lia.
      - cbn [chain] in Ch. destruct Ch as (_ & Ss & Ch). destruct (IH y Ch (fun z Hz => Hr z (or_intror Hz))) as (p & c2 & D2 & M2). destruct Ss as (l & G & Hl).
        destruct (cheap_next a r d c x y l Ac D Mn (Hr x (or_introl eq_refl)) (Hr y (or_intror (or_introl eq_refl))) G Hl) as (p3 & (c3 & D3 & M3) & E3).
        exists p. exists (lk_cost l + c2)%Z. split; [cbn [app]; econstructor; [apply rt_refl|exact G|exact Hl|exact D2]|].
        intros p' c' D'. specialize (M3 _ _ D'). inversion D3 as [|? x0 l0 b p4 ? z Hc0 G0 Hb0 D4]; subst; [discriminate E3|]. apply no_change in Hc0. subst x0. assert (l0 = l) by congruence. subst l0.
        assert (b = y) by (destruct D4; injection E3 as <-; reflexivity). subst b. specialize (M2 _ _ D4). lia.
    Qed.
  End Net.

  (** The table after a destination was set. *)
  Lemma dest_table ops e s k d s' v v' : history sim_new ops s -> groups_apart ops -> @cast_in_range A -> exec e s (OSetDestination k d) = Ok s' ->
    vehicle_at s k = Some v -> vehicle_at s' k = Some v' -> no_lanes s -> leads (s_links s) (pf_src (v_pathfind v)) d ->
    exists r c, drive (s_links s) (pf_src (v_pathfind v)) r d c /\ (forall p' c', drive (s_links s) (pf_src (v_pathfind v)) p' d c' -> (c <= c')%Z) /\
      forall x, inM (pf_matrix (v_pathfind v')) x -> In x r.
  Proof.
    intros Hist Ap Cast H G G' Gr Ld. pose proof (history_Inv _ _ _ Hist Inv_new) as I. unfold vehicle_at in *. cbn [exec] in H. unfold set_vehicle_destination in H. bok H v0 Hv0. bok H v1 Hv1. injection H as <-.
    unfold get_vehicle in Hv0. rewrite G in Hv0. injection Hv0 as <-. cbn [s_vehicles with_vehicles] in G'. rewrite sm_get_set, key_eqb_refl in G'.
    replace (sm_mem (s_vehicles s) k) with true in G' by (symmetry; apply sm_mem_get; eauto). injection G' as <-.
    unfold set_destination in Hv1. bok Hv1 pfb Hpb. injection Hv1 as <-. cbn [set_can_exit set_pathfind v_route v_pathfind s_links with_vehicles].
    unfold pf_set_destination in Hpb. apply bind_ok in Hpb. destruct Hpb as (pfa & Ha & Hpl). apply make_paths_planned in Hpl. destruct Hpl as (M1 & M2 & M3 & M4). rewrite M3.
    pose proof (vbase_src _ _ _ _ (st_veh _ _ _ (i_st _ I) _ _ G)) as Vs.
    unfold reroute in Ha. cbn [pf_src pf_dst] in Ha.
    replace (key_eqb (pf_src (v_pathfind v)) null_key) with false in Ha by (symmetry; apply key_eqb_neq, (valid_not_null ops s _ Hist (same_net_refl _)); auto).
    destruct (key_eqb_spec d null_key) as [->|Nd].
    { exfalso. apply (valid_not_null ops s (s_links s) Hist (same_net_refl _) null_key); auto. apply clos_rt_rtn1 in Ld.
      destruct Ld as [|y z [St|St] _]; auto; [apply (succ_valid ops s (s_links s) Hist (same_net_refl _)) in St|apply (chg_valid ops s (s_links s) Hist (same_net_refl _)) in St]; apply St. }
    cbn [orb] in Ha. bok Ha dl Gd0. unfold get_link in Gd0. destruct (sm_get (s_links s) d) as [dl'|] eqn:Gd; [|discriminate Gd0]. injection Gd0 as ->. bok Ha dsts Hd. bok Ha r Hr.
    pose proof (search_ok ops s (s_links s) Hist (same_net_refl _) Ap (costs_ok ops s Hist Cast (s_links s) (same_net_refl _)) (e_fuel e) (e_pick e (s_links s) (pf_src (v_pathfind v)) d) _ _ _ _ Vs Gd Hd) as Q. rewrite Hr in Q.
    destruct r as [(p, c)|]; [|exfalso; apply Q; exact Ld]. bok Ha m Hmx. injection Ha as <-. cbn [pf_matrix].
    destruct Q as ((b & Db & Cb) & Mn). assert (forall x l, sm_get (s_links s) x = Some l -> lk_changes l = []) as Nc by (intros x l Gx; apply (Gr x l Gx)).
    apply (no_change (s_links s) Nc) in Cb. subst b. exists p, c. split; [exact Db|]. split; [intros p' c' D'; exact (Mn p' d c' D' (rt_refl _ _ _))|].
    intros x Hx. destruct (table_nodes (s_links s) d p m (fun x l Gx => proj1 (Gr x l Gx)) Hmx x Hx) as [->|Hx']; [|exact Hx'].
    apply (drive_in (s_links s)) in Db; [apply Db|]. intros y l Gy. exact (costs_ok ops s Hist Cast (s_links s) (same_net_refl _) y l Gy).
  Qed.

  (** From then on the vehicle stays on the links of one cheapest way. *)
  Lemma sent_cheap ops1 e s0 k d s1 ops2 s v0 a : @cast_in_range A -> history sim_new ops1 s0 -> groups_apart ops1 ->
    vehicle_at s0 k = Some v0 -> v_route v0 = [a] -> leads (s_links s0) a d -> exec e s0 (OSetDestination k d) = Ok s1 -> history s1 ops2 s ->
    (forall o, In o ops2 -> redirects k o = false /\ moves k o = false /\ builds o = false) -> no_lanes s0 ->
    same_net (s_links s0) (s_links s) /\ Inv s /\ (forall x l, sm_get (s_links s0) x = Some l -> (0 <= lk_cost l)%Z) /\
    exists r c, drive (s_links s0) a r d c /\ (forall p' c', drive (s_links s0) a p' d c' -> (c <= c')%Z) /\
      forall e' dt s' v, s = s' \/ step e' s dt = Ok s' -> vehicle_at s' k = Some v -> forall x, In x (v_route v) -> In x r.
  Proof.
    intros Cast Hist Ap G0 R0 Ld H H2 Ho Nl. pose proof (history_Inv _ _ _ Hist Inv_new) as I0. pose proof (exec_Inv _ _ _ _ I0 H) as I1.
    assert (v_link v0 = Some a) as L0 by (unfold v_link; rewrite R0; reflexivity).
    destruct (dest_there _ _ _ _ _ H) as (v0' & v1 & _ & G1).
    destruct (dest_bound _ _ _ _ _ _ _ _ Hist Ap Cast H G0 G1) as (El & Er & Es & Ed & Fo & Pl & _ & _).
    destruct (link_src _ _ _ _ I0 G0 L0) as (Sa & _).
    pose proof (history_Inv _ _ _ H2 I1) as I.
    split. { rewrite <- El. apply (history_static s1 ops2 s H2 I1). intros o Hi. apply (Ho o Hi). }
    split; [exact I|]. split; [exact (costs_ok ops1 s0 Hist Cast (s_links s0) (same_net_refl _))|].
    destruct (dest_table ops1 e s0 k d s1 v0 v1 Hist Ap Cast H G0 G1 Nl) as (r & c & D & Mn & T); [rewrite Sa; exact Ld|]. rewrite Sa in *.
    exists r, c. split; [exact D|]. split; [exact Mn|].
    assert (on_track (pf_matrix (v_pathfind v1)) v1) as T1.
    { split; auto. split; [|intros p y Hp Hy; eapply planned_in; eauto]. intros y Hy. rewrite Er, R0 in Hy. destruct Hy as [<-|[]]. unfold RouteEvo.found in Fo. rewrite Es, Ed in Fo. auto. }
    intros e' dt s' v Hs G x Hx. apply T.
    assert (forall v', sm_get (s_vehicles s) k = Some v' -> on_track (pf_matrix (v_pathfind v1)) v') as Ks.
    { apply (history_track s1 ops2 s (pf_matrix (v_pathfind v1)) k H2 I1); [intros o Hi; destruct (Ho o Hi) as (Q1 & Q2 & _); auto|exact (issued_mem _ _ _ G1)|]. intros w Gw. unfold vehicle_at in G1. rewrite G1 in Gw. injection Gw as <-. exact T1. }
    assert (on_track (pf_matrix (v_pathfind v1)) v) as (_ & K2 & _). { destruct Hs as [<-|Hs]; [exact (Ks v G)|]. destruct (step_track _ _ _ _ I Hs (pf_matrix (v_pathfind v1)) _ _ G) as (w & Gw & K). auto. }
    exact (K2 x Hx).
  Qed.
End Cheap.
