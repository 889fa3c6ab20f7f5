(** * Candidate paths: what [make_paths] computes, and how the routing of a vehicle changes in a call *)
From Coq Require Import List Bool ZArith NArith Arith Lia Relation_Operators Operators_Properties.
From Verif Require Import Arith Base BaseProofs SlotMap SlotMapProofs Util Geom Light Accel Net Path Vehicle LinkOps Sim
  SpecSim SpecRoute Safe NetInv SimInv SimSafe StepSafe OpSafe Evo StepEvo SimProofs P_Lane DijProofs RouteProofs.
Import ListNotations.

Section Plan.
  Context {A : Arith}.
  Lemma plan_table links table room dist a p : plan links table room dist a p -> table a.
  Proof. intros H. inversion H; auto. Qed.
  Lemma inner_ok room links mx dst pre id dist r : make_paths_inner room links mx dst pre id dist = Ok r ->
    (fst r = true <-> inM mx id) /\
    (forall p, In p (snd r) -> exists ks, plan links (inM mx) room dist id ks /\ pt_links p = pre ++ ks /\ pt_exit p = key_eqb (last ks null_key) dst) /\
    (forall ks, plan links (inM mx) room dist id ks -> exists p, In p (snd r) /\ pt_links p = pre ++ ks).
  Proof.
    revert pre id dist r. induction room as [|room IH]; intros pre id dist r H; cbn [make_paths_inner] in H.
    - unfold inM at 1. destruct (mx_get mx id) as [d|] eqn:E; injection H as <-; cbn [fst snd].
      + split; [split; auto; discriminate|]. assert (inM mx id) as I by (unfold inM; congruence). split.
        * intros p [<-|[]]. exists [id]. split; [constructor; auto|]. auto.
        * intros ks Pk. inversion Pk; subst. eexists. split; [left; reflexivity|reflexivity].
      + split; [split; [discriminate|congruence]|]. split; [intros p []|]. intros ks Pk. apply plan_table in Pk. unfold inM in Pk. congruence.
    - destruct (mx_get mx id) as [d|] eqn:E; [|injection H as <-; cbn [fst snd]; split; [unfold inM; split; [discriminate|congruence]|]; split; [intros p []|]; intros ks Pk; apply plan_table in Pk; unfold inM in Pk; congruence].
      assert (inM mx id) as I by (unfold inM; congruence). unfold PLAN_DIST in H. destruct (nltb dist (nofZ 200)) eqn:Ld.
      + bok H l G. unfold get_link in G. destruct (sm_get links id) as [l'|] eqn:Gl; [|discriminate G]. injection G as ->. bok H rs Hm.
        assert (existsb fst rs = true <-> exists b, succ_of links id b /\ inM mx b) as Ex.
        { rewrite existsb_exists. split.
          - intros (r0 & Hr & F). destruct (mapM_in _ _ _ _ Hm Hr) as (b & Hb & Eb). destruct (IH _ _ _ _ Eb) as (K & _). exists b. split; [exists l; auto|apply K; auto].
          - intros (b & (l2 & G2 & Hb) & Ib). rewrite Gl in G2. injection G2 as <-. destruct (mapM_in_l _ _ _ _ Hm Hb) as (r0 & Hr & Eb). exists r0. split; auto. destruct (IH _ _ _ _ Eb) as (K & _). apply K; auto. }
        assert (forall p, In p (concat (map snd rs)) <-> exists b r0, In b (lk_out l) /\ make_paths_inner room links mx dst (pre ++ [id]) b (nadd dist (lk_length l)) = Ok r0 /\ In p (snd r0)) as Sub.
        { intros p. rewrite in_concat. split.
          - intros (x & Hx & Hp). apply in_map_iff in Hx. destruct Hx as (r0 & <- & Hr). destruct (mapM_in _ _ _ _ Hm Hr) as (b & Hb & Eb). eauto.
          - intros (b & r0 & Hb & Eb & Hp). destruct (mapM_in_l _ _ _ _ Hm Hb) as (r1 & Hr & Eb1). cbv beta in Eb1. rewrite Eb in Eb1. injection Eb1 as <-. exists (snd r0). split; auto. apply in_map; auto. }
        assert (fst r = true /\ forall p, In p (snd r) <-> In p (concat (map snd rs)) \/ (existsb fst rs = false /\ p = Path (pre ++ [id]) (dists_offset d dist) (key_eqb id dst))) as (F & S).
        { destruct (existsb fst rs); injection H as <-; cbn [fst snd]; split; auto; intros p; [split; [auto|intros [|(? & _)]; [auto|discriminate]]|].
          rewrite in_app_iff. simpl. split; [intros [|[<-|[]]]; auto|intros [|(_ & ->)]; auto]. }
        split; [split; auto|]. split.
        * intros p Hp. apply S in Hp. destruct Hp as [Hp|(N & ->)].
          -- apply Sub in Hp. destruct Hp as (b & r0 & Hb & Eb & Hp). destruct (IH _ _ _ _ Eb) as (_ & K & _). destruct (K _ Hp) as (ks & Pk & Ek & Xk). exists (id :: ks).
             split; [eapply plan_on; eauto|]. split; [rewrite Ek, <- app_assoc; auto|]. rewrite Xk. destruct ks; [inversion Pk|reflexivity].
          -- exists [id]. split; [|auto]. constructor; auto. right. right. intros b Sb Ib. rewrite (proj2 Ex) in N by eauto. discriminate N.
        * intros ks Pk. inversion Pk as [rm ds a T Stop|rm ds a l2 b ks' T Ld2 G2 Hb Pb]; subst.
          -- destruct Stop as [Z|[Z|Z]]; [discriminate Z|congruence|]. exists (Path (pre ++ [id]) (dists_offset d dist) (key_eqb id dst)). split; [|reflexivity]. apply S. right. split; auto.
             apply not_true_is_false. rewrite Ex. intros (b & Sb & Ib). exact (Z b Sb Ib).
          -- rewrite Gl in G2. injection G2 as <-. destruct (mapM_in_l _ _ _ _ Hm Hb) as (r0 & Hr & Eb). cbv beta in Eb. destruct (IH _ _ _ _ Eb) as (_ & _ & K). destruct (K _ Pb) as (p & Hp & Ep).
             exists p. split; [apply S; left; apply Sub; eauto|]. rewrite Ep, <- app_assoc. auto.
      + injection H as <-. cbn [fst snd]. split; [split; auto|]. split.
        * intros p [<-|[]]. exists [id]. split; [constructor; auto|]. auto.
        * intros ks Pk. inversion Pk; subst; [|congruence]. eexists. split; [left; reflexivity|reflexivity].
  Qed.

  (** The paths of a vehicle's routing are all planned paths over its table, and only those. *)
  Definition planned_all (links : linkset) (pf : pathfind) : Prop :=
    (forall p, In p (pf_paths pf) -> planned links (inM (pf_matrix pf)) (pf_src pf) (pt_links p) /\ (pt_exit p = true <-> last (pt_links p) null_key = pf_dst pf)) /\
    (forall ks, planned links (inM (pf_matrix pf)) (pf_src pf) ks -> In ks (map pt_links (pf_paths pf))).
  Lemma make_paths_planned links pf pf' : make_paths links pf = Ok pf' ->
    pf_src pf' = pf_src pf /\ pf_dst pf' = pf_dst pf /\ pf_matrix pf' = pf_matrix pf /\ planned_all links pf'.
  Proof.
    unfold make_paths. intros H. bok H r0 H0. bok H l G. unfold get_link in G. destruct (sm_get links (pf_src pf)) as [l'|] eqn:Gl; [|discriminate G]. injection G as ->. bok H rs Hm.
    injection H as <-. cbn [pf_src pf_dst pf_matrix pf_paths]. split; auto. split; auto. split; auto. unfold planned_all. cbn [pf_src pf_dst pf_matrix pf_paths].
    destruct (inner_ok _ _ _ _ _ _ _ _ H0) as (_ & A1 & A2).
    assert (forall p, In p (concat (map snd rs)) <-> exists a r, In a (lk_changes l) /\ make_paths_inner 7 links (pf_matrix pf) (pf_dst pf) [] a n0 = Ok r /\ In p (snd r)) as Sub.
    { intros p. rewrite in_concat. split.
      - intros (x & Hx & Hp). apply in_map_iff in Hx. destruct Hx as (r & <- & Hr). destruct (mapM_in _ _ _ _ Hm Hr) as (a & Ha & Ea). eauto.
      - intros (a & r & Ha & Ea & Hp). destruct (mapM_in_l _ _ _ _ Hm Ha) as (r1 & Hr & E1). cbv beta in E1. rewrite Ea in E1. injection E1 as <-. exists (snd r). split; auto. apply in_map; auto. }
    split.
    - intros p Hp. apply in_app_iff in Hp. destruct Hp as [Hp|Hp].
      + destruct (A1 _ Hp) as (ks & Pk & Ek & Xk). simpl in Ek. rewrite Ek. split; [exists (pf_src pf); auto|]. rewrite Xk. apply key_eqb_eq.
      + apply Sub in Hp. destruct Hp as (a & r & Ha & Ea & Hp). destruct (inner_ok _ _ _ _ _ _ _ _ Ea) as (_ & B1 & _). destruct (B1 _ Hp) as (ks & Pk & Ek & Xk). simpl in Ek. rewrite Ek.
        split; [exists a; split; auto; right; exists l; auto|]. rewrite Xk. apply key_eqb_eq.
    - intros ks (a & [->|Ha] & Pk); rewrite map_app, in_app_iff.
      + left. destruct (A2 _ Pk) as (p & Hp & Ep). simpl in Ep. rewrite <- Ep. apply in_map; auto.
      + right. destruct Ha as (l2 & G2 & Ha). rewrite Gl in G2. injection G2 as <-. destruct (mapM_in_l _ _ _ _ Hm Ha) as (r & Hr & Ea). cbv beta in Ea.
        destruct (inner_ok _ _ _ _ _ _ _ _ Ea) as (_ & _ & B2). destruct (B2 _ Pk) as (p & Hp & Ep). simpl in Ep. rewrite <- Ep. apply in_map. apply Sub. eauto.
  Qed.
End Plan.

(** ** How the routing of a vehicle changes *)
Section PfEvo.
  Context {A : Arith}.
  (** The vehicle was put on another link, in a network that differs at most in its vehicles and lights. *)
  Definition pf_step (links : linkset) (pf pf' : pathfind) : Prop :=
    exists e links' id, same_net links links' /\ valid links id /\ set_origin e links' pf id = Ok pf'.
  Definition pf_evo (links : linkset) : pathfind -> pathfind -> Prop := clos_refl_trans pathfind (pf_step links).
  Lemma pf_step_net links links' pf pf' : same_net links links' -> pf_step links' pf pf' -> pf_step links pf pf'.
  Proof. intros S (e & l2 & id & S2 & V & H). exists e, l2, id. split; [eapply same_net_trans; eauto|]. split; auto. apply (same_net_valid _ _ _ S); auto. Qed.
  Lemma pf_evo_net links links' pf pf' : same_net links links' -> pf_evo links' pf pf' -> pf_evo links pf pf'.
  Proof. intros S H. induction H; [apply rt_step; eapply pf_step_net; eauto|apply rt_refl|eapply rt_trans; eauto]. Qed.

  Lemma set_location_pf e links links' v id pos lc v' : same_net links links' -> valid links id -> set_location e links' v id pos lc = Ok v' ->
    pf_step links (v_pathfind v) (v_pathfind v').
  Proof. intros S V H. unfold set_location in H. bok H pf Hpf. injection H as <-. exists e, links', id. auto. Qed.
  Lemma insert_upd_net links lid vs k links' : upd_link links lid (insert_vehicle vs k) = Ok links' -> same_net links links'.
  Proof.
    unfold upd_link, get_link. intros H. destruct (sm_get links lid) as [l|] eqn:G; [|discriminate H]. cbn [of_option bind] in H.
    bok H l' Hi. injection H as <-. unfold insert_vehicle in Hi. bok Hi v Hv. bok Hi i Hx. injection Hi as <-. apply insert_same_net; auto.
  Qed.
  Lemma do_lane_change_pf e s id lid dist s' : do_lane_change e s id lid dist = Ok s' ->
    same_net (s_links s) (s_links s') /\ exists v v', sm_get (s_vehicles s) id = Some v /\ s_vehicles s' = sm_set (s_vehicles s) id v' /\
      pf_step (s_links s) (v_pathfind v) (v_pathfind v').
  Proof.
    unfold do_lane_change. intros H. bok H v Hv. bok H links Hl. bok H l Gl. bok H o Ho. bok H o2 Ho2. destruct o as [((pos, off), slope)|]; [|discriminate Ho2]. injection Ho2 as <-.
    bok H v' Hs. bok H links2 Hi. injection H as <-. cbn [s_links s_vehicles with_links with_vehicles].
    assert (same_net (s_links s) links) as S1.
    { destruct (v_link v); [eapply upd_remove_length; eauto|]. injection Hl as <-. apply same_net_refl. }
    split; [eapply same_net_trans; [exact S1|eapply insert_upd_net; eauto]|]. unfold get_vehicle in Hv. destruct (sm_get (s_vehicles s) id) as [v0|]; [|discriminate Hv]. injection Hv as ->.
    exists v, v'. split; auto. split; auto. eapply set_location_pf; [exact S1| |exact Hs]. unfold get_link in Gl. destruct (sm_get links lid) eqn:G; [|discriminate Gl].
    apply (same_net_valid _ _ _ S1). apply sm_mem_get. eauto.
  Qed.
  Lemma exec_change_pf e s vp s' : exec_change e s vp = Ok s' ->
    same_net (s_links s) (s_links s') /\ forall k v', sm_get (s_vehicles s') k = Some v' -> exists v, sm_get (s_vehicles s) k = Some v /\ pf_evo (s_links s) (v_pathfind v) (v_pathfind v').
  Proof.
    unfold exec_change. intros H. bok H lid Hl. bok H s1 H1. bok H v1 Hv1. injection H as <-. cbn [s_links s_vehicles with_vehicles]. apply do_lane_change_pf in H1. destruct H1 as (S & v & v2 & Gv & Es & P).
    split; auto. intros k v' G. unfold get_vehicle in Hv1. rewrite Es in Hv1, G. rewrite !sm_get_set, sm_mem_set in G. rewrite sm_get_set, key_eqb_refl in Hv1.
    replace (sm_mem (s_vehicles s) (fst vp)) with true in * by (symmetry; apply sm_mem_get; eauto). simpl in Hv1. injection Hv1 as <-.
    destruct (key_eqb_spec (fst vp) k) as [<-|N]; simpl in G.
    - injection G as <-. exists v. split; auto. apply rt_step. exact P.
    - exists v'. split; auto. apply rt_refl.
  Qed.
  Lemma lane_changes_pf e s s' : St (s_links s) (s_vehicles s) (s_seq s) -> calculate_lane_changes e s = Ok s' ->
    forall k v', sm_get (s_vehicles s') k = Some v' -> exists v, sm_get (s_vehicles s) k = Some v /\ pf_evo (s_links s) (v_pathfind v) (v_pathfind v').
  Proof.
    intros S H. unfold calculate_lane_changes in H. destruct (nltb _ _).
    { injection H as <-. intros k v' Hk. exists v'. split; auto. apply rt_refl. }
    bok H x Hx. destruct x as [acc vs1]. cbn [fst snd] in *. destruct (choose_all_evo _ _ _ _ _ S Hx) as (K1 & _).
    assert (forall acc s2 s3, foldM (exec_change e) acc s2 = Ok s3 -> same_net (s_links s) (s_links s2) ->
      (forall k v', sm_get (s_vehicles s2) k = Some v' -> exists v, sm_get (s_vehicles s) k = Some v /\ pf_evo (s_links s) (v_pathfind v) (v_pathfind v')) ->
      forall k v', sm_get (s_vehicles s3) k = Some v' -> exists v, sm_get (s_vehicles s) k = Some v /\ pf_evo (s_links s) (v_pathfind v) (v_pathfind v')) as G.
    { clear. induction acc as [|vp acc IH]; intros s2 s3 Hf Sn Hs; cbn [foldM] in Hf; [injection Hf as <-; auto|].
      bok Hf s4 H4. apply exec_change_pf in H4. destruct H4 as (Sn4 & P4). apply (IH s4 s3 Hf); [eapply same_net_trans; eauto|].
      intros k v' Hk. destruct (P4 _ _ Hk) as (v1 & G1 & E1). destruct (Hs _ _ G1) as (v0 & G0 & E0). exists v0. split; auto. eapply rt_trans; [exact E0|eapply pf_evo_net; eauto]. }
    eapply G; [exact H|apply same_net_refl|]. cbn [s_vehicles with_vehicles]. intros k v' Hk. destruct (K1 _ _ Hk) as (v & Gv & _ & ((_ & _ & _ & Ep) & _) & _).
    exists v. split; auto. rewrite Ep. apply rt_refl.
  Qed.
  Lemma advance_pf e s s' : St (s_links s) (s_vehicles s) (s_seq s) -> advance_vehicles e s = Ok s' ->
    forall k v', sm_get (s_vehicles s') k = Some v' -> exists v, sm_get (s_vehicles s) k = Some v /\ pf_evo (s_links s) (v_pathfind v) (v_pathfind v').
  Proof.
    intros S H. unfold advance_vehicles in H. bok H x Hx. destruct x as [[links [adv ex]] vs]. bok H l2 Hl. injection H as <-. cbn [s_vehicles with_vehicles with_links].
    intros k v' Hk. rewrite sm_get_fold_remove in Hk. destruct (key_mem k ex); [discriminate Hk|].
    destruct (sm_mapS_pointwise (advance_one e) (fun st : linkset * (list (key * key) * list key) => same_net (s_links s) (fst st)) (s_vehicles s) (s_links s, ([], [])) _ _
       ltac:(intros st kk vv st' vv' _ P Ho; destruct st as [a [b c]]; destruct st' as [a' [b' c']]; cbn [fst] in *; apply advance_one_ok in Ho; destruct Ho as (_ & Sn & _); eapply same_net_trans; eauto)
       (same_net_refl _) Hx) as (_ & _ & K2).
    destruct (K2 _ _ Hk) as (st & st' & v & Sn & Sn' & Ho & Gv). exists v. split; auto.
    destruct st as [ls [ad x]]. cbn [fst] in Sn. unfold advance_one in Ho. bok Ho lid Hlid. bok Ho bv Ha. 
    assert (v' = snd bv) as ->.
    { destruct (fst bv); [|injection Ho as _ <-; auto]. bok Ho l3 H3. destruct (v_link (snd bv)); injection Ho as _ <-; auto. }
    clear Ho. unfold advance in Ha. destruct (v_route v) as [|id rest] eqn:Er; [injection Ha as <-; apply rt_refl|].
    bok Ha l G. destruct (nltb (lk_length l) (v_pos v)); [|injection Ha as <-; apply rt_refl].
    bok Ha pf Hpf. destruct (v_entered v); [discriminate Ha|]. injection Ha as <-. cbn [snd v_pathfind].
    destruct rest as [|id' rest]; [injection Hpf as <-; apply rt_refl|]. apply rt_step. exists e, ls, id'. split; auto. split; auto.
    eapply chain_valid; [apply (vb_chain _ _ _ _ (st_veh _ _ _ S _ _ Gv))|]. rewrite Er. right. left. auto.
  Qed.
  Lemma step_pf e s dt s' : Inv s -> step e s dt = Ok s' ->
    forall k v', sm_get (s_vehicles s') k = Some v' -> exists v, sm_get (s_vehicles s) k = Some v /\ pf_evo (s_links s) (v_pathfind v) (v_pathfind v').
  Proof.
    intros I H. destruct (step_phases _ _ _ _ I H) as (s1 & s2 & s3 & s4 & s5 & P). destruct (ph6 _ _ _ _ _ _ _ _ _ P) as (s6 & H6 & ->). cbn [s_vehicles].
    intros k v6 G6. destruct (coords_evo _ _ H6) as (_ & C6 & _). destruct (C6 _ _ G6) as (v5 & G5 & (_ & E6 & _)). rewrite E6.
    destruct (advance_pf _ _ _ (ps4 _ _ _ _ _ _ _ _ _ P) (ph5 _ _ _ _ _ _ _ _ _ P) _ _ G5) as (v4 & G4 & E5).
    destruct (integrate_evo _ _ _ (ph4 _ _ _ _ _ _ _ _ _ P)) as (_ & C4 & _). destruct (C4 _ _ G4) as (v3 & q1 & q2 & G3 & Hi & _). apply integrate_ok in Hi. destruct Hi as (_ & _ & _ & _ & _ & E4 & _).
    rewrite (pv3 _ _ _ _ _ _ _ _ _ P) in G3. destruct (pk2 _ _ _ _ _ _ _ _ _ P _ _ G3) as (v1 & G1 & (a & f & E3)).
    destruct (lane_changes_pf _ _ _ (i_st _ I) (ph1 _ _ _ _ _ _ _ _ _ P) _ _ G1) as (v & Gv & E1). exists v. split; auto.
    eapply rt_trans; [exact E1|]. replace (v_pathfind v1) with (v_pathfind v4) by (rewrite E4, E3; auto). eapply pf_evo_net; [|exact E5].
    rewrite (pn4 _ _ _ _ _ _ _ _ _ P). eapply same_net_trans; [apply (pn1 _ _ _ _ _ _ _ _ _ P)|]. eapply same_net_trans; [apply (pn2 _ _ _ _ _ _ _ _ _ P)|apply (pn3 _ _ _ _ _ _ _ _ _ P)].
  Qed.

  (** Every call. *)
  Lemma exec_pf e s o s' k v' : Inv s -> exec e s o = Ok s' -> sm_get (s_vehicles s') k = Some v' ->
    (exists v, sm_get (s_vehicles s) k = Some v /\ pf_evo (s_links s) (v_pathfind v) (v_pathfind v')) \/
    (exists v d, o = OSetDestination k d /\ sm_get (s_vehicles s) k = Some v /\ pf_set_destination e (s_links s) (v_pathfind v) d = Ok (v_pathfind v')) \/
    (exists a l, o = OAddVehicle a l /\ k = sm_next_key (s_vehicles s) /\ pf_step (s_links s) pf_default (v_pathfind v')).
  Proof.
    intros I H G. assert (s_vehicles s' = s_vehicles s -> exists v, sm_get (s_vehicles s) k = Some v /\ pf_evo (s_links s) (v_pathfind v) (v_pathfind v')) as R0.
    { intros E. rewrite E in G. exists v'. split; auto. apply rt_refl. }
    destruct o; simpl in H; try discriminate.
    - left. apply R0. bok H x Hx. unfold add_link in Hx. bok Hx l Hl. injection Hx as <-. injection H as <-. auto.
    - left. apply R0. unfold add_link_group in H. bok H x1 Hx1. bok H x2 Hx2. bok H x3 Hx3. bok H x4 Hx4. bok H x5 Hx5. injection H as <-. auto.
    - left. apply R0. unfold add_link_convergance in H. destruct (key_eqb _ _); [injection H as <-; auto|].
      destruct (sm_get _ a); [|injection H as <-; auto]. destruct (sm_get _ b); [|injection H as <-; auto].
      bok H x Hx. destruct x; [|injection H as <-; auto]. bok H y Hy. injection H as <-. auto.
    - left. apply R0. unfold add_link_connection in H. bok H x Hx. bok H y Hy. injection H as <-. auto.
    - left. apply R0. bok H x Hx. injection H as <-. auto.
    - bok H x Hx. destruct x as [s1 k1]. injection H as <-. simpl in G. clear R0. unfold add_vehicle in Hx. bok Hx v0 Hv0. bok Hx v Hv. bok Hx links Hl.
      injection Hx as <- <-. simpl in G. rewrite sm_get_insert in G by apply I.
      destruct (key_eqb_spec (sm_next_key (s_vehicles s)) k) as [<-|].
      + right. right. exists a, link. split; auto. split; auto. injection G as <-. apply update_coords_ok in Hv. destruct Hv as (_ & -> & _).
        eapply set_location_pf in Hv0; [exact Hv0|apply same_net_refl|].
        unfold upd_link, get_link in Hl. destruct (sm_get (s_links s) link) eqn:Gl; [|discriminate Hl]. apply sm_mem_get. eauto.
      + left. exists v'. split; auto. apply rt_refl.
    - left. rewrite (remove_vehicle_ok _ _ _ I H) in G. destruct (key_eqb _ _); [discriminate|]. exists v'. split; auto. apply rt_refl.
    - left. unfold randomise_velocity_adjusts in H. bok H x Hx. destruct x as [u vs]. injection H as <-. simpl in G.
      destruct (sm_mapS_pointwise _ (fun _ => True) _ _ _ _ (fun _ _ _ _ _ _ _ _ => Logic.I) Logic.I Hx) as (_ & _ & K2).
      destruct (K2 _ _ G) as (u1 & u2 & v & _ & _ & Ho & Gv). injection Ho as _ <-. exists v. split; auto. apply rt_refl.
    - left. apply R0. injection H as <-. unfold set_vehicle_frozen. destruct frozen, (position _ _); auto.
    - unfold set_vehicle_destination in H. bok H v0 Hv0. bok H v1 Hv1. injection H as <-. simpl in G.
      rewrite sm_get_set in G. unfold get_vehicle in Hv0. destruct (sm_get (s_vehicles s) v) as [v2|] eqn:G2; [|discriminate]. injection Hv0 as ->.
      destruct (key_eqb_spec v k) as [->|]; simpl in G; [|left; exists v'; split; auto; apply rt_refl].
      replace (sm_mem (s_vehicles s) k) with true in G by (symmetry; apply sm_mem_get; eauto). injection G as <-. right. left. exists v0, dst. split; auto. split; auto.
      unfold set_destination in Hv1. bok Hv1 pf Hp. injection Hv1 as <-. exact Hp.
    - left. apply R0. unfold set_link_control in H. bok H x Hx. injection H as <-. auto.
    - left. apply do_lane_change_pf in H. destruct H as (_ & v0 & v1 & G0 & Es & P). rewrite Es, sm_get_set in G.
      destruct (key_eqb_spec v k) as [->|]; simpl in G; [|exists v'; split; auto; apply rt_refl].
      replace (sm_mem (s_vehicles s) k) with true in G by (symmetry; apply sm_mem_get; eauto). injection G as <-. exists v0. split; auto. apply rt_step. auto.
    - left. eapply step_pf; eauto.
  Qed.
End PfEvo.
