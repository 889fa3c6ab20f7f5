(** * Calls that concern the rest of the network *)
From Coq Require Import List Bool ZArith NArith Arith Lia.
From Verif Require Import Arith Base BaseProofs SlotMap SlotMapProofs Util Geom Light LightProofs Accel Net Path Vehicle LinkOps Sim SpecSim Safe NetInv SimInv AccSafe SimSafe StepSafe OpSafe Evo StepEvo LogProofs ConfProofs SpecLocal Align LocPath LocScan LocSim.
Import ListNotations.

Section LocElse.
  Context {A : Arith}.
  Variable part : key -> bool.
  Notation agree := (agree part).
  Notation closed := (closed part).

  Definition FU (L L' : linkset) : Prop := agree L L' /\ (closed L -> closed L').
  Lemma FU_refl L : FU L L.
  Proof. split; [apply agree_refl|auto]. Qed.
  Lemma FU_trans a b c : FU a b -> FU b c -> FU a c.
  Proof. intros (H1 & H2) (H3 & H4). split; [exact (agree_trans part _ _ _ H1 H3)|auto]. Qed.
  Lemma FU_upd L id f L' : part id = false -> (forall l l', f l = Ok l' -> forall y, touches l' y -> touches l y \/ part y = false) -> upd_link L id f = Ok L' -> FU L L'.
  Proof.
    intros Hp Hf H. split; [exact (upd_foreign part _ _ _ _ Hp H)|]. intros C. apply upd_ok in H. destruct H as (l & l' & G & E & ->). intros k m y Gm Ht. rewrite sm_get_set in Gm. destruct (key_eqb_spec id k) as [->|]; cbn [andb] in Gm; [|exact (C _ _ _ Gm Ht)].
    replace (sm_mem L k) with true in Gm by (symmetry; apply sm_mem_get; eauto). injection Gm as <-. destruct (Hf _ _ E _ Ht) as [H|H]; [exact (C _ _ _ G H)|congruence].
  Qed.
  Lemma FU_fold {X} (g : linkset -> X -> res linkset) xs : (forall L x L', In x xs -> g L x = Ok L' -> FU L L') -> forall L L', foldM g xs L = Ok L' -> FU L L'.
  Proof.
    induction xs as [|x xs IH]; intros Hg L L' H; cbn [foldM] in H; [injection H as <-; apply FU_refl|]. bok H L1 H1. eapply FU_trans; [eapply Hg; [left; reflexivity|exact H1]|]. apply IH; [|exact H]. intros a y b Hy. apply Hg. right. exact Hy.
  Qed.

  Record strict (s t : sim) : Prop := {
    x_links : agree (s_links s) (s_links t);
    x_veh : forall k, vehicle_on part s k = vehicle_on part t k;
    x_frozen : forall k v, vehicle_on part s k = Some v -> get_vehicle_frozen s k = get_vehicle_frozen t k;
    x_conf : filter (fun c => part (cpl_link (cp_a c))) (s_conflicts s) = filter (fun c => part (cpl_link (cp_a c))) (s_conflicts t);
    x_lights : forall k l, light_on_part part l = true -> (sm_get (s_lights s) k = Some l <-> sm_get (s_lights t) k = Some l);
    x_acc : s_acc_update s = s_acc_update t;
    x_lc : s_lc_update s = s_lc_update t
  }.
  Lemma strict_sep s t : strict s t -> separate part s -> closed (s_links t) -> (forall c, In c (s_conflicts t) -> part (cpl_link (cp_a c)) = part (cpl_link (cp_b c))) ->
    (forall k l i j, sm_get (s_lights t) k = Some l -> In i (l_mlinks l) -> In j (l_mlinks l) -> part (snd i) = part (snd j)) -> separate part t.
  Proof.
    intros X [S1 S2 S3 S4] C Hc Hl. split; [exact C|exact Hc|exact Hl|]. intros k v G O. assert (vehicle_on part t k = Some v) as E by (unfold vehicle_on; rewrite G, O; reflexivity). rewrite <- (x_veh _ _ X) in E. unfold vehicle_on in E. destruct (sm_get (s_vehicles s) k) as [w|] eqn:Gw; [|discriminate E]. destruct (on_part part w) eqn:Ow; [|discriminate E]. injection E as ->. exact (S4 k v Gw Ow).
  Qed.
  (** Only links changed. *)
  Lemma only_links s L : agree (s_links s) L -> strict s (with_links s L).
  Proof. intros H. split; try reflexivity; auto. Qed.
  Lemma links_case s L : separate part s -> FU (s_links s) L -> strict s (with_links s L) /\ separate part (with_links s L).
  Proof. intros Sp (H1 & H2). pose proof (only_links s L H1) as X. split; [exact X|]. apply (strict_sep s _ X Sp); [exact (H2 (sep_links _ _ Sp))|exact (sep_conflicts _ _ Sp)|exact (sep_lights _ _ Sp)]. Qed.
  Lemma vehicles_case s L V : separate part s -> FU (s_links s) L -> (forall k, vehicle_on part s k = vehicle_on part (with_vehicles s V) k) -> strict s (with_links (with_vehicles s V) L) /\ separate part (with_links (with_vehicles s V) L).
  Proof.
    intros Sp (H1 & H2) Hv. assert (strict s (with_links (with_vehicles s V) L)) as X by (split; try reflexivity; auto). split; [exact X|]. apply (strict_sep s _ X Sp); [exact (H2 (sep_links _ _ Sp))|exact (sep_conflicts _ _ Sp)|exact (sep_lights _ _ Sp)].
  Qed.
  Lemma set_on s k v : on_part part v = false -> vehicle_on part s k = None -> forall j, vehicle_on part s j = vehicle_on part (with_vehicles s (sm_set (s_vehicles s) k v)) j.
  Proof.
    intros Ov Hk j. unfold vehicle_on. cbn [s_vehicles with_vehicles]. rewrite sm_get_set. destruct (key_eqb_spec k j) as [->|]; cbn [andb]; [|reflexivity]. destruct (sm_mem (s_vehicles s) j); [|reflexivity]. rewrite Ov. exact Hk.
  Qed.
  Lemma off_link s k v : vehicle_on part s k = None -> sm_get (s_vehicles s) k = Some v -> on_part part v = false.
  Proof. unfold vehicle_on. intros H G. rewrite G in H. destruct (on_part part v); [discriminate H|reflexivity]. Qed.
  Lemma off_key v x : on_part part v = false -> v_link v = Some x -> part x = false.
  Proof. unfold on_part. intros H E. rewrite E in H. exact H. Qed.
  Lemma same_touch l l' : lk_out l' = lk_out l -> lk_in l' = lk_in l -> lk_changes l' = lk_changes l -> lk_group l' = lk_group l -> lk_conflicts l' = lk_conflicts l -> forall y, touches l' y -> touches l y \/ part y = false.
  Proof. intros E1 E2 E3 E4 E5 y H. left. unfold touches in *. rewrite E1, E2, E3, E4, E5 in H. exact H. Qed.
  Lemma FU_remove L id k L' : part id = false -> upd_link L id (fun l => Ok (remove_vehicle k l)) = Ok L' -> FU L L'.
  Proof. intros Hp H. refine (FU_upd _ _ _ _ Hp _ H). intros l l' E. injection E as <-. unfold remove_vehicle. destruct (rposition _ _); apply same_touch; reflexivity. Qed.
  Lemma FU_insert V L id k L' : part id = false -> upd_link L id (insert_vehicle V k) = Ok L' -> FU L L'.
  Proof. intros Hp H. refine (FU_upd _ _ _ _ Hp _ H). intros l l' E. unfold insert_vehicle in E. bok E v Hv. bok E i Hi. injection E as <-. apply same_touch; reflexivity. Qed.

  Lemma else_link e s c lim s' : Inv s -> separate part s -> part (sm_next_key (s_links s)) = false -> exec e s (OAddLink c lim) = Ok s' -> strict s s' /\ separate part s'.
  Proof.
    intros Hi Sp Hp H. cbn [exec] in H. unfold add_link in H. bok H r Hr. injection H as <-. bok Hr l Hl. injection Hr as <-. cbn [fst]. apply links_case; [exact Sp|]. unfold link_new in Hl. bok Hl cu Hcu. injection Hl as <-. pose proof (nk_wf _ (st_net _ _ _ (i_st _ Hi))) as W. split.
    - intros k Hk. rewrite sm_get_insert; [|exact W]. destruct (key_eqb_spec (sm_next_key (s_links s)) k) as [<-|]; [congruence|reflexivity].
    - intros C k l y G Ht. rewrite sm_get_insert in G; [|exact W]. destruct (key_eqb_spec (sm_next_key (s_links s)) k) as [<-|]; [|exact (C _ _ _ G Ht)]. injection G as <-. destruct Ht as [[]|[[]|[[]|[(g & Hg & _)|(cf & [] & _)]]]]. discriminate Hg.
  Qed.
  Lemma else_connection e s a b s' : separate part s -> part a = false -> part b = false -> exec e s (OAddConnection a b) = Ok s' -> strict s s' /\ separate part s'.
  Proof.
    intros Sp Ha Hb H. cbn [exec] in H. unfold add_link_connection in H. bok H L1 H1. bok H L2 H2. injection H as <-. apply links_case; [exact Sp|]. eapply FU_trans.
    - refine (FU_upd _ _ _ _ Ha _ H1). intros l l' E y Ht. injection E as <-. unfold touches in *. cbn [add_link_out lk_out lk_in lk_changes lk_group lk_conflicts] in Ht. rewrite in_app_iff in Ht. destruct Ht as [[Ht|[<-|[]]]|Ht]; auto.
    - refine (FU_upd _ _ _ _ Hb _ H2). intros l l' E y Ht. injection E as <-. unfold touches in *. cbn [add_link_in lk_out lk_in lk_changes lk_group lk_conflicts] in Ht. rewrite in_app_iff in Ht. destruct Ht as [Ht|[[Ht|[<-|[]]]|Ht]]; auto.
  Qed.
  Lemma mapM_links L ids ls : net_ok L -> mapM (get_link L) ids = Ok ls -> map lk_id ls = ids.
  Proof.
    intros N. revert ls. induction ids as [|x ids IH]; intros ls H; cbn [mapM] in H; [injection H as <-; reflexivity|]. bok H l Hl. bok H ls1 H1. injection H as <-. cbn [map]. rewrite (IH _ H1). unfold get_link in Hl. apply of_option_ok in Hl. rewrite (lo_id _ _ _ (nk_link _ N _ _ Hl)). reflexivity.
  Qed.
  Lemma else_group e s ids m s' : Inv s -> separate part s -> (forall x, In x ids -> part x = false) -> exec e s (OAddGroup ids m) = Ok s' -> strict s s' /\ separate part s'.
  Proof.
    intros Hi Sp Hp H. cbn [exec] in H. unfold add_link_group in H. bok H ls Hls. bok H g Hg. bok H L1 H1. bok H lcs Hlcs. bok H L2 H2. injection H as <-. apply links_case; [exact Sp|]. apply mapM_links in Hls; [|exact (st_net _ _ _ (i_st _ Hi))].
    assert (g_links g = ids) as Eg. { unfold group_new in Hg. destruct (Nat.ltb _ _); [discriminate Hg|]. bok Hg ps Hps. injection Hg as <-. exact Hls. }
    eapply FU_trans.
    - refine (FU_fold _ _ _ _ _ H1). intros L x L' Hx HL. refine (FU_upd _ _ _ _ (Hp _ Hx) _ HL). intros l l' E y Ht. injection E as <-. unfold touches in *. cbn [set_group lk_out lk_in lk_changes lk_group lk_conflicts] in Ht. destruct Ht as [Ht|[Ht|[Ht|[(g' & E & Hy)|Ht]]]]; auto.
      + injection E as <-. rewrite Eg in Hy. right. exact (Hp _ Hy).
      + left. right. right. right. right. exact Ht.
    - pose proof (g_lane_changes_in g lcs Hlcs) as Hin. rewrite Eg in Hin. refine (FU_fold _ _ _ _ _ H2). intros L ft L' Hft HL. destruct (Hin _ Hft) as (If & It). refine (FU_upd _ _ _ _ (Hp _ If) _ HL). intros l l' E y Ht. unfold add_lane_change in E. destruct (Nat.ltb _ _); [|discriminate E]. injection E as <-. unfold touches in *. cbn [lk_out lk_in lk_changes lk_group lk_conflicts] in Ht. rewrite in_app_iff in Ht.
      destruct Ht as [Ht|[Ht|[[Ht|[<-|[]]]|Ht]]]; auto.
  Qed.
  Lemma else_convergence e s a b s' : Inv s -> separate part s -> part a = false -> part b = false -> exec e s (OAddConvergence a b) = Ok s' -> strict s s' /\ separate part s'.
  Proof.
    intros Hi Sp Ha Hb H. cbn [exec] in H. unfold add_link_convergance in H. assert (strict s s /\ separate part s) as Z by (split; [split; reflexivity || auto; apply agree_refl|exact Sp]). destruct (key_eqb a b); [injection H as <-; exact Z|].
    destruct (sm_get (s_links s) a) as [la|] eqn:Ga; [|injection H as <-; exact Z]. destruct (sm_get (s_links s) b) as [lb|] eqn:Gb; [|injection H as <-; exact Z]. bok H o Ho. destruct o as [cp|]; [|injection H as <-; exact Z]. bok H L HL. injection H as <-.
    pose proof (st_net _ _ _ (i_st _ Hi)) as N. destruct (cpoint_ids _ _ _ _ Ho) as (Ea & Eb). rewrite (lo_id _ _ _ (nk_link _ N _ _ Ga)) in Ea. rewrite (lo_id _ _ _ (nk_link _ N _ _ Gb)) in Eb.
    assert (FU (s_links s) L) as F.
    { refine (FU_fold _ _ _ _ _ HL). intros L0 kc L' Hkc H0. assert (part (fst kc) = false /\ part (cf_link (snd kc)) = false) as (P1 & P2).
      { destruct Hkc as [<-|[<-|[]]]; cbn [fst snd cf_link]; rewrite ?Ea, ?Eb; auto. }
      refine (FU_upd _ _ _ _ P1 _ H0). intros l l' E y Ht. injection E as <-. unfold touches in *. cbn [add_conflict lk_out lk_in lk_changes lk_group lk_conflicts] in Ht. destruct Ht as [Ht|[Ht|[Ht|[Ht|(cf & Hcf & Ey)]]]]; auto 8. apply in_app_iff in Hcf. destruct Hcf as [Hcf|[<-|[]]]; [left; right; right; right; right; eauto|]. right. congruence. }
    match goal with |- strict s ?s' /\ _ => assert (strict s s') as X end.
    { split; try reflexivity; auto; [apply F|]. cbn [s_conflicts]. rewrite filter_app. cbn [filter]. rewrite Ea, Ha, app_nil_r. reflexivity. }
    split; [exact X|]. apply (strict_sep s _ X Sp); [exact (proj2 F (sep_links _ _ Sp))| |exact (sep_lights _ _ Sp)]. intros c Hc. cbn [s_conflicts] in Hc. apply in_app_iff in Hc. destruct Hc as [Hc|[<-|[]]]; [exact (sep_conflicts _ _ Sp _ Hc)|congruence].
  Qed.
  Lemma else_light e s calls s' : Inv s -> separate part s -> (forall l, lrun calls = Ok l -> light_on_part part l = false) -> exec e s (OAddLight calls) = Ok s' -> strict s s' /\ separate part s'.
  Proof.
    intros Hi Sp Hp H. cbn [exec] in H. bok H l Hl. injection H as <-. cbn [add_traffic_light fst]. specialize (Hp _ Hl). pose proof (i_lwf _ Hi) as W.
    match goal with |- strict s ?s' /\ _ => assert (strict s s') as X end.
    { split; try reflexivity; auto; [apply agree_refl|]. intros k m Hm. cbn [s_lights]. rewrite sm_get_insert; [|exact W]. destruct (key_eqb_spec (sm_next_key (s_lights s)) k) as [<-|]; [|reflexivity]. rewrite (next_key_fresh _ W). split; intros E; [discriminate E|]. injection E as ->. congruence. }
    split; [exact X|]. apply (strict_sep s _ X Sp); [exact (sep_links _ _ Sp)|exact (sep_conflicts _ _ Sp)|]. intros k m i j G I J. cbn [s_lights] in G. rewrite sm_get_insert in G; [|exact W]. destruct (key_eqb_spec (sm_next_key (s_lights s)) k) as [<-|]; [|exact (sep_lights _ _ Sp _ _ _ _ G I J)]. injection G as ->. rewrite (not_on part _ Hp _ I), (not_on part _ Hp _ J). reflexivity.
  Qed.
  Lemma else_vehicle e s a lid s' : Inv s -> separate part s -> part lid = false -> exec e s (OAddVehicle a lid) = Ok s' -> strict s s' /\ separate part s'.
  Proof.
    intros Hi Sp Hp H. cbn [exec] in H. bok H r Hr. injection H as <-. pose proof (st_wf _ _ _ (i_st _ Hi)) as W. unfold add_vehicle in Hr. bok Hr v0 Hv0. bok Hr v Hv. bok Hr L HL. injection Hr as <-. cbn [fst].
    apply set_location_body in Hv0. destruct Hv0 as (_ & Hl0 & _). apply update_coords_ok in Hv. destruct Hv as (_ & _ & _ & Hr2 & _). unfold v_link in Hl0. rewrite <- Hr2 in Hl0.
    apply vehicles_case; [exact Sp|exact (FU_insert _ _ _ _ _ Hp HL)|]. intros k. unfold vehicle_on. cbn [s_vehicles with_vehicles]. rewrite sm_get_insert; [|exact W]. destruct (key_eqb_spec (sm_next_key (s_vehicles s)) k) as [<-|]; [|reflexivity]. rewrite (next_key_fresh _ W). unfold on_part, v_link. rewrite Hl0, Hp. reflexivity.
  Qed.
  Lemma else_remove e s v s' : separate part s -> vehicle_on part s v = None -> exec e s (ORemoveVehicle v) = Ok s' -> strict s s' /\ separate part s'.
  Proof.
    intros Sp Hv H. cbn [exec] in H. unfold sim_remove_vehicle in H. destruct (sm_get (s_vehicles s) v) as [w|] eqn:G; [|injection H as <-; split; [split; reflexivity || auto; apply agree_refl|exact Sp]].
    assert (forall k, vehicle_on part s k = vehicle_on part (with_vehicles s (sm_remove (s_vehicles s) v)) k) as E. { intros k. unfold vehicle_on. cbn [s_vehicles with_vehicles]. rewrite sm_get_remove. destruct (key_eqb_spec v k) as [<-|]; [exact Hv|reflexivity]. }
    pose proof (off_link _ _ _ Hv G) as Ow. cbv zeta in H. destruct (v_link w) as [lid|] eqn:El.
    - bok H L HL. injection H as <-. apply vehicles_case; [exact Sp|exact (FU_remove _ _ _ _ (off_key _ _ Ow El) HL)|exact E].
    - injection H as <-. exact (vehicles_case s (s_links s) _ Sp (FU_refl _) E).
  Qed.
  Lemma else_frozen e s v b s' : separate part s -> vehicle_on part s v = None -> exec e s (OSetFrozen v b) = Ok s' -> strict s s' /\ separate part s'.
  Proof.
    intros Sp Hv H. cbn [exec] in H. injection H as <-. assert (forall fr, (forall k, k <> v -> existsb (fun x => key_eqb x k) (s_frozen s) = existsb (fun x => key_eqb x k) fr) -> strict s (with_frozen s fr) /\ separate part (with_frozen s fr)) as K.
    { intros fr Hfr. assert (strict s (with_frozen s fr)) as X. { split; try reflexivity; auto; [apply agree_refl|]. intros k w Hk. unfold get_vehicle_frozen. cbn [s_frozen with_frozen]. apply Hfr. intros ->. congruence. } split; [exact X|]. apply (strict_sep s _ X Sp); [exact (sep_links _ _ Sp)|exact (sep_conflicts _ _ Sp)|exact (sep_lights _ _ Sp)]. }
    assert (strict s s /\ separate part s) as Z by (split; [split; reflexivity || auto; apply agree_refl|exact Sp]).
    unfold set_vehicle_frozen. destruct b; destruct (position (fun k => key_eqb k v) (s_frozen s)) as [i|] eqn:Ep; auto; apply K.
    - intros k Hk. rewrite existsb_app. cbn [existsb]. destruct (key_eqb_spec v k); [congruence|]. rewrite !orb_false_r. reflexivity.
    - clear K Z. intros k Hk. revert i Ep. induction (s_frozen s) as [|x l IH]; intros i Ep; [discriminate Ep|]. cbn [position] in Ep. destruct (key_eqb_spec x v) as [->|Ex].
      + injection Ep as <-. unfold remove_at. cbn [firstn skipn app existsb]. destruct (key_eqb_spec v k); [congruence|reflexivity].
      + destruct (position (fun k => key_eqb k v) l) as [j|]; [|discriminate Ep]. injection Ep as <-. unfold remove_at in *. cbn [firstn skipn app existsb]. rewrite (IH j eq_refl). reflexivity.
  Qed.
  Lemma else_destination e s v d s' : separate part s -> vehicle_on part s v = None -> exec e s (OSetDestination v d) = Ok s' -> strict s s' /\ separate part s'.
  Proof.
    intros Sp Hv H. cbn [exec] in H. unfold set_vehicle_destination in H. bok H w Hw. bok H w' Hw'. injection H as <-. unfold get_vehicle in Hw. apply of_option_ok in Hw. pose proof (off_link _ _ _ Hv Hw) as Ow. unfold set_destination in Hw'. bok Hw' pf Hpf. injection Hw' as <-.
    exact (vehicles_case s (s_links s) _ Sp (FU_refl _) (set_on s v (set_can_exit (set_pathfind w pf) false) Ow Hv)).
  Qed.
  Lemma else_control e s l c s' : separate part s -> part l = false -> exec e s (OSetControl l c) = Ok s' -> strict s s' /\ separate part s'.
  Proof.
    intros Sp Hl H. cbn [exec] in H. unfold set_link_control in H. bok H L HL. injection H as <-. apply links_case; [exact Sp|]. refine (FU_upd _ _ _ _ Hl _ HL). intros a b E. injection E as <-. apply same_touch; reflexivity.
  Qed.
  Lemma else_change e s v l d s' : separate part s -> vehicle_on part s v = None -> part l = false -> exec e s (OLaneChange v l d) = Ok s' -> strict s s' /\ separate part s'.
  Proof.
    intros Sp Hv Hl H. cbn [exec] in H. unfold do_lane_change in H. bok H w Hw. unfold get_vehicle in Hw. apply of_option_ok in Hw. bok H L1 H1. bok H lk Hlk. bok H o Ho. bok H oo Hoo. destruct oo as ((ps, off), slope). bok H w' Hw'. bok H L2 H2. injection H as <-. pose proof (off_link _ _ _ Hv Hw) as Ow.
    apply vehicles_case; [exact Sp| |].
    - eapply FU_trans; [|exact (FU_insert _ _ _ _ _ Hl H2)]. destruct (v_link w) as [cur|] eqn:Ec; [|injection H1 as <-; apply FU_refl]. exact (FU_remove _ _ _ _ (off_key _ _ Ow Ec) H1).
    - apply set_on; [|exact Hv]. apply set_location_body in Hw'. destruct Hw' as (_ & El & _). unfold on_part. rewrite El. exact Hl.
  Qed.
  Lemma else_all e s o s' : Inv s -> separate part s -> elsewhere part s o -> exec e s o = Ok s' -> strict s s' /\ separate part s'.
  Proof.
    intros Hi Sp He H. destruct o as [c lim|ids m|a b|a b|calls|a l|v|f|v b|v d|l c|v l d|dt]; cbn [elsewhere] in He.
    - eapply else_link; eauto.
    - eapply else_group; eauto.
    - destruct He as (E1 & E2). exact (else_convergence e s a b s' Hi Sp E1 E2 H).
    - destruct He as (E1 & E2). exact (else_connection e s a b s' Sp E1 E2 H).
    - eapply else_light; eauto.
    - eapply else_vehicle; eauto.
    - eapply else_remove; eauto.
    - destruct He.
    - eapply else_frozen; eauto.
    - eapply else_destination; eauto.
    - eapply else_control; eauto.
    - destruct He. eapply else_change; eauto.
    - destruct He.
  Qed.
  Lemma strict_left s s1 t : strict s s1 -> same_part part s t -> same_part part s1 t.
  Proof.
    intros X [P1 P2 P3 P4 P5 P6 P7 P8]. split.
    - intros k Hk. rewrite <- (x_links _ _ X k Hk). exact (P1 k Hk).
    - intros k. rewrite <- (x_veh _ _ X). apply P2.
    - intros k1 k2 v1 v2 w1 w2 a1 a2 b1 b2 H1 H2. rewrite <- (x_veh _ _ X) in H1, H2. exact (P3 k1 k2 v1 v2 w1 w2 a1 a2 b1 b2 H1 H2).
    - intros k v H. rewrite <- (x_veh _ _ X) in H. rewrite <- (x_frozen _ _ X _ _ H). exact (P4 _ _ H).
    - rewrite <- (x_conf _ _ X). exact P5.
    - intros k l Hl. rewrite <- (x_lights _ _ X k l Hl). exact (P6 k l Hl).
    - rewrite <- (x_acc _ _ X). exact P7.
    - rewrite <- (x_lc _ _ X). exact P8.
  Qed.
  Lemma same_part_sym s t : same_part part s t -> same_part part t s.
  Proof.
    intros [P1 P2 P3 P4 P5 P6 P7 P8]. split; [ | | | |auto| |auto|auto].
    - intros k Hk. symmetry. auto.
    - intros k. symmetry. apply P2.
    - intros k1 k2 v1 v2 w1 w2 a1 a2 b1 b2 H1 H2 H3 H4 E1 E2 E3 E4. symmetry. exact (P3 k1 k2 w1 w2 v1 v2 b1 b2 a1 a2 H3 H4 H1 H2 E3 E4 E1 E2).
    - intros k v H. specialize (P2 k). rewrite H in P2. destruct (vehicle_on part s k) as [w|] eqn:E; [|discriminate P2]. symmetry. exact (P4 _ _ E).
    - intros k l Hl. symmetry. exact (P6 k l Hl).
  Qed.
End LocElse.
