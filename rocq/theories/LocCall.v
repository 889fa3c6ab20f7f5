(** * Calls about a part of the network, and whole runs *)
From Coq Require Import List Bool ZArith NArith Arith Lia.
From Verif Require Import Arith Base BaseProofs SlotMap SlotMapProofs Util Geom Light LightProofs Accel Net Path Vehicle LinkOps Sim SpecSim Safe NetInv SimInv AccSafe SimSafe StepSafe OpSafe Evo StepEvo SimProofs StepProofs LogProofs ConfProofs SpecLocal Align LocPath LocScan LocSim LocElse LocStep.
Import ListNotations.

Section LocCall.
  Context {A : Arith}.
  Variable part : key -> bool.

  Lemma closed_upd L id f L' : (forall l l', f l = Ok l' -> forall y, touches l' y -> touches l y) -> upd_link L id f = Ok L' -> closed part L -> closed part L'.
  Proof.
    intros Hf H C. apply upd_ok in H. destruct H as (l & l' & G & E & ->). intros k m y Gm Ht. rewrite sm_get_set in Gm. destruct (key_eqb_spec id k) as [->|]; cbn [andb] in Gm; [|exact (C _ _ _ Gm Ht)].
    replace (sm_mem L k) with true in Gm by (symmetry; apply sm_mem_get; eauto). injection Gm as <-. exact (C _ _ _ G (Hf _ _ E _ Ht)).
  Qed.
  Lemma closed_remove L id k L' : upd_link L id (fun l => Ok (remove_vehicle k l)) = Ok L' -> closed part L -> closed part L'.
  Proof. intros H. exact (closed_same part _ _ (remove_same _ _ _ _ H)). Qed.
  Lemma closed_insert V L id k L' : upd_link L id (insert_vehicle V k) = Ok L' -> closed part L -> closed part L'.
  Proof. intros H. refine (closed_upd _ _ _ _ _ H). intros l l' E y Ht. unfold insert_vehicle in E. bok E v Hv. bok E i Hi. injection E as <-. exact Ht. Qed.

  Lemma dest_kept e L pf pf' : bind (reroute e L pf) (make_paths L) = Ok pf' -> pf_dst pf' = pf_dst pf /\ pf_src pf' = pf_src pf.
  Proof.
    intros H. apply bind_ok in H. destruct H as (x & Hx & H).
    assert (pf_dst x = pf_dst pf /\ pf_src x = pf_src pf) as (D & Sr).
    { unfold reroute in Hx. destruct (_ || _); [injection Hx as <-; auto|]. apply bind_ok in Hx. destruct Hx as (dl & _ & Hx). apply bind_ok in Hx. destruct Hx as (dsts & _ & Hx). apply bind_ok in Hx. destruct Hx as (r & _ & Hx). destruct r as [(route, c)|]; [|injection Hx as <-; auto]. apply bind_ok in Hx. destruct Hx as (m & _ & Hx). injection Hx as <-. auto. }
    unfold make_paths in H. bok H r0 H0. bok H l Hl. bok H rs Hrs. injection H as <-. auto.
  Qed.

  (** ** One simulation *)
  Record kept (CV : key -> bool) (s s' : sim) : Prop := {
    kp_closed : closed part (s_links s');
    kp_root : rootc part CV (s_vehicles s');
    kp_trip : tripc part CV (s_vehicles s');
    kp_conf : s_conflicts s' = s_conflicts s;
    kp_light : s_lights s' = s_lights s;
    kp_acc : s_acc_update s' = s_acc_update s;
    kp_lc : s_lc_update s' = s_lc_update s
  }.
  Lemma on_some s k : vehicle_on part s k <> None -> CVof part s k = true.
  Proof. unfold CVof. destruct (vehicle_on part s k); congruence. Qed.
  Lemma kept_call e s o s' : Inv s -> separate part s -> concerns part s o -> is_step o = false -> exec e s o = Ok s' -> kept (CVof part s) s s'.
  Proof.
    intros Hi Sp Hc Hs H. pose proof (sep_links _ _ Sp) as C0. pose proof (CV_root part s) as R0. pose proof (CV_trip part s Sp) as T0.
    destruct o as [c lim|ids m|a b|a b|calls|a l|v|f|v b|v d|l c|v l d|dt]; cbn [concerns] in Hc; try (exfalso; exact Hc); try discriminate Hs; cbn [exec] in H.
    - unfold sim_remove_vehicle in H. destruct (sm_get (s_vehicles s) v) as [w|] eqn:G; [|injection H as <-; split; auto]. cbv zeta in H.
      assert (rootc part (CVof part s) (sm_remove (s_vehicles s) v)) as R1. { intros k u x Gu Eu. rewrite sm_get_remove in Gu. destruct (key_eqb v k); [discriminate Gu|]. exact (R0 k u x Gu Eu). }
      assert (tripc part (CVof part s) (sm_remove (s_vehicles s) v)) as T1. { intros k u Hk Gu. rewrite sm_get_remove in Gu. destruct (key_eqb v k); [discriminate Gu|]. exact (T0 k u Hk Gu). }
      destruct (v_link w) as [lid|]; [bok H L HL|]; injection H as <-; split; cbn; auto. exact (closed_remove _ _ _ _ HL C0).
    - unfold randomise_velocity_adjusts in H. bok H r Hr. injection H as <-. destruct r as (u, V). cbn [snd]. destruct (sm_mapS_pointwise _ (fun _ => True) _ _ _ _ (fun _ _ _ _ _ _ _ _ => Logic.I) Logic.I Hr) as (_ & _ & K2).
      assert (forall k v', sm_get V k = Some v' -> exists v x, sm_get (s_vehicles s) k = Some v /\ v' = set_velocity_adjust v x) as K. { intros k v' G. destruct (K2 k v' G) as (a & a' & v & _ & _ & E & Gv). injection E as _ <-. eauto. }
      split; cbn; auto.
      + intros k v' x G E. destruct (K k v' G) as (v & y & Gv & ->). exact (R0 k v x Gv E).
      + intros k v' Hk G. destruct (K k v' G) as (v & y & Gv & ->). exact (T0 k v Hk Gv).
    - injection H as <-. unfold set_vehicle_frozen. destruct b, (position _ _); split; auto.
    - destruct Hc as (Hv & Hd). unfold set_vehicle_destination in H. bok H w Hw. bok H w' Hw'. injection H as <-. unfold get_vehicle in Hw. apply of_option_ok in Hw. unfold set_destination in Hw'. bok Hw' pf Hpf. injection Hw' as <-.
      assert (pf_dst pf = d) as Ed. { unfold pf_set_destination in Hpf. exact (proj1 (dest_kept _ _ _ _ Hpf)). }
      split; cbn; auto.
      + intros k u x Gu Eu. rewrite sm_get_set in Gu. destruct (key_eqb_spec v k) as [<-|]; cbn [andb] in Gu; [|exact (R0 k u x Gu Eu)]. destruct (sm_mem _ v); [|exact (R0 v u x Gu Eu)]. injection Gu as <-. exact (R0 v w x Hw Eu).
      + intros k u Hk Gu. rewrite sm_get_set in Gu. destruct (key_eqb_spec v k) as [<-|]; cbn [andb] in Gu; [|exact (T0 k u Hk Gu)]. destruct (sm_mem _ v); [|exact (T0 v u Hk Gu)]. injection Gu as <-. unfold v_destination. cbn [v_pathfind set_can_exit set_pathfind]. rewrite Ed. auto.
    - unfold set_link_control in H. bok H L HL. injection H as <-. split; cbn; auto. refine (closed_upd _ _ _ _ _ HL C0). intros l1 l2 E y Ht. injection E as <-. exact Ht.
    - destruct Hc as (H0 & Hl0). pose proof (on_some _ _ H0) as Hk0. unfold do_lane_change in H. bok H w Hw. unfold get_vehicle in Hw. apply of_option_ok in Hw. bok H L1 HL1. bok H lk Hlk. bok H o Ho. bok H oo Hoo. destruct oo as ((ps, off), slope). bok H w' Hw'. bok H L2 HL2. injection H as <-. apply set_location_body in Hw'. destruct Hw' as (Eb & El & _).
      split; cbn; auto.
      + apply (closed_insert _ _ _ _ _ HL2). destruct (v_link w); [exact (closed_remove _ _ _ _ HL1 C0)|injection HL1 as <-; exact C0].
      + intros k u x Gu Eu. rewrite sm_get_set in Gu. destruct (key_eqb_spec v k) as [<-|]; cbn [andb] in Gu; [|exact (R0 k u x Gu Eu)]. destruct (sm_mem _ v); [|exact (R0 v u x Gu Eu)]. injection Gu as <-. congruence.
      + intros k u Hk Gu. rewrite sm_get_set in Gu. destruct (key_eqb_spec v k) as [<-|]; cbn [andb] in Gu; [|exact (T0 k u Hk Gu)]. destruct (sm_mem _ v); [|exact (T0 v u Hk Gu)]. injection Gu as <-. unfold v_destination. unfold body in Eb. injection Eb as _ _ _ _ _ _ _ _ _ Eb. rewrite Eb. exact (T0 v w Hk Hw).
  Qed.
  Lemma separate_kept s s' : Inv s' -> separate part s -> kept (CVof part s) s s' -> separate part s'.
  Proof.
    intros Hi Sp [K1 K2 K3 K4 K5 K6 K7]. split.
    - exact K1.
    - rewrite K4. exact (sep_conflicts _ _ Sp).
    - rewrite K5. exact (sep_lights _ _ Sp).
    - intros k v G O. apply (K3 k v); [|exact G]. pose proof (root_on part _ _ k Hi K2) as E. unfold vehicle_on in E. rewrite G, O in E. destruct (CVof part s k); [reflexivity|discriminate E].
  Qed.
  Lemma frozen_after s v b k : NoDup (s_frozen s) -> get_vehicle_frozen (set_vehicle_frozen s v b) k = if key_eqb v k then b else get_vehicle_frozen s k.
  Proof.
    unfold get_vehicle_frozen, set_vehicle_frozen. intros N. destruct b; destruct (position (fun k => key_eqb k v) (s_frozen s)) as [i|] eqn:Ep; cbn [s_frozen with_frozen].
    - destruct (key_eqb_spec v k) as [<-|]; [|reflexivity]. clear N. revert i Ep. induction (s_frozen s) as [|x l IH]; intros i Ep; [discriminate Ep|]. cbn [position] in Ep. cbn [existsb]. destruct (key_eqb x v); [reflexivity|]. destruct (position (fun k => key_eqb k v) l) as [j|]; [|discriminate Ep]. exact (IH j eq_refl).
    - rewrite existsb_app. cbn [existsb]. destruct (key_eqb v k); rewrite ?orb_true_r, ?orb_false_r; reflexivity.
    - revert i Ep. induction N as [|x l Hx N IH]; intros i Ep; [discriminate Ep|]. cbn [position] in Ep. destruct (key_eqb_spec x v) as [->|Ex].
      + injection Ep as <-. unfold remove_at. cbn [firstn skipn app existsb]. destruct (key_eqb_spec v k) as [<-|]; [|reflexivity]. apply not_true_is_false. intros E. apply existsb_exists in E. destruct E as (y & Hy & E). apply key_eqb_eq in E. subst y. exact (Hx Hy).
      + destruct (position (fun k => key_eqb k v) l) as [j|]; [|discriminate Ep]. injection Ep as <-. change (remove_at (S j) (x :: l)) with (x :: remove_at j l). cbn [existsb]. rewrite (IH j eq_refl). destruct (key_eqb_spec v k) as [<-|]; [|reflexivity]. destruct (key_eqb_spec x v); [congruence|reflexivity].
    - destruct (key_eqb_spec v k) as [<-|]; [|reflexivity]. clear N. induction (s_frozen s) as [|x l IH]; [reflexivity|]. cbn [position] in Ep. cbn [existsb]. destruct (key_eqb x v); [discriminate Ep|]. apply IH. destruct (position (fun k => key_eqb k v) l); [discriminate Ep|reflexivity].
  Qed.

  (** ** Two simulations *)
  Lemma call_two e1 e2 s t o s' t' : Inv s -> Inv t -> separate part s -> separate part t -> same_part part s t -> same_ties part e1 e2 -> concerns part s o -> is_step o = false -> exec e1 s o = Ok s' -> exec e2 t o = Ok t' ->
    agree part (s_links s') (s_links t') /\ vagree (CVof part s) (Qof part s t) (s_vehicles s') (s_vehicles t') /\ frz (CVof part s) (s_frozen s') (s_frozen t').
  Proof.
    intros Hi Ht Ss St0 P Ti Hc Hs H1 H2. pose proof (sp_links _ _ _ P) as G. pose proof (V_init part s t P) as V. set (CV := CVof part s) in *. set (Q := Qof part s t) in *.
    pose proof (U_of part CV s Hi Ss (CV_root part s)) as Us. pose proof (CV_trip part s Ss) as Ts. fold CV in Ts.
    assert (frz CV (s_frozen s) (s_frozen t)) as Fz. { intros k Hk. rewrite <- !frozen_mem. unfold CV, CVof in Hk. destruct (vehicle_on part s k) as [v|] eqn:E; [|discriminate Hk]. exact (sp_frozen _ _ _ P k v E). }
    destruct o as [c lim|ids m|a b|a b|calls|a l|v|f|v b|v d|l c|v l d|dt]; cbn [concerns] in Hc; try (exfalso; exact Hc); try discriminate Hs; cbn [exec] in H1, H2.
    - apply on_some in Hc. fold CV in Hc. unfold sim_remove_vehicle in H1, H2. pose proof (V v Hc) as Vv. 
      assert (vagree CV Q (sm_remove (s_vehicles s) v) (sm_remove (s_vehicles t) v)) as V'. { intros k Hk. rewrite !sm_get_remove. destruct (key_eqb v k); [exact I|exact (V k Hk)]. }
      destruct (sm_get (s_vehicles s) v) as [w|] eqn:Gw; destruct (sm_get (s_vehicles t) v) as [u|]; try destruct Vv as (q & -> & Hq); try destruct Vv; [|injection H1 as <-; injection H2 as <-; auto]. cbv zeta in H1, H2. change (v_link (set_q w q)) with (v_link w) in H2. change (v_id (set_q w q)) with (v_id w) in H2.
      destruct (v_link w) as [lid|] eqn:Ew; [|injection H1 as <-; injection H2 as <-; auto]. bok H1 a Ha. bok H2 b Hb. injection H1 as <-. injection H2 as <-. split; [|auto]. cbn [s_links with_links with_vehicles]. revert a b Ha Hb. apply upd_rr; [rewrite (CV_root part s v w lid Gw Ew); exact Hc|exact G|]. intros l0 _. apply rr_refl.
    - unfold randomise_velocity_adjusts in H1, H2. bok H1 x Hx. bok H2 y Hy. destruct x as (u1, va). destruct y as (u2, vb). injection H1 as <-. injection H2 as <-. cbn [s_links s_vehicles s_frozen with_vehicles snd]. split; [exact G|]. split; [|exact Fz]. apply vagree_al in V. apply vagree_al.
      refine (proj2 (mapS_two (fun k _ => CV k) (fun _ _ : unit => True) (fun _ => VR Q) (fun _ => VR Q) _ _ _ _ _ _ _ _ _ _ Hx Hy V Logic.I _ _ _)); auto.
      intros a b k v w a' v' b' w' G1 G2 Hk _ (q & -> & Hq) _ Ha Hb. injection Ha as <- <-. injection Hb as <- <-. split; [exact Logic.I|]. split; [|auto]. exists q. split; [reflexivity|exact Hq].
    - injection H1 as <-. injection H2 as <-. split; [|split].
      + unfold set_vehicle_frozen. destruct b, (position _ (s_frozen s)), (position _ (s_frozen t)); exact G.
      + unfold set_vehicle_frozen. destruct b, (position _ (s_frozen s)), (position _ (s_frozen t)); exact V.
      + intros k Hk. rewrite <- !frozen_mem, (frozen_after s v b k (i_frozen _ Hi)), (frozen_after t v b k (i_frozen _ Ht)), !frozen_mem. destruct (key_eqb v k); [reflexivity|exact (Fz k Hk)].
    - destruct Hc as (H & H0). apply on_some in H. fold CV in H. unfold set_vehicle_destination in H1, H2. bok H1 w Hw. bok H2 u Hu. bok H1 w' Hw'. bok H2 u' Hu'. injection H1 as <-. injection H2 as <-. unfold get_vehicle in Hw, Hu. apply of_option_ok in Hw. apply of_option_ok in Hu. split; [exact G|]. split; [|exact Fz]. cbn [s_vehicles with_vehicles].
      pose proof (V v H) as Vv. rewrite Hw, Hu in Vv. destruct Vv as (q & -> & Hq). apply vset_both; try (apply sm_mem_get; eauto); [exact V|]. unfold set_destination in Hw', Hu'. bok Hw' pfa Hp1. bok Hu' pfb Hp2. injection Hw' as <-. injection Hu' as <-. change (v_pathfind (set_q w q)) with (v_pathfind w) in Hp2.
      assert (part (pf_src (v_pathfind w)) = true) as Hp. { pose proof (vb_src _ _ _ _ (st_veh _ _ _ (i_st _ Hi) _ _ Hw)) as E. rewrite (CV_root part s v w _ Hw E). exact H. }
      assert (pfa = pfb) as <-; [|exists q; split; [reflexivity|exact Hq]]. revert pfa pfb Hp1 Hp2. change (rr eq (pf_set_destination e1 (s_links s) (v_pathfind w) d) (pf_set_destination e2 (s_links t) (v_pathfind w) d)).
      unfold pf_set_destination. pose proof (st_net _ _ _ (i_st _ Hi)) as N. pose proof (sep_links _ _ Ss) as C. apply rr_bind_eq; [apply (reroute_rr part _ _ N C G); cbn [pf_src pf_dst]; [exact Hp|exact H0|]|].
      + intros n. apply Ti; [exact G|exact Hp].
      + intros pfa H1 _. apply (paths_rr part _ _ N C G). rewrite (reroute_src _ _ _ _ H1). exact Hp.
    - unfold set_link_control in H1, H2. bok H1 a Ha. bok H2 b Hb. injection H1 as <-. injection H2 as <-. split; [|auto]. cbn [s_links with_links]. revert a b Ha Hb. apply upd_rr; [exact Hc|exact G|]. intros l0 _. apply rr_refl.
    - destruct Hc as (H & H0). apply on_some in H. fold CV in H. destruct (do_rr part CV Q e1 e2 s t v l d Us Ts Ti H H0 G V s' t' H1 H2) as (G' & V'). split; [exact G'|]. split; [exact V'|].
      apply do_lane_change_ok in H1. apply do_lane_change_ok in H2. destruct H1 as (? & ? & ? & ? & ? & ? & ? & _ & _ & _ & _ & _ & E1). destruct H2 as (? & ? & ? & ? & ? & ? & ? & _ & _ & _ & _ & _ & E2). rewrite E1, E2. exact Fz.
  Qed.
  Theorem call_same e1 e2 s t o s' t' : Inv s -> Inv t -> separate part s -> separate part t -> same_part part s t -> same_ties part e1 e2 -> concerns part s o -> concerns part t o -> exec e1 s o = Ok s' -> exec e2 t o = Ok t' -> same_part part s' t'.
  Proof.
    intros Hi Ht Ss St0 P Ti Hc Hc' H1 H2. destruct (is_step o) eqn:Hs.
    - destruct o; try discriminate Hs. exact (step_same part e1 e2 s t dt s' t' Hi Ht Ss St0 P Ti H1 H2).
    - pose proof (exec_Inv _ _ _ _ Hi H1) as Hi'. pose proof (exec_Inv _ _ _ _ Ht H2) as Ht'. destruct (kept_call _ _ _ _ Hi Ss Hc Hs H1) as [K1 K2 K3 K4 K5 K6 K7]. destruct (kept_call _ _ _ _ Ht St0 Hc' Hs H2) as [J1 J2 J3 J4 J5 J6 J7].
      destruct (call_two e1 e2 s t o s' t' Hi Ht Ss St0 P Ti Hc Hs H1 H2) as (G & V & Fz). apply (same_of part (CVof part s) (Qof part s t) s' t' Hi' Ht' K2); auto.
      + exact (rootc_ext part _ _ _ (fun k => eq_sym (CV_same part _ _ P k)) J2).
      + exact (g_lt _ _ _ (Q_good part s t Hi Ht P)).
      + rewrite K4, J4. exact (sp_conflicts _ _ _ P).
      + rewrite K5, J5. apply al_lights. exact (sp_lights _ _ _ P).
      + rewrite K6, J6. exact (sp_acc _ _ _ P).
      + rewrite K7, J7. exact (sp_lc _ _ _ P).
  Qed.
  Theorem call_separate e s o s' : Inv s -> separate part s -> concerns part s o -> exec e s o = Ok s' -> separate part s'.
  Proof.
    intros Hi Sp Hc H. destruct (is_step o) eqn:Hs; [destruct o; try discriminate Hs; exact (separate_step part e s dt s' Hi Sp H)|]. exact (separate_kept s s' (exec_Inv _ _ _ _ Hi H) Sp (kept_call _ _ _ _ Hi Sp Hc Hs H)).
  Qed.
  Theorem runs_same e1 e2 ops s s' : same_ties part e1 e2 -> goes_on part e1 s ops s' -> forall t t', Inv s -> Inv t -> separate part s -> separate part t -> same_part part s t -> goes_on part e2 t ops t' -> same_part part s' t'.
  Proof.
    intros Ti Hs. induction Hs as [s|s o s1 ops s' Hc Hx Hs IH|s o s1 ops s' He Hx Hs IH]; intros t t' Hi Ht Ss St0 P Hg.
    - remember (@nil op) as ops eqn:Eo. induction Hg as [t|t o t1 ops t' Hc' Hx' Hg _|t o t1 ops t' He' Hx' Hg IHg]; [exact P|discriminate Eo|]. destruct (else_all part _ _ _ _ Ht St0 He' Hx') as (X & St1). apply IHg; auto; [exact (exec_Inv _ _ _ _ Ht Hx')|]. apply same_part_sym. apply (strict_left part t t1 s X). apply same_part_sym. exact P.
    - remember (o :: ops) as os eqn:Eo. revert Ht St0 P. induction Hg as [t|t o2 t1 os t' Hc' Hx' Hg _|t o2 t1 os t' He' Hx' Hg IHg]; intros Ht St0 P; [discriminate Eo| |].
      + injection Eo as -> ->. apply (IH t1 t'); auto.
        * exact (exec_Inv _ _ _ _ Hi Hx).
        * exact (exec_Inv _ _ _ _ Ht Hx').
        * exact (call_separate _ _ _ _ Hi Ss Hc Hx).
        * exact (call_separate _ _ _ _ Ht St0 Hc' Hx').
        * exact (call_same e1 e2 s t o s1 t1 Hi Ht Ss St0 P Ti Hc Hc' Hx Hx').
      + destruct (else_all part _ _ _ _ Ht St0 He' Hx') as (X & St1). apply IHg; auto; [exact (exec_Inv _ _ _ _ Ht Hx')|]. apply same_part_sym. apply (strict_left part t t1 s X). apply same_part_sym. exact P.
    - destruct (else_all part _ _ _ _ Hi Ss He Hx) as (X & Ss1). apply (IH t t'); auto; [exact (exec_Inv _ _ _ _ Hi Hx)|]. exact (strict_left part s s1 t X P).
  Qed.
End LocCall.
