(** * Routing over whole histories *)
From Coq Require Import List Bool ZArith NArith Arith Lia Relation_Operators Operators_Properties.
From Verif Require Import Arith Base BaseProofs SlotMap SlotMapProofs Util Geom Light Accel Net Path Vehicle LinkOps Sim SpecSim NetInv SimInv Safe SimSafe StepSafe OpSafe Evo StepEvo SimProofs NetEvo P_Net SpecRoute P_Lane DijProofs RouteProofs PlanProofs.
Import ListNotations.

Section RE.
  Context {A : Arith}.

  (** ** Roads are only added *)
  Lemma exec_succ e s o s' a b : Inv s -> exec e s o = Ok s' -> succ_of (s_links s) a b -> succ_of (s_links s') a b.
  Proof.
    intros I H (l & G & Hb). assert (sm_mem (s_links s) a = true) as M by (apply sm_mem_get; eauto).
    pose proof (links_stay _ _ _ _ _ I H M) as M'. apply sm_mem_get in M'. destruct M' as (l' & G').
    destruct (exec_built _ _ _ _ _ _ I H G') as [(l0 & G0 & _ & E & _)|(c & lim & _ & -> & _)].
    - exists l'. split; auto. rewrite E. apply in_app_iff. left. congruence.
    - exfalso. apply (next_key_not_issued _ (nk_wf _ (st_net _ _ _ (i_st _ I)))). eapply issued_mem; eauto.
  Qed.
  Lemma history_succ s ops s' a b : history s ops s' -> Inv s -> succ_of (s_links s) a b -> succ_of (s_links s') a b.
  Proof. intros Hh I. apply (history_pres (fun s => succ_of (s_links s) a b)) with (2 := Hh); auto. intros. eapply exec_succ; eauto. Qed.
  Lemma history_valid s ops s' k : history s ops s' -> Inv s -> valid (s_links s) k -> valid (s_links s') k.
  Proof. intros Hh I. apply (history_pres (fun s => valid (s_links s) k)) with (2 := Hh); auto. intros. eapply links_stay; eauto. Qed.
  Lemma history_next ops1 s0 ops2 s a b : history sim_new ops1 s0 -> history s0 ops2 s -> next_of (s_links s0) a b -> next_of (s_links s) a b.
  Proof.
    intros H1 H2. pose proof (history_Inv _ _ _ H1 Inv_new) as I. intros [Hs|Hc]; [left; eapply history_succ; eauto|right].
    apply (chg_iff ops1 s0 (s_links s0) H1 (same_net_refl _)) in Hc. destruct Hc as (V & ids & mask & Hin & St).
    apply (chg_iff (ops1 ++ ops2) s (s_links s) (history_app _ _ _ _ _ H1 H2) (same_net_refl _)). split; [eapply history_valid; eauto|].
    exists ids, mask. split; auto. apply in_app_iff. auto.
  Qed.
  Lemma history_leads ops1 s0 ops2 s a b : history sim_new ops1 s0 -> history s0 ops2 s -> leads (s_links s0) a b -> leads (s_links s) a b.
  Proof. intros H1 H2 L. induction L; [apply rt_step; eapply history_next; eauto|apply rt_refl|eapply rt_trans; eauto]. Qed.

  (** ** Other calls leave the roads alone *)
  Lemma exec_static e s o s' : Inv s -> exec e s o = Ok s' -> builds o = false -> same_net (s_links s) (s_links s').
  Proof.
    intros I H Hb. assert (s_links s' = s_links s -> same_net (s_links s) (s_links s')) as K by (intros ->; apply same_net_refl).
    destruct o; simpl in H; try discriminate Hb.
    - apply K. bok H x Hx. injection H as <-. auto.
    - bok H x Hx. destruct x as [s1 k1]. injection H as <-. unfold add_vehicle in Hx. bok Hx v0 Hv0. bok Hx v Hv. bok Hx links Hl.
      injection Hx as <- <-. cbn [fst s_links with_links]. eapply insert_upd_net; eauto.
    - unfold sim_remove_vehicle in H. destruct (sm_get _ v) as [v0|]; [|injection H as <-; apply same_net_refl]. cbn [s_links with_links with_vehicles] in H.
      destruct (v_link v0) as [l|]; [|injection H as <-; apply same_net_refl]. bok H x Hx. injection H as <-. cbn [s_links with_links]. eapply upd_remove_length; eauto.
    - apply K. unfold randomise_velocity_adjusts in H. bok H x Hx. injection H as <-. auto.
    - apply K. injection H as <-. unfold set_vehicle_frozen. destruct frozen, (position _ _); auto.
    - apply K. unfold set_vehicle_destination in H. bok H x Hx. bok H y Hy. injection H as <-. auto.
    - unfold set_link_control in H. bok H x Hx. injection H as <-. cbn [s_links with_links]. unfold upd_link, get_link in Hx.
      destruct (sm_get (s_links s) l) as [l0|] eqn:G; [|discriminate Hx]. cbn [of_option bind] in Hx. injection Hx as <-.
      apply (same_net_set _ _ _ _ G); auto.
    - apply do_lane_change_pf in H. apply H.
    - eapply step_same_net; eauto.
  Qed.
  Lemma history_static s ops s' : history s ops s' -> Inv s -> (forall o, In o ops -> builds o = false) -> same_net (s_links s) (s_links s').
  Proof.
    induction 1 as [|e s o s1 ops s' H Hh IH]; intros I Hb; [apply same_net_refl|].
    eapply same_net_trans; [eapply exec_static; eauto; apply Hb; left; auto|]. apply IH; [eapply exec_Inv; eauto|]. intros; apply Hb; right; auto.
  Qed.
  Lemma same_next links links' a b : same_net links links' -> next_of links a b -> next_of links' a b.
  Proof. intros S [H|H]; [left|right]; apply (same_net_le _ _ S); auto. Qed.
  Lemma same_leads links links' a b : same_net links links' -> leads links a b -> leads links' a b.
  Proof. intros S L. induction L; [apply rt_step; eapply same_next; eauto|apply rt_refl|eapply rt_trans; eauto]. Qed.
  Lemma same_plan links links' (t : key -> Prop) r d a p : same_net links links' -> plan links t r d a p -> plan links' t r d a p.
  Proof.
    intros S P. induction P as [r d a Ha Hs|r d a l b p Ha Hd G Hb P IH].
    - apply plan_stop; auto. destruct Hs as [Hs|[Hs|Hs]]; auto. right. right. intros b Hb. apply Hs. apply (same_net_ge _ _ S); auto.
    - destruct (same_net_get' _ _ _ _ S G) as (l' & G' & E). unfold lk_static in E. injection E as F1 F2 F3 F4 F5 F6 F7 F8 F9.
      assert (lk_out l' = lk_out l) as Eo by congruence.
      eapply plan_on; eauto; [rewrite Eo; exact Hb|]. replace (lk_length l') with (lk_length l) by (unfold lk_length; congruence). auto.
  Qed.
  Lemma same_planned links links' (t : key -> Prop) a p : same_net links links' -> planned links t a p -> planned links' t a p.
  Proof. intros S (b & Hb & P). exists b. split; [destruct Hb as [Hb|Hb]; auto; right; apply (same_net_le _ _ S); auto|eapply same_plan; eauto]. Qed.
  Lemma same_planned_all links links' pf : net_ok links -> same_net links links' -> planned_all links pf -> planned_all links' pf.
  Proof.
    intros N S (P1 & P2). split.
    - intros p Hp. destruct (P1 p Hp) as (P & X). split; auto. eapply same_planned; eauto.
    - intros ks Pk. apply P2. eapply same_planned; [apply same_net_sym; [exact S|exact N]|]. auto.
  Qed.

  (** ** One replacement of a vehicle's routing *)
  Section Net.
    Variables (ops : list op) (s : sim).
    Hypothesis Hist : history sim_new ops s.
    Hypothesis Apart : groups_apart ops.
    Hypothesis Cast : @cast_in_range A.

    Lemma costs_ok links : same_net (s_links s) links -> forall k l, sm_get links k = Some l -> (0 <= lk_cost l)%Z.
    Proof.
      intros S k l G. destruct (same_net_get _ _ _ _ S G) as (l0 & G0 & E). unfold lk_static in E. injection E as F1 F2 F3 F4 F5 F6 F7 F8 F9. rewrite <- F9.
      rewrite (C53_every_link _ s k l0); [|eapply history_reachable; [exact Hist|constructor]|exact G0].
      unfold link_cost. apply Cast. unfold usize_max. lia.
    Qed.
    (** The links of the table lead to the destination, and the vehicle's link is in it if it does. *)
    Definition sound (links : linkset) (pf : pathfind) : Prop := forall k, inM (pf_matrix pf) k -> leads links k (pf_dst pf).
    Definition found (links : linkset) (pf : pathfind) : Prop := leads links (pf_src pf) (pf_dst pf) -> inM (pf_matrix pf) (pf_src pf).
    Lemma reroute_sound e links pf pf' : same_net (s_links s) links -> valid links (pf_src pf) -> pf_dst_ok links pf -> reroute e links pf = Ok pf' ->
      pf_src pf' = pf_src pf /\ pf_dst pf' = pf_dst pf /\ (sound links pf -> sound links pf') /\ found links pf' /\ (leads links (pf_src pf) (pf_dst pf) -> sound links pf').
    Proof.
      intros S Vs D H. destruct D as [D|D].
      - assert (~ leads links (pf_src pf) (pf_dst pf)) as NL.
        { intros L. apply (valid_not_null ops s links Hist S null_key); auto. rewrite <- D. apply clos_rt_rtn1 in L.
          destruct L as [|y z [St|St] _]; auto; [apply (succ_valid ops s links Hist S) in St|apply (chg_valid ops s links Hist S) in St]; apply St. }
        unfold reroute in H. rewrite D in H. rewrite key_eqb_refl, orb_true_r in H. injection H as <-. cbn [pf_src pf_dst pf_matrix]. rewrite D in NL.
        split; auto. split; auto. unfold sound, found, inM. cbn [pf_src pf_dst pf_matrix mx_get]. repeat split; try congruence; try tauto.
      - destruct (reroute_ok ops s links Hist S Apart (costs_ok links S) e pf pf' Vs D H) as (E1 & E2 & K1 & K2). split; auto. split; auto. unfold sound, found. rewrite E1, E2. split.
        + intros So. assert (forall k, inM (pf_matrix pf') k -> leads links k (pf_dst pf)) as Z; [|exact Z]. intros k Hk. 
          assert (leads links (pf_src pf) (pf_dst pf) \/ ~ leads links (pf_src pf) (pf_dst pf)) as [L|L]; [|apply (proj2 (K1 L)); auto|rewrite (K2 L) in Hk; auto].
          { unfold reroute in H. replace (key_eqb (pf_src pf) null_key) with false in H by (symmetry; apply key_eqb_neq, (valid_not_null ops s links Hist S); auto).
            replace (key_eqb (pf_dst pf) null_key) with false in H by (symmetry; apply key_eqb_neq, (valid_not_null ops s links Hist S); auto). cbn [orb] in H.
            bok H dl G. unfold get_link in G. destruct (sm_get links (pf_dst pf)) as [dl'|] eqn:Gd; [|discriminate G]. injection G as ->. bok H dsts Hd. bok H r Hr.
            pose proof (search_ok ops s links Hist S Apart (costs_ok links S) (e_fuel e) (e_pick e links (pf_src pf) (pf_dst pf)) _ _ _ _ Vs Gd Hd) as Q. rewrite Hr in Q.
            destruct r as [(p, c)|]; [left|right; exact Q]. destruct Q as ((b & Dr & Hb) & _). apply (leads_drive links). eauto. }
        + split; [intros L; apply (K1 L)|intros L; apply (K1 L)].
    Qed.
    Lemma set_origin_sound e links pf id pf' : same_net (s_links s) links -> valid links id -> pf_dst_ok links pf -> set_origin e links pf id = Ok pf' ->
      pf_src pf' = id /\ pf_dst pf' = pf_dst pf /\ (sound links pf -> sound links pf') /\ found links pf' /\ planned_all links pf'.
    Proof.
      intros S V D H. unfold set_origin in H. cbn [pf_matrix] in H. apply bind_ok in H; destruct H as (pfa & H1 & H). apply make_paths_planned in H. destruct H as (M1 & M2 & M3 & M4).
      assert (pf_src pfa = id /\ pf_dst pfa = pf_dst pf /\ (sound links pf -> sound links pfa) /\ found links pfa) as (E1 & E2 & E3 & E4).
      { destruct (mx_get (pf_matrix pf) id) as [d|] eqn:G.
        - injection H1 as <-. cbn [pf_src pf_dst pf_matrix]. repeat split; auto. intros _. unfold inM. cbn [pf_src pf_dst pf_matrix]. congruence.
        - destruct (reroute_sound e links (PF id (pf_dst pf) (pf_matrix pf) (pf_paths pf)) pfa S V D H1) as (F1 & F2 & F3 & F4 & _). auto. }
      split; [congruence|]. split; [congruence|]. split; [unfold sound; rewrite M2, M3; exact E3|]. split; [unfold found; rewrite M1, M2, M3; exact E4|exact M4].
    Qed.
    Lemma pf_evo_sound pf pf' : pf_evo (s_links s) pf pf' -> pf_dst_ok (s_links s) pf ->
      pf_dst pf' = pf_dst pf /\ (sound (s_links s) pf -> sound (s_links s) pf') /\ (found (s_links s) pf -> found (s_links s) pf') /\ (planned_all (s_links s) pf -> planned_all (s_links s) pf').
    Proof.
      intros H. induction H as [pf pf' (e & links & id & S & V & H)|pf|pf pf1 pf2 H1 IH1 H2 IH2]; intros D; auto.
      - destruct (set_origin_sound e links pf id pf' S) as (E1 & E2 & E3 & E4 & E5); auto; [apply (same_net_valid _ _ _ S); exact V|destruct D as [D|D]; [left; auto|right; apply (same_net_valid _ _ _ S); exact D]|].
        pose proof (hist_net ops s (s_links s) Hist (same_net_refl _)) as N. pose proof (same_net_sym _ _ S N) as S'. split; auto. split; [|split].
        + intros So k Hk. rewrite E2. eapply same_leads; [exact S'|]. rewrite <- E2. apply E3; auto. intros k' Hk'. eapply same_leads; [exact S|]. apply So. auto.
        + intros _ L. apply E4. eapply same_leads; [exact S|exact L].
        + intros _. apply (same_planned_all _ _ _ (same_net_ok _ _ S N) S') in E5. exact E5.
      - destruct (IH1 D) as (F1 & F2 & F3 & F4). destruct IH2 as (G1 & G2 & G3 & G4); [unfold pf_dst_ok; rewrite F1; exact D|]. split; [congruence|]. auto.
    Qed.
  End Net.

  (** ** Whole histories *)
  Lemma history_ind_from (P : list op -> sim -> Prop) :
    (forall ops e s o s', history sim_new ops s -> exec e s o = Ok s' -> P ops s -> P (ops ++ [o]) s') ->
    forall ops1 s0 ops2 s, history sim_new ops1 s0 -> history s0 ops2 s -> P ops1 s0 -> P (ops1 ++ ops2) s.
  Proof.
    intros St ops1 s0 ops2 s H1 H2. revert ops1 H1. induction H2 as [|e s o s1 ops s' H Hh IH]; intros ops1 H1 P0; [rewrite app_nil_r; auto|].
    change (o :: ops) with ([o] ++ ops). rewrite app_assoc. apply IH; [eapply history_app; [exact H1|econstructor; [exact H|constructor]]|eapply St; eauto].
  Qed.
  Lemma apart_app ops1 ops2 : groups_apart (ops1 ++ ops2) -> groups_apart ops1.
  Proof. unfold groups_apart. rewrite flat_map_app. intros N. induction (flat_map _ ops1) as [|x l IH]; [constructor|]. inversion N; subst. constructor; auto. rewrite in_app_iff in *. tauto. Qed.
  Lemma vehicle_dst s k v : Inv s -> sm_get (s_vehicles s) k = Some v -> pf_dst_ok (s_links s) (v_pathfind v).
  Proof. intros I G. apply (vb_dst _ _ _ _ (st_veh _ _ _ (i_st _ I) _ _ G)). Qed.

  Definition bound_for (d : key) (Q : linkset -> pathfind -> Prop) (s : sim) (k : key) : Prop :=
    sm_issued (s_vehicles s) k /\ forall v, sm_get (s_vehicles s) k = Some v -> pf_dst (v_pathfind v) = d /\ Q (s_links s) (v_pathfind v).
  Lemma exec_bound ops e s o s' k d : history sim_new ops s -> groups_apart ops -> @cast_in_range A -> exec e s o = Ok s' -> redirects k o = false ->
    (bound_for d sound s k -> bound_for d sound s' k) /\
    (builds o = false -> bound_for d found s k -> bound_for d found s' k) /\
    (builds o = false -> bound_for d planned_all s k -> bound_for d planned_all s' k).
  Proof.
    intros Hist Ap Cast H Hr. pose proof (history_Inv _ _ _ Hist Inv_new) as I.
    assert (forall Q Q' : linkset -> pathfind -> Prop, (forall pf pf', pf_evo (s_links s) pf pf' -> pf_dst_ok (s_links s) pf -> Q (s_links s) pf -> Q' (s_links s) pf') ->
      bound_for d Q s k -> sm_issued (s_vehicles s') k /\ forall v', sm_get (s_vehicles s') k = Some v' -> pf_dst (v_pathfind v') = d /\ Q' (s_links s) (v_pathfind v')) as K.
    { intros Q Q' HQ (Is & B). split; [eapply history_issued; [econstructor; [exact H|constructor]|exact I|exact Is]|].
      intros v' G. destruct (exec_pf _ _ _ _ _ _ I H G) as [(v & Gv & E)|[(v & d' & -> & _)|(a & l & -> & -> & _)]].
      - destruct (B _ Gv) as (Bd & Bq). pose proof (vehicle_dst _ _ _ I Gv) as D. destruct (pf_evo_sound ops s Hist Ap Cast _ _ E D) as (E1 & _). split; [congruence|]. eapply HQ; eauto.
      - cbn [redirects] in Hr. rewrite key_eqb_refl in Hr. discriminate Hr.
      - exfalso. revert Is. apply next_key_not_issued. apply I. }
    assert (history s [o] s') as H1 by (econstructor; [exact H|constructor]).
    split; [|split].
    - intros B. destruct (K sound sound) as (Is & B'); auto.
      { intros pf pf' E D. apply (pf_evo_sound ops s Hist Ap Cast _ _ E D). }
      split; auto. intros v G. destruct (B' _ G) as (Bd & Bq). split; auto. intros x Hx. eapply history_leads; [exact Hist|exact H1|]. apply Bq. auto.
    - intros Hb B. pose proof (exec_static _ _ _ _ I H Hb) as S. destruct (K found found) as (Is & B'); auto.
      { intros pf pf' E D. apply (pf_evo_sound ops s Hist Ap Cast _ _ E D). }
      split; auto. intros v G. destruct (B' _ G) as (Bd & Bq). split; auto. intros L. apply Bq. eapply same_leads; [|exact L]. apply same_net_sym; auto. apply I.
    - intros Hb B. pose proof (exec_static _ _ _ _ I H Hb) as S. destruct (K planned_all planned_all) as (Is & B'); auto.
      { intros pf pf' E D. apply (pf_evo_sound ops s Hist Ap Cast _ _ E D). }
      split; auto. intros v G. destruct (B' _ G) as (Bd & Bq). split; auto. eapply same_planned_all; [|exact S|exact Bq]. apply I.
  Qed.
  Lemma history_bound ops1 s0 ops2 s k d : history sim_new ops1 s0 -> history s0 ops2 s -> groups_apart (ops1 ++ ops2) -> @cast_in_range A ->
    (forall o, In o ops2 -> redirects k o = false) ->
    (bound_for d sound s0 k -> bound_for d sound s k) /\
    ((forall o, In o ops2 -> builds o = false) -> (bound_for d found s0 k -> bound_for d found s k) /\ (bound_for d planned_all s0 k -> bound_for d planned_all s k)).
  Proof.
    intros H1 H2 Ap Cast. revert ops1 H1 Ap. induction H2 as [|e s o s1 ops s' H Hh IH]; intros ops1 H1 Ap Hr; [auto|].
    change (o :: ops) with ([o] ++ ops) in Ap. rewrite app_assoc in Ap.
    destruct (IH (ops1 ++ [o])) as (K1 & K2); [eapply history_app; [exact H1|econstructor; [exact H|constructor]]|exact Ap|intros; apply Hr; right; auto|].
    destruct (exec_bound _ _ _ _ _ k d H1 (apart_app _ _ (apart_app _ _ Ap)) Cast H (Hr _ (or_introl eq_refl))) as (J1 & J2 & J3).
    split; auto. intros Hb. destruct K2 as (K2 & K3); [intros; apply Hb; right; auto|]. specialize (J2 (Hb _ (or_introl eq_refl))). specialize (J3 (Hb _ (or_introl eq_refl))). auto.
  Qed.

  (** The paths of a vehicle were planned in some earlier state. *)
  Lemma pf_evo_planned links pf pf' : net_ok links -> pf_evo links pf pf' -> pf' = pf \/ pf_src pf' = pf_src pf' /\ planned_all links pf'.
  Proof.
    intros N H. apply clos_rt_rtn1 in H. destruct H as [|pf1 pf2 St _]; auto. right. split; auto. destruct St as (e & links' & id & S & V & H).
    unfold set_origin in H. apply bind_ok in H. destruct H as (pfa & _ & H). apply make_paths_planned in H. destruct H as (_ & _ & _ & P).
    eapply same_planned_all; [|apply same_net_sym; [exact S|exact N]|exact P]. eapply same_net_ok; eauto.
  Qed.
  Definition once_planned (ops : list op) (s : sim) (pf : pathfind) : Prop :=
    exists ops1 ops2 s0, ops = ops1 ++ ops2 /\ history sim_new ops1 s0 /\ history s0 ops2 s /\ planned_all (s_links s0) pf.
  Lemma history_planned ops s : history sim_new ops s -> forall k v, sm_get (s_vehicles s) k = Some v -> once_planned ops s (v_pathfind v).
  Proof.
    intros Hh. apply (history_ind_from (fun ops s => forall k v, sm_get (s_vehicles s) k = Some v -> once_planned ops s (v_pathfind v))) with (ops1 := []) (s0 := sim_new); [|constructor|exact Hh|].
    - clear. intros ops e s o s' Hist H IH k v' G. pose proof (history_Inv _ _ _ Hist Inv_new) as I. assert (net_ok (s_links s)) as N by apply I.
      assert (history s [o] s') as H1 by (econstructor; [exact H|constructor]).
      assert (planned_all (s_links s) (v_pathfind v') -> once_planned (ops ++ [o]) s' (v_pathfind v')) as K.
      { intros P. exists ops, [o], s. auto. }
      destruct (exec_pf _ _ _ _ _ _ I H G) as [(v & Gv & E)|[(v & d' & -> & _ & E)|(a & l & -> & _ & E)]].
      + destruct (pf_evo_planned _ _ _ N E) as [->|(_ & P)]; auto. destruct (IH _ _ Gv) as (ops1 & ops2 & s0 & -> & X1 & X2 & X3).
        exists ops1, (ops2 ++ [o]), s0. rewrite app_assoc. split; auto. split; auto. split; auto. eapply history_app; eauto.
      + apply K. unfold pf_set_destination in E. apply bind_ok in E. destruct E as (pfa & _ & E). apply make_paths_planned in E. apply E.
      + apply K. destruct (pf_evo_planned _ _ _ N (rt_step _ _ _ _ E)) as [X|(_ & P)]; auto. exfalso.
        destruct E as (e' & links' & id & S & V & E). unfold set_origin in E. apply bind_ok in E. destruct E as (pfa & Ea & E). apply make_paths_planned in E. destruct E as (E1 & _).
        assert (pf_src pfa = id) as Es.
        { cbn [pf_matrix pf_default mx_get pf_dst] in Ea. unfold reroute in Ea. cbn [pf_src pf_dst] in Ea. rewrite key_eqb_refl, orb_true_r in Ea. injection Ea as <-. auto. }
        rewrite X in E1. cbn [pf_default pf_src] in E1. rewrite <- Es, <- E1 in V. apply (valid_not_null ops s (s_links s) Hist (same_net_refl _) null_key); auto.
    - intros k v G. simpl in G. rewrite sm_get_empty in G. discriminate G.
  Qed.

  (** ** A vehicle stays on the links of its table *)
  Definition on_track (m : matrix) (v : vehicle) : Prop :=
    pf_matrix (v_pathfind v) = m /\ (forall x, In x (v_route v) -> inM m x) /\ forall p x, In p (pf_paths (v_pathfind v)) -> In x (pt_links p) -> inM m x.
  Lemma plan_in links (t : key -> Prop) r d a p x : plan links t r d a p -> In x p -> t x.
  Proof. induction 1; intros [<-|Hx]; auto; destruct Hx. Qed.
  Lemma planned_in links pf p x : planned_all links pf -> In p (pf_paths pf) -> In x (pt_links p) -> inM (pf_matrix pf) x.
  Proof. intros (P & _) Hp Hx. destruct (P p Hp) as ((a & _ & Pl) & _). eapply plan_in; eauto. Qed.
  Lemma set_origin_track e links pf id pf' : inM (pf_matrix pf) id -> set_origin e links pf id = Ok pf' ->
    pf_matrix pf' = pf_matrix pf /\ forall p x, In p (pf_paths pf') -> In x (pt_links p) -> inM (pf_matrix pf) x.
  Proof.
    intros M H. unfold set_origin in H. cbn [pf_matrix] in H. unfold inM in M. destruct (mx_get (pf_matrix pf) id); [|congruence]. cbn [bind] in H.
    apply make_paths_planned in H. cbn [pf_matrix] in H. destruct H as (_ & _ & E & P). split; auto. intros p x Hp Hx. rewrite <- E. eapply planned_in; eauto.
  Qed.
  Definition kept_track (vs vs' : vehset) : Prop := forall m k v', sm_get vs' k = Some v' -> exists v, sm_get vs k = Some v /\ (on_track m v -> on_track m v').
  Lemma kept_refl vs : kept_track vs vs.
  Proof. intros m k v' G. exists v'. auto. Qed.
  Lemma kept_trans a b c : kept_track a b -> kept_track b c -> kept_track a c.
  Proof. intros H1 H2 m k v' G. destruct (H2 m _ _ G) as (v1 & G1 & T1). destruct (H1 m _ _ G1) as (v & Gv & T). exists v. auto. Qed.
  Lemma do_lane_change_loc e s id lid dist s' : do_lane_change e s id lid dist = Ok s' ->
    exists v v' links pos lc, sm_get (s_vehicles s) id = Some v /\ s_vehicles s' = sm_set (s_vehicles s) id v' /\ set_location e links v lid pos lc = Ok v'.
  Proof.
    unfold do_lane_change. intros H. bok H v Hv. bok H links Hl. bok H l Gl. bok H o Ho. bok H o2 Ho2. destruct o as [((pos, off), slope)|]; [|discriminate Ho2]. injection Ho2 as <-.
    bok H v' Hs. bok H links2 Hi. injection H as <-. cbn [s_vehicles with_links with_vehicles].
    unfold get_vehicle in Hv. destruct (sm_get (s_vehicles s) id) as [v0|]; [|discriminate Hv]. injection Hv as ->. exists v, v'. eauto 10.
  Qed.
  Lemma set_location_track e links v lid pos lc v' m : set_location e links v lid pos lc = Ok v' -> inM m lid -> on_track m v -> on_track m v'.
  Proof.
    intros H M (E & R & P). unfold set_location in H. bok H pfa Hpf. injection H as <-. rewrite <- E in M. apply (set_origin_track _ _ _ _ _ M) in Hpf. destruct Hpf as (E1 & P1).
    split; [cbn [v_pathfind]; congruence|]. cbn [v_route v_pathfind]. split; [intros x [<-|[]]; congruence|]. rewrite E in P1. exact P1.
  Qed.
  Lemma lane_changes_track e s s' : St (s_links s) (s_vehicles s) (s_seq s) -> calculate_lane_changes e s = Ok s' -> kept_track (s_vehicles s) (s_vehicles s').
  Proof.
    intros S H. unfold calculate_lane_changes in H. destruct (nltb _ _); [injection H as <-; apply kept_refl|].
    bok H x Hx. destruct x as [acc vs1]. cbn [fst snd] in *. cbn [s_links s_vehicles with_lc_update] in Hx.
    destruct (sm_mapS_pointwise (choose_one (s_links s)) (fun acc : list (key * path) => forall k p, In (k, p) acc -> exists v, sm_get (s_vehicles s) k = Some v /\ In p (pf_paths (v_pathfind v)))
      (s_vehicles s) [] acc vs1) as (A1 & _ & A2); [| |exact Hx|].
    { intros a k v a' v' G P Hc. unfold choose_one in Hc. bok Hc o Ho. destruct o as [p|]; [|injection Hc as <- <-; auto]. bok Hc cur Hcu. bok Hc nw Hnw.
      destruct (negb (key_eqb cur nw)); injection Hc as <- <-; auto. intros k1 p1 Hin. apply in_app_iff in Hin. destruct Hin as [Hin|[Hin|[]]]; auto. injection Hin as <- <-.
      rewrite (vb_id _ _ _ _ (st_veh _ _ _ S _ _ G)). exists v. split; auto. apply choose_path_in in Ho. apply Ho. }
    { intros k p []. }
    assert (kept_track (s_vehicles s) vs1) as T1.
    { intros m k v' G. destruct (A2 _ _ G) as (a & a' & v & _ & _ & Hc & Gv). exists v. split; auto. intros T.
      unfold choose_one in Hc. bok Hc o Ho. destruct o as [p|]; [|injection Hc as _ <-; auto]. bok Hc cur Hcu. bok Hc nw Hnw.
      destruct (negb (key_eqb cur nw)); injection Hc as _ <-; auto. apply choose_path_in in Ho. destruct T as (E & R & P). split; [exact E|]. split; [|exact P].
      intros x Hx'. cbn [set_path v_route] in Hx'. destruct Ho as (Ho & _). eapply P; eauto. }
    assert (forall acc s2 s3, foldM (exec_change e) acc s2 = Ok s3 -> (forall k p, In (k, p) acc -> exists v, sm_get (s_vehicles s) k = Some v /\ In p (pf_paths (v_pathfind v))) ->
      kept_track (s_vehicles s) (s_vehicles s2) -> kept_track (s_vehicles s) (s_vehicles s3)) as F.
    { clear. induction acc as [|(k0, p0) acc IH]; intros s2 s3 Hf Ha T; cbn [foldM] in Hf; [injection Hf as <-; auto|]. bok Hf s4 H4.
      apply (IH s4 s3 Hf); [intros; apply Ha; right; auto|]. clear IH Hf s3. unfold exec_change in H4. cbn [fst snd] in H4. bok H4 lid Hl. bok H4 s1 Hd. bok H4 v1 Hv1. injection H4 as <-.
      cbn [s_vehicles with_vehicles]. apply do_lane_change_loc in Hd. destruct Hd as (v & v2 & links & pos & lc & Gv & Es & Hs). rewrite Es in *. unfold get_vehicle in Hv1.
      assert (sm_mem (s_vehicles s2) k0 = true) as M by (apply sm_mem_get; eauto). rewrite sm_get_set, key_eqb_refl, M in Hv1. cbn [of_option andb] in Hv1. injection Hv1 as <-.
      intros m k v' G. rewrite !sm_get_set, sm_mem_set, M in G. destruct (key_eqb_spec k0 k) as [<-|N]; cbn [andb] in G; [|apply T; auto].
      injection G as <-. destruct (T m _ _ Gv) as (v0 & G0 & K). exists v0. split; auto. intros T0.
      destruct (Ha k0 p0 (or_introl eq_refl)) as (v0' & G0' & Hp). rewrite G0 in G0'. injection G0' as <-. pose proof T0 as (_ & _ & P0).
      assert (forall x, In x (pt_links p0) -> inM m x) as Q by (intros; eapply P0; eauto).
      destruct (set_location_track _ _ _ _ _ _ _ m Hs) as (E & R & P); [apply Q|auto|]; [destruct (pt_links p0); [discriminate Hl|injection Hl as <-; left; auto]|].
      split; [exact E|]. split; [|exact P]. intros x Hx. apply Q. exact Hx. }
    eapply F; [exact H|exact A1|exact T1].
  Qed.
  Lemma advance_track e s s' : advance_vehicles e s = Ok s' -> kept_track (s_vehicles s) (s_vehicles s').
  Proof.
    intros H. unfold advance_vehicles in H. bok H x Hx. destruct x as [[links [adv ex]] vs]. bok H l2 Hl. injection H as <-. cbn [s_vehicles with_vehicles with_links].
    intros m k v' Hk. rewrite sm_get_fold_remove in Hk. destruct (key_mem k ex); [discriminate Hk|].
    destruct (sm_mapS_pointwise (advance_one e) (fun _ => True) _ _ _ _ (fun _ _ _ _ _ _ _ _ => Logic.I) Logic.I Hx) as (_ & _ & K2).
    destruct (K2 _ _ Hk) as (st & st' & v & _ & _ & Ho & Gv). exists v. split; auto.
    destruct st as [ls [ad x]]. unfold advance_one in Ho. bok Ho lid Hlid. bok Ho bv Ha.
    assert (v' = snd bv) as ->.
    { destruct (fst bv); [|injection Ho as _ <-; auto]. bok Ho l3 H3. destruct (v_link (snd bv)); injection Ho as _ <-; auto. }
    clear Ho. intros T. unfold advance in Ha. destruct (v_route v) as [|id rest] eqn:Er; [injection Ha as <-; auto|].
    bok Ha l G. destruct (nltb (lk_length l) (v_pos v)); [|injection Ha as <-; auto].
    bok Ha pfa Hpf. destruct (v_entered v); [discriminate Ha|]. injection Ha as <-. cbn [snd]. destruct T as (E & R & P). rewrite Er in R.
    unfold on_track. cbn [v_pathfind v_route]. destruct rest as [|id' rest]; [injection Hpf as <-; split; auto; split; auto; intros x0 []|].
    assert (inM (pf_matrix (v_pathfind v)) id') as M by (rewrite E; apply R; right; left; auto).
    apply (set_origin_track _ _ _ _ _ M) in Hpf. destruct Hpf as (E1 & P1). rewrite E in *. split; auto. split; auto. intros y Hy. apply R. right. auto.
  Qed.
  Lemma step_track e s dt s' : Inv s -> step e s dt = Ok s' -> kept_track (s_vehicles s) (s_vehicles s').
  Proof.
    intros I H. destruct (step_phases _ _ _ _ I H) as (s1 & s2 & s3 & s4 & s5 & P). destruct (ph6 _ _ _ _ _ _ _ _ _ P) as (s6 & H6 & ->). cbn [s_vehicles].
    eapply kept_trans; [exact (lane_changes_track _ _ _ (i_st _ I) (ph1 _ _ _ _ _ _ _ _ _ P))|].
    assert (kept_track (s_vehicles s1) (s_vehicles s2)) as T2.
    { intros m k v' G. destruct (pk2 _ _ _ _ _ _ _ _ _ P _ _ G) as (v1 & G1 & (a & f & ->)). exists v1. split; auto. }
    eapply kept_trans; [exact T2|]. rewrite <- (pv3 _ _ _ _ _ _ _ _ _ P).
    assert (kept_track (s_vehicles s3) (s_vehicles s4)) as T4.
    { intros m k v' G. destruct (integrate_evo _ _ _ (ph4 _ _ _ _ _ _ _ _ _ P)) as (_ & C4 & _). destruct (C4 _ _ G) as (v3 & q1 & q2 & G3 & Hi & _). apply integrate_ok in Hi.
      destruct Hi as (_ & _ & _ & _ & _ & E4 & E5 & _). exists v3. split; auto. unfold on_track. rewrite E4, E5. auto. }
    eapply kept_trans; [exact T4|]. eapply kept_trans; [exact (advance_track _ _ _ (ph5 _ _ _ _ _ _ _ _ _ P))|].
    intros m k v' G. destruct (coords_evo _ _ H6) as (_ & C6 & _). destruct (C6 _ _ G) as (v5 & G5 & (_ & E6 & _ & E7 & _)). exists v5. split; auto. unfold on_track. rewrite E6, E7. auto.
  Qed.
  (** Calls that neither move nor redirect the vehicle. *)
  Lemma exec_track e s o s' m k : Inv s -> exec e s o = Ok s' -> redirects k o = false -> moves k o = false -> sm_issued (s_vehicles s) k ->
    (forall v, sm_get (s_vehicles s) k = Some v -> on_track m v) -> forall v', sm_get (s_vehicles s') k = Some v' -> on_track m v'.
  Proof.
    intros I H Hr Hm Is T v' G. assert (s_vehicles s' = s_vehicles s -> on_track m v') as R0 by (intros E; rewrite E in G; auto).
    destruct o; simpl in H; try discriminate.
    - apply R0. bok H x Hx. unfold add_link in Hx. bok Hx l Hl. injection Hx as <-. injection H as <-. auto.
    - apply R0. unfold add_link_group in H. bok H x1 Hx1. bok H x2 Hx2. bok H x3 Hx3. bok H x4 Hx4. bok H x5 Hx5. injection H as <-. auto.
    - apply R0. unfold add_link_convergance in H. destruct (key_eqb _ _); [injection H as <-; auto|].
      destruct (sm_get _ a); [|injection H as <-; auto]. destruct (sm_get _ b); [|injection H as <-; auto].
      bok H x Hx. destruct x; [|injection H as <-; auto]. bok H y Hy. injection H as <-. auto.
    - apply R0. unfold add_link_connection in H. bok H x Hx. bok H y Hy. injection H as <-. auto.
    - apply R0. bok H x Hx. injection H as <-. auto.
    - bok H x Hx. destruct x as [s1 k1]. injection H as <-. simpl in G. clear R0. unfold add_vehicle in Hx. bok Hx v0 Hv0. bok Hx v Hv. bok Hx links Hl.
      injection Hx as <- <-. simpl in G. rewrite sm_get_insert in G by apply I.
      destruct (key_eqb_spec (sm_next_key (s_vehicles s)) k) as [<-|]; [|auto]. exfalso. revert Is. apply next_key_not_issued. apply I.
    - rewrite (remove_vehicle_ok _ _ _ I H) in G. destruct (key_eqb _ _); [discriminate|]. auto.
    - unfold randomise_velocity_adjusts in H. bok H x Hx. destruct x as [u vs]. injection H as <-. simpl in G.
      destruct (sm_mapS_pointwise _ (fun _ => True) _ _ _ _ (fun _ _ _ _ _ _ _ _ => Logic.I) Logic.I Hx) as (_ & _ & K2).
      destruct (K2 _ _ G) as (u1 & u2 & v & _ & _ & Ho & Gv). injection Ho as _ <-. exact (T _ Gv).
    - apply R0. injection H as <-. unfold set_vehicle_frozen. destruct frozen, (position _ _); auto.
    - unfold set_vehicle_destination in H. bok H v0 Hv0. bok H v1 Hv1. injection H as <-. simpl in G. cbn [redirects] in Hr.
      rewrite sm_get_set, Hr in G. auto.
    - apply R0. unfold set_link_control in H. bok H x Hx. injection H as <-. auto.
    - apply do_lane_change_pf in H. destruct H as (_ & v0 & v1 & G0 & Es & P). cbn [moves] in Hm. rewrite Es, sm_get_set, Hm in G. auto.
    - destruct (step_track _ _ _ _ I H m _ _ G) as (v & Gv & K). auto.
  Qed.
  Lemma history_track s ops s' m k : history s ops s' -> Inv s -> (forall o, In o ops -> redirects k o = false /\ moves k o = false) -> sm_issued (s_vehicles s) k ->
    (forall v, sm_get (s_vehicles s) k = Some v -> on_track m v) -> forall v', sm_get (s_vehicles s') k = Some v' -> on_track m v'.
  Proof.
    induction 1 as [|e s o s1 ops s' H Hh IH]; intros I Ho Is T; auto. destruct (Ho o (or_introl eq_refl)) as (Hr & Hm).
    apply IH; [eapply exec_Inv; eauto|intros; apply Ho; right; auto|eapply history_issued; [econstructor; [exact H|constructor]|exact I|exact Is]|].
    eapply exec_track; eauto.
  Qed.
End RE.
