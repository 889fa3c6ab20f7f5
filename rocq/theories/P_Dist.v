(** * C68: the lane distances a vehicle chooses its lane by are distances it can drive *)
From Coq Require Import List Bool ZArith NArith Arith Lia Relation_Operators Operators_Properties.
From Verif Require Import Arith Base BaseProofs SlotMap SlotMapProofs Util Geom Light Accel Net Path Vehicle LinkOps Sim SpecSim NetInv SimInv Safe SimSafe StepSafe OpSafe Evo StepEvo
  SimProofs NetEvo P_Net SpecRoute P_Lane DijProofs RouteProofs PlanProofs RouteEvo F64 SimExample P_Motion P_Route SpecChoice SpecDist.
Import ListNotations.

Section Dist.
  Context {A : Arith}.
  Hypothesis Cast : @cast_in_range A.

  Lemma entry4 (P : nat -> Prop) : P 0 -> P 1 -> P 2 -> P 3 -> forall i, i < 4 -> P i.
  Proof. intros. destruct i as [|[|[|[|i]]]]; auto; lia. Qed.
  Lemma combine_at a b i : i < 4 -> entry (dists_combine a b) i = Z.max (entry a i) (entry b i).
  Proof. revert i. apply entry4; reflexivity. Qed.
  Lemma offset_at a x i : i < 4 -> entry (dists_offset a x) i = Z.min (entry a i + tenths x) u32_max.
  Proof. revert i. apply entry4; reflexivity. Qed.
  Lemma tenths_pos x : (0 <= tenths x)%Z.
  Proof. apply Cast. unfold u32_max. lia. Qed.

  (** ** The table of one search *)
  Definition reach (links : linkset) (t a : key) (d : dists) : Prop := forall i, i < 4 -> gets links t i a (entry d i).
  Definition reach_all (links : linkset) (t : key) (m : matrix) : Prop := forall a d, mx_get m a = Some d -> reach links t a d.
  Lemma gets_nonneg links t i k x : gets links t i k x -> (0 <= x)%Z.
  Proof. induction 1; auto; [unfold u32_max; lia|apply tenths_pos|]. pose proof (tenths_pos (lk_length l)). unfold u32_max in *. lia. Qed.
  Lemma gets_more links t i k x : gets links t i k x -> gets links t (S i) k x.
  Proof. induction 1; [constructor|econstructor; eauto|eapply gets_on; eauto|eapply gets_change; eauto]. Qed.
  Lemma reach_combine links t a d e : reach links t a d -> reach links t a e -> reach links t a (dists_combine d e).
  Proof. intros Hd He i Hi. rewrite combine_at by exact Hi. destruct (Z.max_spec (entry d i) (entry e i)) as [(_ & ->)|(_ & ->)]; auto. Qed.
  Lemma mx_insert_get m k d a e : mx_get (mx_insert m k d) a = Some e -> (a = k /\ e = d) \/ mx_get m a = Some e.
  Proof.
    unfold mx_insert. destruct (key_eqb k null_key); [auto|]. simpl. destruct (key_eqb_spec k a) as [->|]; [|auto]. intros [= ->]. auto.
  Qed.
  Lemma back_reach links t m id m' : propagate_back links m id = Ok m' -> reach_all links t m -> reach_all links t m'.
  Proof.
    unfold propagate_back. intros H Mh. bok H l G. unfold get_link in G. destruct (sm_get links id) as [l'|] eqn:Gl; [|discriminate G]. injection G as ->.
    set (ds := flat_map (fun o => match mx_get m o with Some d => [d] | None => [] end) (lk_out l)) in H.
    assert (forall d, In d ds -> reach links t id (dists_offset d (lk_length l))) as K.
    { intros d Hd i Hi. unfold ds in Hd. apply in_flat_map in Hd. destruct Hd as (o & Ho & Hd). destruct (mx_get m o) as [d'|] eqn:Eo; [|destruct Hd]. destruct Hd as [->|[]].
      rewrite offset_at by exact Hi. eapply gets_on; eauto. apply (Mh _ _ Eo _ Hi). }
    destruct ds as [|d ds]; simpl in H; [injection H as <-; exact Mh|]. injection H as <-.
    intros a e Ge. apply mx_insert_get in Ge. destruct Ge as [(-> & ->)|Ge]; [|apply (Mh _ _ Ge)]. clear Mh.
    assert (reach links t id (dists_offset d (lk_length l))) as K0 by (apply K; left; auto). assert (forall d, In d ds -> reach links t id (dists_offset d (lk_length l))) as K1 by (intros; apply K; right; auto).
    clear K. revert d K0. induction ds as [|dx ds IH]; intros d K0; simpl; [exact K0|]. apply IH; [intros; apply K1; right; auto|].
    replace (dists_offset (dists_combine d dx) (lk_length l)) with (dists_combine (dists_offset d (lk_length l)) (dists_offset dx (lk_length l))).
    - apply reach_combine; auto. apply K1. left; auto.
    - unfold dists_combine, dists_offset, sat_add. cbn [d0 d1 d2 d3]. f_equal; lia.
  Qed.
  Lemma across_reach links t m f g m' : propagate_across links m (f, g) = Ok m' -> chg_of links f g -> reach_all links t m -> reach_all links t m'.
  Proof.
    unfold propagate_across. cbn [fst snd]. intros H Hc Mh. destruct (mx_get m g) as [td|] eqn:Et; [|injection H as <-; exact Mh].
    bok H l G. unfold get_link in G. destruct (sm_get links f) as [l'|] eqn:Gl; [|discriminate G]. injection G as ->. injection H as <-.
    intros a e Ge. apply mx_insert_get in Ge. destruct Ge as [(-> & ->)|Ge]; [|apply (Mh _ _ Ge)].
    assert (forall fd, reach links t f fd -> reach links t f (dists_combine fd (dists_shift td))) as K.
    { intros fd Hf. assert (forall i, i < 3 -> gets links t (S i) f (entry td i)) as Hs by (intros i Hi; eapply gets_change; [exact Hc|apply (Mh _ _ Et); lia]).
      intros i Hi. rewrite combine_at by exact Hi. pose proof (Hf i Hi) as Fi. destruct i as [|i].
      - replace (entry (dists_shift td) 0) with 0%Z by reflexivity. rewrite Z.max_l by (eapply gets_nonneg; eauto). exact Fi.
      - replace (entry (dists_shift td) (S i)) with (entry td i) by (destruct i as [|[|[|i]]]; [reflexivity..|lia]).
        destruct (Z.max_spec (entry fd (S i)) (entry td i)) as [(_ & ->)|(_ & ->)]; [apply Hs; lia|exact Fi]. }
    apply K. destruct (mx_get m f) as [fd|] eqn:Ef; [apply (Mh _ _ Ef)|].
    intros i Hi. replace (entry (dists_dead (lk_length l)) i) with (tenths (lk_length l)); [eapply gets_end; eauto|]. revert i Hi. apply entry4; reflexivity.
  Qed.

  Section Net.
    Variables (ops : list op) (s : sim) (links : linkset).
    Hypothesis Hist : history sim_new ops s.
    Hypothesis Same : same_net (s_links s) links.
    Lemma step_reach t m id m' : matrix_step links m id = Ok m' -> reach_all links t m -> reach_all links t m'.
    Proof.
      unfold matrix_step. intros H Mh. bok H l G. unfold get_link in G. destruct (sm_get links id) as [l'|] eqn:Gl; [|discriminate G]. injection G as ->. bok H m1 H1.
      assert (reach_all links t m1) as Mh1.
      { eapply (foldM_inv (reach_all links t)); [|exact H1|exact Mh]. intros ma i mb _ Ha E. eapply back_reach; eauto. }
      destruct (lk_group l) as [g|] eqn:Eg; [|injection H as <-; auto]. bok H lcs Hl.
      destruct (group_call ops s links Hist Same _ _ _ Gl Eg) as (Hg & _ & L16). destruct (changes_in g L16) as (lcs' & E & S1). rewrite Hl in E. injection E as <-.
      eapply (foldM_inv (reach_all links t)); [|exact H|exact Mh1]. intros ma (f, g1) mb Hin Ha E. apply S1 in Hin.
      assert (valid links f) as Vf by (eapply group_valid; eauto; apply (lane_step_in _ _ _ _ Hin)).
      eapply across_reach; [exact E| |exact Ha]. apply (chg_iff ops s links Hist Same). split; [exact Vf|eauto].
    Qed.
    Lemma table_reach t p m : calc_lane_matrix links t p = Ok m -> reach_all links t m.
    Proof.
      unfold calc_lane_matrix. intros H. eapply (foldM_inv (reach_all links t)); [|exact H|].
      - intros ma id mb _ Ha E. eapply step_reach; eauto.
      - intros a d Ga. apply mx_insert_get in Ga. destruct Ga as [(-> & ->)|Ga]; [|discriminate Ga]. red. apply entry4; constructor.
    Qed.
    (** A search makes a table towards the destination, or leaves the old one or none. *)
    Lemma reroute_reach e pf pf' : reroute e links pf = Ok pf' ->
      pf_src pf' = pf_src pf /\ pf_dst pf' = pf_dst pf /\ (pf_matrix pf' = pf_matrix pf \/ reach_all links (pf_dst pf) (pf_matrix pf')).
    Proof.
      unfold reroute. intros H. destruct (key_eqb (pf_src pf) null_key || key_eqb (pf_dst pf) null_key).
      - injection H as <-. cbn. split; auto. split; auto. right. intros a d Ga. discriminate Ga.
      - bok H dl G. bok H dsts Hd. bok H r Hr. destruct r as [(p, c)|]; [|injection H as <-; auto]. bok H m Mh. injection H as <-. cbn. split; auto. split; auto. right. eapply table_reach; eauto.
    Qed.
    Hypothesis Apart : groups_apart ops.
    Lemma reroute_anew e pf pf' : valid links (pf_src pf) -> leads links (pf_src pf) (pf_dst pf) -> reroute e links pf = Ok pf' ->
      pf_dst pf' = pf_dst pf /\ reach_all links (pf_dst pf) (pf_matrix pf').
    Proof.
      intros Vs L H. destruct (reroute_reach _ _ _ H) as (_ & E & _). split; [exact E|]. unfold reroute in H. destruct (key_eqb (pf_src pf) null_key || key_eqb (pf_dst pf) null_key).
      - injection H as <-. intros a d Ga. discriminate Ga.
      - bok H dl G. unfold get_link in G. destruct (sm_get links (pf_dst pf)) as [dl'|] eqn:Gd; [|discriminate G]. injection G as ->. bok H dsts Hd. bok H r Hr.
        pose proof (search_ok ops s links Hist Same Apart (costs_ok ops s Hist Cast links Same) (e_fuel e) (e_pick e links (pf_src pf) (pf_dst pf)) _ _ _ _ Vs Gd Hd) as Q. rewrite Hr in Q.
        destruct r as [(p, c)|]; [|contradiction]. bok H m Mh. injection H as <-. cbn. eapply table_reach; eauto.
    Qed.
  End Net.

  (** ** The candidate paths *)
  Definition path_of (links : linkset) (m : matrix) (dist : num) (ks : list key) (d : dists) : Prop :=
    exists a x d1, ahead links dist ks a x /\ mx_get m a = Some d1 /\ d = dists_offset d1 x.
  Lemma inner_path room links mx dst pre id dist r : make_paths_inner room links mx dst pre id dist = Ok r ->
    forall p, In p (snd r) -> exists ks, pt_links p = pre ++ ks /\ path_of links mx dist ks (pt_dists p).
  Proof.
    revert pre id dist r. induction room as [|room IH]; intros pre id dist r H p Hp; cbn [make_paths_inner] in H; (destruct (mx_get mx id) as [d|] eqn:E; [|injection H as <-; destruct Hp]).
    - injection H as <-. destruct Hp as [<-|[]]. exists [id]. split; [reflexivity|]. exists id, dist, d. split; [constructor|auto].
    - assert (exists ks, pre ++ [id] = pre ++ ks /\ path_of links mx dist ks (dists_offset d dist)) as Leaf by (exists [id]; split; [reflexivity|]; exists id, dist, d; split; [constructor|auto]).
      destruct (nltb dist PLAN_DIST); [|injection H as <-; destruct Hp as [<-|[]]; exact Leaf].
      bok H l G. unfold get_link in G. destruct (sm_get links id) as [l'|] eqn:Gl; [|discriminate G]. injection G as ->. bok H rs Mh.
      assert (In p (concat (map snd rs)) \/ p = Path (pre ++ [id]) (dists_offset d dist) (key_eqb id dst)) as [Hs| ->]; [|clear Hp|exact Leaf].
      { destruct (existsb fst rs); injection H as <-; cbn [snd] in Hp; [auto|]. apply in_app_iff in Hp. destruct Hp as [|[<-|[]]]; auto. }
      apply in_concat in Hs. destruct Hs as (x & Hx & Hs). apply in_map_iff in Hx. destruct Hx as (r0 & <- & Hr). destruct (mapM_in _ _ _ _ Mh Hr) as (b & Hb & Eb).
      destruct (IH _ _ _ _ Eb _ Hs) as (ks & Ek & a & y & d1 & K1 & K2). exists (id :: ks). split; [rewrite Ek, <- app_assoc; reflexivity|]. exists a, y, d1. split; [econstructor; eauto|exact K2].
  Qed.
  Lemma make_path links pf pf' : make_paths links pf = Ok pf' -> forall p, In p (pf_paths pf') -> path_of links (pf_matrix pf) n0 (pt_links p) (pt_dists p).
  Proof.
    unfold make_paths. intros H. bok H r0 H0. bok H l G. bok H rs Mh. injection H as <-. cbn [pf_paths]. intros p Hp. apply in_app_iff in Hp. destruct Hp as [Hp|Hp].
    - destruct (inner_path _ _ _ _ _ _ _ _ H0 _ Hp) as (ks & -> & K). exact K.
    - apply in_concat in Hp. destruct Hp as (x & Hx & Hs). apply in_map_iff in Hx. destruct Hx as (r1 & <- & Hr). destruct (mapM_in _ _ _ _ Mh Hr) as (b & Hb & Eb).
      destruct (inner_path _ _ _ _ _ _ _ _ Eb _ Hs) as (ks & -> & K). exact K.
  Qed.

  (** ** Whole histories.  [T] holds for the destinations in question. *)
  Definition far (links : linkset) (T : key -> Prop) (ks : list key) (d : dists) : Prop :=
    exists t a x, T t /\ ahead links n0 ks a x /\ forall i, i < 4 -> exists y, gets links t i a y /\ entry d i = Z.min (y + tenths x) u32_max.
  Definition good (links : linkset) (T : key -> Prop) (pf : pathfind) : Prop :=
    ((forall a, mx_get (pf_matrix pf) a = None) \/ exists t, T t /\ reach_all links t (pf_matrix pf)) /\
    forall p, In p (pf_paths pf) -> far links T (pt_links p) (pt_dists p).
  Definition grows (links links' : linkset) : Prop :=
    (forall a b, succ_of links a b -> succ_of links' a b) /\ (forall a b, chg_of links a b -> chg_of links' a b) /\
    (forall k l, sm_get links k = Some l -> exists l', sm_get links' k = Some l' /\ lk_length l' = lk_length l).
  Lemma gets_grows links links' t i k x : grows links links' -> gets links t i k x -> gets links' t i k x.
  Proof.
    intros (G1 & G2 & G3). induction 1 as [i|i k l Gl|i k l o x Gl Ho H IH|i k o x Hc H IH]; [constructor| | |eapply gets_change; eauto].
    - destruct (G3 _ _ Gl) as (l' & Gl' & <-). eapply gets_end; eauto.
    - destruct (G3 _ _ Gl) as (l' & Gl' & <-). destruct (G1 k o) as (l2 & Gl2 & Ho2); [exists l; auto|]. rewrite Gl' in Gl2. injection Gl2 as <-. eapply gets_on; eauto.
  Qed.
  Lemma ahead_grows links links' d p k x : grows links links' -> ahead links d p k x -> ahead links' d p k x.
  Proof. intros (G1 & G2 & G3). induction 1 as [d k|d a l p k x Gl H IH]; [constructor|]. destruct (G3 _ _ Gl) as (l' & Gl' & E). econstructor; [exact Gl'|]. rewrite E. exact IH. Qed.
  Lemma good_grows links links' (T T' : key -> Prop) pf : grows links links' -> (forall t, T t -> T' t) -> good links T pf -> good links' T' pf.
  Proof.
    intros G HT (H1 & H2). split.
    - destruct H1 as [H1|(t & Ht & H1)]; [left; exact H1|right]. exists t. split; auto. intros a d Ga i Hi. eapply gets_grows; [exact G|]. apply (H1 _ _ Ga _ Hi).
    - intros p Hp. destruct (H2 _ Hp) as (t & a & x & Ht & Ha & K). exists t, a, x. split; auto. split; [eapply ahead_grows; eauto|]. intros i Hi. destruct (K i Hi) as (y & K1 & K2). exists y. split; auto. eapply gets_grows; eauto.
  Qed.
  Lemma same_grows links links' : same_net links links' -> grows links links'.
  Proof.
    intros S. split; [apply (same_net_le _ _ S)|]. split; [apply (same_net_le _ _ S)|]. intros k l G. destruct (same_net_get' _ _ _ _ S G) as (l1 & G1 & E). exists l1. split; auto.
    unfold lk_static in E. unfold lk_length. inversion E. congruence.
  Qed.
  Lemma exec_grows ops e s o s' : history sim_new ops s -> exec e s o = Ok s' -> grows (s_links s) (s_links s').
  Proof.
    intros Hh H. pose proof (history_Inv _ _ _ Hh Inv_new) as I. split; [intros; eapply exec_succ; eauto|]. split.
    - intros a b Hc. apply (chg_iff ops s (s_links s) Hh (same_net_refl _)) in Hc. destruct Hc as (V & ids & mask & Hin & St).
      assert (history s [o] s') as H1 by (econstructor; [exact H|constructor]).
      apply (chg_iff (ops ++ [o]) s' (s_links s') (history_app _ _ _ _ _ Hh H1) (same_net_refl _)). split; [eapply links_stay; eauto|].
      exists ids, mask. split; auto. apply in_app_iff. auto.
    - intros k l G. assert (sm_mem (s_links s) k = true) as M by (apply sm_mem_get; eauto). pose proof (links_stay _ _ _ _ _ I H M) as M'. apply sm_mem_get in M'. destruct M' as (l' & G').
      exists l'. split; auto. destruct (exec_built _ _ _ _ _ _ I H G') as [(l0 & G0 & E & _)|(c & lim & _ & -> & _)].
      + rewrite G in G0. injection G0 as <-. unfold geo in E. unfold lk_length. injection E. congruence.
      + exfalso. apply (next_key_not_issued _ (nk_wf _ (st_net _ _ _ (i_st _ I)))). eapply issued_mem; eauto.
  Qed.
  Lemma make_good links T pf pf' : make_paths links pf = Ok pf' -> (forall a, mx_get (pf_matrix pf) a = None) \/ (exists t, T t /\ reach_all links t (pf_matrix pf)) -> good links T pf'.
  Proof.
    intros H G. pose proof (make_path _ _ _ H) as K. apply make_paths_planned in H. destruct H as (_ & _ & Em & _). split; [rewrite Em; exact G|].
    intros p Hp. destruct (K _ Hp) as (a & x & d1 & Ha & Gm & E). destruct G as [G|(t & Ht & G)]; [rewrite G in Gm; discriminate Gm|].
    exists t, a, x. split; auto. split; auto. intros i Hi. exists (entry d1 i). split; [apply (G _ _ Gm _ Hi)|]. rewrite E. apply offset_at; exact Hi.
  Qed.
  Definition to_dst (pf : pathfind) (T : key -> Prop) : Prop := pf_dst pf = null_key \/ T (pf_dst pf).
  Lemma set_origin_good ops s e links (T : key -> Prop) pf id pf' : history sim_new ops s -> same_net (s_links s) links -> set_origin e links pf id = Ok pf' -> to_dst pf T ->
    good links T pf -> pf_dst pf' = pf_dst pf /\ good links T pf'.
  Proof.
    intros Hh S H D (G1 & G2). unfold set_origin in H. cbn [pf_matrix] in H. bok H pfa Ha.
    assert (pf_dst pfa = pf_dst pf /\ ((forall a, mx_get (pf_matrix pfa) a = None) \/ (exists t, T t /\ reach_all links t (pf_matrix pfa)))) as (E1 & E2).
    { destruct (mx_get (pf_matrix pf) id) as [d|] eqn:G; [injection Ha as <-; auto|].
      destruct D as [D|D].
      - unfold reroute in Ha. cbn [pf_src pf_dst pf_matrix pf_paths] in Ha. rewrite D, key_eqb_refl, orb_true_r in Ha. injection Ha as <-. cbn. auto.
      - destruct (reroute_reach ops s links Hh S _ _ _ Ha) as (_ & E & [Em|Em]); cbn [pf_dst pf_matrix] in *; (split; [exact E|]); [rewrite Em; exact G1|right; exists (pf_dst pf); auto]. }
    split; [|eapply make_good; eauto]. apply make_paths_planned in H. destruct H as (_ & H & _). congruence.
  Qed.
  Lemma pf_evo_good ops s (T : key -> Prop) pf pf' : history sim_new ops s -> pf_evo (s_links s) pf pf' -> to_dst pf T -> good (s_links s) T pf -> pf_dst pf' = pf_dst pf /\ good (s_links s) T pf'.
  Proof.
    intros Hh H. induction H as [pf pf' (e & links & id & S & V & H)|pf|pf pf1 pf2 H1 IH1 H2 IH2]; intros D G; auto.
    - destruct (set_origin_good ops s e links T pf id pf' Hh S H D) as (E1 & E2); [apply (good_grows (s_links s) links T T); [apply same_grows; exact S|auto|exact G]|]. split; [exact E1|].
      apply (good_grows links (s_links s) T T); [apply same_grows; apply same_net_sym; [exact S|]|auto|exact E2]. apply (hist_net ops s (s_links s) Hh (same_net_refl _)).
    - destruct (IH1 D G) as (E1 & G1). destruct IH2 as (E2 & G2); auto; [unfold to_dst; rewrite E1; exact D|]. split; auto. congruence.
  Qed.

  (** Every destination the vehicle was ever given. *)
  Definition sent (ops : list op) (k t : key) : Prop := In (OSetDestination k t) ops.
  Lemma history_good ops s : history sim_new ops s -> forall k v, sm_get (s_vehicles s) k = Some v -> to_dst (v_pathfind v) (sent ops k) /\ good (s_links s) (sent ops k) (v_pathfind v).
  Proof.
    intros Hh. apply (history_ind_from (fun ops s => forall k v, sm_get (s_vehicles s) k = Some v -> to_dst (v_pathfind v) (sent ops k) /\ good (s_links s) (sent ops k) (v_pathfind v))) with (ops1 := []) (s0 := sim_new); [|constructor|exact Hh|].
    - clear Hh. intros ops0 e s0 o s' Hist H IH k v' G. pose proof (history_Inv _ _ _ Hist Inv_new) as I.
      assert (forall t, sent ops0 k t -> sent (ops0 ++ [o]) k t) as HT by (intros t Ht; apply in_app_iff; auto).
      pose proof (exec_grows _ _ _ _ _ Hist H) as Gr.
      destruct (exec_pf _ _ _ _ _ _ I H G) as [(v & Gv & E)|[(v & d' & -> & Gv & E)|(a & l & -> & _ & E)]].
      + destruct (IH _ _ Gv) as (D & Gd). destruct (pf_evo_good _ _ _ _ _ Hist E D Gd) as (E1 & E2). split; [|eapply good_grows; eauto]. unfold to_dst in *. rewrite E1. destruct D; auto.
      + destruct (IH _ _ Gv) as (D & (Gd & _)). unfold pf_set_destination in E. bok E pfa Ea. destruct (reroute_reach _ _ _ Hist (same_net_refl _) _ _ _ Ea) as (_ & E1 & E2). cbn [pf_dst pf_matrix] in E1, E2.
        assert (sent (ops0 ++ [OSetDestination k d']) k d') as Sd by (apply in_app_iff; right; left; auto). split.
        * apply make_paths_planned in E. destruct E as (_ & E & _). right. rewrite E, E1. exact Sd.
        * eapply good_grows; [exact Gr|intros t Ht; exact Ht|]. eapply make_good; [exact E|]. destruct E2 as [->|E2]; [|right; exists d'; auto]. destruct Gd as [Gd|(t & Ht & Gd)]; [left; exact Gd|right; exists t; auto].
      + assert (good (s_links s0) (sent (ops0 ++ [OAddVehicle a l]) k) pf_default) as G0 by (split; [left; reflexivity|intros p []]).
        destruct (pf_evo_good _ _ _ _ _ Hist (rt_step _ _ _ _ E) (or_introl eq_refl) G0) as (E1 & E2). split; [left; rewrite E1; reflexivity|]. eapply good_grows; [exact Gr|intros t Ht; exact Ht|exact E2].
    - intros k v G. simpl in G. rewrite sm_get_empty in G. discriminate G.
  Qed.

  (** Only the destination given last, if it could be reached. *)
  Definition bound_to (s : sim) (k d : key) : Prop :=
    sm_issued (s_vehicles s) k /\ forall v, sm_get (s_vehicles s) k = Some v -> pf_dst (v_pathfind v) = d /\ good (s_links s) (eq d) (v_pathfind v).
  Lemma history_to ops1 s0 ops2 s k d : history sim_new ops1 s0 -> history s0 ops2 s -> (forall o, In o ops2 -> redirects k o = false) -> bound_to s0 k d -> bound_to s k d.
  Proof.
    intros H1 H2. revert ops1 H1. induction H2 as [|e s o s1 ops s' H Hh IH]; intros ops1 H1 Hr B; [auto|].
    apply (IH (ops1 ++ [o])); [eapply history_app; [exact H1|econstructor; [exact H|constructor]]|intros; apply Hr; right; auto|]. clear IH. pose proof (history_Inv _ _ _ H1 Inv_new) as I. destruct B as (Is & B).
    specialize (Hr o (or_introl eq_refl)). split; [eapply history_issued; [econstructor; [exact H|constructor]|exact I|exact Is]|].
    intros v' G. destruct (exec_pf _ _ _ _ _ _ I H G) as [(v & Gv & E)|[(v & d' & -> & _)|(a & l & -> & -> & _)]].
    - destruct (B _ Gv) as (Bd & Bq). destruct (pf_evo_good _ _ (eq d) _ _ H1 E) as (E1 & E2); [right; auto|exact Bq|]. split; [congruence|].
      eapply good_grows; [eapply exec_grows; eauto|intros t Ht; exact Ht|exact E2].
    - cbn [redirects] in Hr. rewrite key_eqb_refl in Hr. discriminate Hr.
    - exfalso. revert Is. apply next_key_not_issued. apply I.
  Qed.
End Dist.

(** ** C68.  All entries of a vehicle's routing table belong to one destination that the vehicle was given.  Entry [i] of a link is a
    distance one can get from the start of this link with at most [i] lane changes. *)
Theorem C68_table :
  forall (A : Arith) ops s k v, @cast_in_range A -> history sim_new ops s -> vehicle_at s k = Some v ->
    (forall a, ~ routed v a) \/
    exists t, In (OSetDestination k t) ops /\
      forall a d, mx_get (pf_matrix (v_pathfind v)) a = Some d -> forall i, i < 4 -> gets (s_links s) t i a (entry d i).
Proof.
  intros A ops s k v Cast Hh G. destruct (history_good Cast _ _ Hh _ _ G) as (_ & [H|(t & Ht & H)] & _); [left; intros a Ha; apply Ha; apply H|right].
  exists t. split; [exact Ht|]. intros a d Ga. exact (H _ _ Ga).
Qed.
Print Assumptions C68_table.

(** The lane distances of a candidate path: the length of its links but the last, and then what one can get from there. *)
Theorem C68_paths :
  forall (A : Arith) ops s k v p, @cast_in_range A -> history sim_new ops s -> vehicle_at s k = Some v -> In p (pf_paths (v_pathfind v)) ->
    exists t a x, In (OSetDestination k t) ops /\ ahead (s_links s) n0 (pt_links p) a x /\
      forall i, i < 4 -> exists y, gets (s_links s) t i a y /\ entry (pt_dists p) i = Z.min (y + tenths x) u32_max.
Proof. intros A ops s k v p Cast Hh G Hp. destruct (history_good Cast _ _ Hh _ _ G) as (_ & _ & H). exact (H _ Hp). Qed.
Print Assumptions C68_paths.

(** After a call of [set_vehicle_destination] with a destination that can be reached, and until the next one, this is the destination. *)
Theorem C68_destination :
  forall (A : Arith) ops1 e s0 k d s1 ops2 s v0 a0 v, @cast_in_range A -> history sim_new ops1 s0 -> groups_apart ops1 ->
    exec e s0 (OSetDestination k d) = Ok s1 -> vehicle_at s0 k = Some v0 -> v_link v0 = Some a0 -> leads (s_links s0) a0 d ->
    history s1 ops2 s -> (forall o, In o ops2 -> redirects k o = false) -> vehicle_at s k = Some v ->
    (forall a d1, mx_get (pf_matrix (v_pathfind v)) a = Some d1 -> forall i, i < 4 -> gets (s_links s) d i a (entry d1 i)) /\
    forall p, In p (pf_paths (v_pathfind v)) -> exists a x, ahead (s_links s) n0 (pt_links p) a x /\
      forall i, i < 4 -> exists y, gets (s_links s) d i a y /\ entry (pt_dists p) i = Z.min (y + tenths x) u32_max.
Proof.
  intros A ops1 e s0 k d s1 ops2 s v0 a0 v Cast H0 Ap H1 G0 L0 Ld H2 Hr G. pose proof (history_Inv _ _ _ H0 Inv_new) as I.
  destruct (vbase_link _ _ _ _ (st_veh _ _ _ (i_st _ I) _ _ G0)) as (x0 & Hx & V & E0). rewrite L0 in Hx. injection Hx as <-.
  assert (history sim_new (ops1 ++ [OSetDestination k d]) s1) as H01 by (eapply history_app; [exact H0|econstructor; [exact H1|constructor]]).
  assert (bound_to s1 k d) as B.
  { split; [apply (exec_issued _ _ _ _ _ I H1), (issued_mem _ _ _ G0)|].
    intros v1 G1. unfold vehicle_at in G0. pose proof (exec_grows _ _ _ _ _ H0 H1) as Gr. cbn [exec] in H1. unfold set_vehicle_destination in H1. bok H1 va Hva. bok H1 vb Hvb. injection H1 as <-.
    unfold get_vehicle in Hva. rewrite G0 in Hva. injection Hva as <-. cbn [s_vehicles with_vehicles] in G1. rewrite sm_get_set, key_eqb_refl in G1.
    replace (sm_mem (s_vehicles s0) k) with true in G1 by (symmetry; apply sm_mem_get; eauto). injection G1 as <-.
    unfold set_destination in Hvb. bok Hvb pfb Hpb. injection Hvb as <-. cbn [set_can_exit set_pathfind v_pathfind].
    unfold pf_set_destination in Hpb. bok Hpb pfa Ha. assert (pf_dst pfa = d /\ reach_all (s_links s0) d (pf_matrix pfa)) as (E1 & E2) by (apply (reroute_anew Cast ops1 s0 (s_links s0) H0 (same_net_refl _) Ap e _ pfa) in Ha; cbn [pf_src pf_dst] in *; auto; rewrite <- E0; auto).
    split; [apply make_paths_planned in Hpb; destruct Hpb as (_ & Hpb & _); congruence|].
    eapply good_grows; [exact Gr|intros t Ht; exact Ht|]. eapply make_good; [exact Hpb|]. right. exists d. auto. }
  destruct (history_to Cast _ _ _ _ _ _ H01 H2 Hr B) as (_ & K). destruct (K _ G) as (_ & K1 & K2). split.
  - intros a d1 Ga. destruct K1 as [K1|(t & <- & K1)]; [rewrite K1 in Ga; discriminate Ga|]. exact (K1 _ _ Ga).
  - intros p Hp. destruct (K2 _ Hp) as (t & a & x & <- & K3). exists a, x. exact K3.
Qed.
Print Assumptions C68_destination.

(** A car on the second of two lanes; its destination follows the first.  Without a lane change it gets 20 m, with one as far as it likes. *)
Definition dists_is (d : option dists) (a b c e : Z) : bool :=
  match d with Some d => Z.eqb (d0 d) a && Z.eqb (d1 d) b && Z.eqb (d2 d) c && Z.eqb (d3 d) e | None => false end.
Lemma ex_dist_ok :
  okb (run ex_env sim_new ex_before) (fun s0 => has_change s0 lane2 lane1 && has_out s0 lane1 exit1 && route_is s0 car1 [lane2] &&
  okb (exec ex_env s0 (OSetDestination car1 exit1)) (fun s1 =>
  okb (run ex_env s1 (ex_steps 2)) (fun s2 => match sm_get (s_vehicles s2) car1 with
    | Some v => dists_is (mx_get (pf_matrix (v_pathfind v)) lane2) 200 u32_max u32_max u32_max && Nat.ltb 1 (length (pf_paths (v_pathfind v)))
    | None => false end))) = true.
Proof. vm_compute. reflexivity. Qed.
Example C68_example : exists s0 v0 s1 s2 v2 d,
  history (@sim_new F64) ex_before s0 /\ groups_apart ex_before /\ exec ex_env s0 (OSetDestination car1 exit1) = Ok s1 /\
  vehicle_at s0 car1 = Some v0 /\ v_link v0 = Some lane2 /\ leads (s_links s0) lane2 exit1 /\
  history s1 (ex_steps 2) s2 /\ (forall o, In o (ex_steps 2) -> redirects car1 o = false) /\ vehicle_at s2 car1 = Some v2 /\
  mx_get (pf_matrix (v_pathfind v2)) lane2 = Some d /\ entry d 0 = 200%Z /\ entry d 1 = u32_max /\ 1 < length (pf_paths (v_pathfind v2)).
Proof.
  destruct (okb_ok _ _ ex_dist_ok) as (s0 & H0 & H). bsplit H. destruct (okb_ok _ _ B) as (s1 & H1 & Hb). destruct (okb_ok _ _ Hb) as (s2 & H2 & Hc).
  destruct (sm_get (s_vehicles s2) car1) as [v2|] eqn:G2; [|discriminate Hc]. apply andb_prop in Hc. destruct Hc as (Hc & Hl).
  destruct (mx_get (pf_matrix (v_pathfind v2)) lane2) as [d|] eqn:Gd; [|discriminate Hc]. unfold dists_is in Hc. bsplit Hc.
  destruct (route_is_ok _ _ _ B0) as (v0 & G0 & R0).
  exists s0, v0, s1, s2, v2, d. split; [eapply run_history; exact H0|]. split; [exact ex_apart|]. split; [exact H1|]. split; [exact G0|]. split; [unfold v_link; rewrite R0; reflexivity|]. split.
  { eapply rt_trans; apply rt_step; [right; apply has_change_ok; eassumption|left; apply has_out_ok; eassumption]. }
  split; [eapply run_history; exact H2|]. split; [intros o Ho; apply repeat_spec in Ho; subst o; reflexivity|]. split; [exact G2|]. split; [exact Gd|].
  split; [apply Z.eqb_eq; assumption|]. split; [apply Z.eqb_eq; assumption|]. apply Nat.ltb_lt. exact Hl.
Qed.
