(** * C51: the vehicles of a link are listed in order *)
From Coq Require Import List Bool ZArith NArith Arith Lia Reals Lra.
From Verif Require Import Arith F64 RealArith Base BaseProofs SlotMap Util Geom Light Accel Net Path Vehicle LinkOps Sim SpecLight SpecSim SlotMapProofs Safe NetInv SimInv AccSafe SimSafe StepSafe OpSafe Evo StepEvo SimProofs SimExample StepProofs Ord SpecMotion RFacts NetEvo P_Motion.
Import ListNotations.

(** ** Specification *)
Section SpecOrder.
  Context {A : Arith}.
  (** No vehicle of the list is further along than one that comes later in the list. *)
  Definition ordered (s : sim) (ks : list key) : Prop :=
    ForallOrdPairs (fun a b => forall v w, vehicle_at s a = Some v -> vehicle_at s b = Some w -> nltb (v_pos w) (v_pos v) = false) ks.
  Definition all_ordered (s : sim) : Prop := forall x l, link_at s x = Some l -> ordered s (lk_vehicles l).
  (** The vehicles of link [x] in [s'] that were on [x] in [s] already. *)
  Definition stayed (s s' : sim) (x : key) (l' : link) : list key :=
    filter (fun k => match vehicle_at s k with Some v => match v_link v with Some y => key_eqb y x | None => false end | None => false end) (lk_vehicles l').
End SpecOrder.

Section Order.
  Context {A : Arith}.
  Variable O : OrdLaws A.

  Definition posf (vs : vehset) (k : key) : option num := option_map v_pos (sm_get vs k).
  Definition ord (f : key -> option num) : list key -> Prop := ForallOrdPairs (fun a b => forall x y, f a = Some x -> f b = Some y -> nltb y x = false).
  Lemma ordered_ord s ks : ordered s ks <-> ord (posf (s_vehicles s)) ks.
  Proof.
    unfold ordered, ord, posf, vehicle_at. split; intros H; induction H as [|a l F _ IH]; constructor; auto; (eapply Forall_impl; [|exact F]); intros b Hb; cbn beta in *.
    - intros x y Ha Hc. destruct (sm_get _ a) as [v|]; [|discriminate Ha]. destruct (sm_get _ b) as [w|]; [|discriminate Hc]. injection Ha as <-. injection Hc as <-. auto.
    - intros v w Ga Gb. apply Hb; [rewrite Ga|rewrite Gb]; reflexivity.
  Qed.

  Inductive subseq : list key -> list key -> Prop :=
  | sub_nil : subseq [] []
  | sub_skip k l m : subseq l m -> subseq l (k :: m)
  | sub_keep k l m : subseq l m -> subseq (k :: l) (k :: m).
  Lemma subseq_refl l : subseq l l. Proof. induction l; [apply sub_nil|apply sub_keep; auto]. Qed.
  Lemma subseq_nil l : subseq [] l. Proof. induction l; [apply sub_nil|apply sub_skip; auto]. Qed.
  Lemma subseq_in l m k : subseq l m -> In k l -> In k m.
  Proof. intros H. induction H; intros Hi; [auto|right; auto|destruct Hi as [->|Hi]; [left; auto|right; auto]]. Qed.
  Lemma subseq_trans l m n : subseq l m -> subseq m n -> subseq l n.
  Proof.
    intros H1 H2. revert l H1. induction H2 as [|k l' m' H IH|k l' m' H IH]; intros l H1; [auto|apply sub_skip; auto|].
    inversion H1; subst; [apply sub_skip; auto|apply sub_keep; auto].
  Qed.
  Lemma subseq_remove i l : subseq (remove_at i l) l.
  Proof.
    unfold remove_at. revert i. induction l as [|k l IH]; intros [|i]; cbn; [apply sub_nil|apply sub_nil|apply sub_skip, subseq_refl|apply sub_keep; apply IH].
  Qed.
  Lemma remove_vehicle_sub k l : subseq (lk_vehicles (remove_vehicle k l)) (lk_vehicles l).
  Proof. unfold remove_vehicle. destruct (rposition _ _); [apply subseq_remove|apply subseq_refl]. Qed.
  Lemma ord_sub f l m : subseq l m -> ord f m -> ord f l.
  Proof.
    intros H. induction H as [|k l m H IH|k l m H IH]; intros F; [exact F|inversion F; auto|]. inversion F as [|? ? Fk F']; subst. constructor; [|apply IH; auto].
    rewrite Forall_forall in *. intros b Hb. apply Fk. eapply subseq_in; eauto.
  Qed.
  Lemma ord_ext f f' l : (forall k y, In k l -> f' k = Some y -> f k = Some y) -> ord f l -> ord f' l.
  Proof.
    intros E F. induction F as [|k l Fk F IH]; constructor; [|apply IH; intros; apply E; [right|]; auto].
    rewrite Forall_forall in *. intros b Hb x y Hx Hy. apply (Fk b Hb); apply E; auto; [left|right]; auto.
  Qed.

  Lemma insert_idx_ord vs p k l i : posf vs k = Some p -> insert_idx vs p l = Ok i -> ord (posf vs) l -> ord (posf vs) (insert_at i k l).
  Proof.
    intros Hk. unfold insert_at. revert i. induction l as [|a l IH]; intros i H F; cbn [insert_idx] in H.
    { injection H as <-. cbn. constructor; constructor. }
    bok H v Hv. unfold get_vehicle in Hv. apply of_option_ok in Hv. destruct (nltb p (v_pos v)) eqn:L.
    - injection H as <-. cbn [firstn skipn app]. constructor; [|exact F]. inversion F as [|? ? Fa F']; subst. constructor.
      + intros x y Hx Hy. rewrite Hk in Hx. injection Hx as <-. unfold posf in Hy. rewrite Hv in Hy. injection Hy as <-. apply (lt_iff O) in L. apply (lt_false O). right. right. lra.
      + rewrite Forall_forall in *. intros b Hb x y Hx Hy. rewrite Hk in Hx. injection Hx as <-.
        assert (nltb y (v_pos v) = false) as Q by (apply (Fa b Hb); [unfold posf; rewrite Hv; reflexivity|exact Hy]).
        apply (lt_iff O) in L. destruct L as (N1 & N2 & L). apply (lt_false O) in Q. apply (lt_false O). destruct Q as [Q|[Q|Q]]; [left; exact Q|congruence|right; right; lra].
    - bok H j Hj. injection H as <-. cbn [firstn skipn app]. inversion F as [|? ? Fa F']; subst. constructor; [|apply IH; auto].
      rewrite Forall_forall in *. intros b Hb. apply (in_insert_at j k b l) in Hb. destruct Hb as [->|Hb]; [|apply Fa; exact Hb].
      intros x y Hx Hy. rewrite Hk in Hy. injection Hy as <-. unfold posf in Hx. rewrite Hv in Hx. injection Hx as <-. exact L.
  Qed.
  Lemma insert_ord vs k l l' : insert_vehicle vs k l = Ok l' -> ord (posf vs) (lk_vehicles l) -> ord (posf vs) (lk_vehicles l').
  Proof.
    unfold insert_vehicle. intros H F. bok H v Hv. bok H i Hi. injection H as <-. cbn [lk_vehicles set_vehicles]. unfold get_vehicle in Hv. apply of_option_ok in Hv.
    eapply insert_idx_ord; [unfold posf; rewrite Hv; reflexivity|exact Hi|exact F].
  Qed.

  Definition all_ord (links : linkset) (vs : vehset) : Prop := forall x l, sm_get links x = Some l -> ord (posf vs) (lk_vehicles l).
  Lemma all_ordered_ord s : all_ordered s <-> all_ord (s_links s) (s_vehicles s).
  Proof. unfold all_ordered, all_ord, link_at. split; intros H x l G; apply ordered_ord; eauto. Qed.

  (** Calls that place no vehicle only remove vehicles from the lists. *)
  Lemma exec_sub e s o s' k l' : Inv s -> exec e s o = Ok s' -> is_step o = false -> sm_get (s_links s') k = Some l' ->
    match o with OAddVehicle _ _ | OLaneChange _ _ _ => True | _ =>
      (exists l, sm_get (s_links s) k = Some l /\ subseq (lk_vehicles l') (lk_vehicles l)) \/ lk_vehicles l' = [] end.
  Proof.
    intros I H Hs G.
    assert (forall l, sm_get (s_links s) k = Some l -> lk_vehicles l' = lk_vehicles l -> (exists l, sm_get (s_links s) k = Some l /\ subseq (lk_vehicles l') (lk_vehicles l)) \/ lk_vehicles l' = []) as K.
    { intros l G0 E. left. exists l. split; [exact G0|]. rewrite E. apply subseq_refl. }
    assert (s_links s' = s_links s -> (exists l, sm_get (s_links s) k = Some l /\ subseq (lk_vehicles l') (lk_vehicles l)) \/ lk_vehicles l' = []) as Z by (intros E; rewrite E in G; eauto).
    destruct o; simpl in H; try exact Logic.I; try discriminate Hs.
    - bok H x Hx. unfold add_link in Hx. bok Hx l Hl. injection Hx as <-. injection H as <-. simpl in G.
      rewrite sm_get_insert in G by apply (st_net _ _ _ (i_st _ I)). destruct (key_eqb_spec (sm_next_key (s_links s)) k) as [<-|N]; [|eauto].
      right. injection G as <-. unfold link_new in Hl. bok Hl c' Hc. injection Hl as <-. reflexivity.
    - unfold add_link_group in H. bok H x1 Hx1. bok H x2 Hx2. bok H x3 Hx3. bok H x4 Hx4. bok H x5 Hx5. injection H as <-. simpl in G.
      assert (forall y l l1, (fun (ft : key * key) l => add_lane_change l (snd ft)) y l = Ok l1 -> lk_vehicles l1 = lk_vehicles l) as A1.
      { intros y l l1 E. unfold add_lane_change in E. destruct (Nat.ltb _ _); [|discriminate E]. injection E as <-. reflexivity. }
      destruct (fold_keeps lk_vehicles fst (fun ft l => add_lane_change l (snd ft)) _ _ _ _ _ Hx5 A1 G) as (l1 & G1 & E1).
      destruct (fold_keeps lk_vehicles (fun x => x) (fun _ l => Ok (set_group l x2)) _ _ _ _ _ Hx3 ltac:(intros ? ? ? E; injection E as <-; reflexivity) G1) as (l2 & G2 & E2).
      apply (K l2 G2). congruence.
    - unfold add_link_convergance in H. destruct (key_eqb _ _); [injection H as <-; auto|].
      destruct (sm_get _ a); [|injection H as <-; auto]. destruct (sm_get _ b); [|injection H as <-; auto].
      bok H x Hx. destruct x; [|injection H as <-; auto]. bok H y Hy. injection H as <-. cbn [s_links] in G.
      destruct (fold_keeps lk_vehicles fst (fun kc l => Ok (add_conflict l (snd kc))) _ _ _ _ _ Hy ltac:(intros ? ? ? E; injection E as <-; reflexivity) G) as (lz & G0 & E). apply (K lz G0 E).
    - unfold add_link_connection in H. bok H x Hx. bok H y Hy. injection H as <-. simpl in G.
      destruct (upd_keeps lk_vehicles _ _ _ _ _ _ Hy ltac:(intros ? ? E; injection E as <-; reflexivity) G) as (l1 & G1 & E1).
      destruct (upd_keeps lk_vehicles _ _ _ _ _ _ Hx ltac:(intros ? ? E; injection E as <-; reflexivity) G1) as (l2 & G2 & E2). apply (K l2 G2). congruence.
    - bok H x Hx. injection H as <-. auto.
    - unfold sim_remove_vehicle in H. destruct (sm_get _ v) as [v0|]; [|injection H as <-; auto]. simpl in H.
      destruct (v_link v0); [|injection H as <-; auto]. bok H x Hx. injection H as <-. simpl in G.
      destruct (upd_get _ _ _ _ _ _ Hx G) as [(-> & l & G0 & E)|(N & G0)]; [|eauto]. injection E as <-. left. exists l. split; [exact G0|apply remove_vehicle_sub].
    - unfold randomise_velocity_adjusts in H. bok H x Hx. injection H as <-. auto.
    - injection H as <-. apply Z. unfold set_vehicle_frozen. destruct frozen, (position _ _); auto.
    - unfold set_vehicle_destination in H. bok H x Hx. bok H y Hy. injection H as <-. auto.
    - unfold set_link_control in H. bok H x Hx. injection H as <-. simpl in G.
      destruct (upd_keeps lk_vehicles _ _ _ _ _ _ Hx ltac:(intros ? ? E; injection E as <-; reflexivity) G) as (l1 & G1 & E1). apply (K l1 G1 E1).
  Qed.

  Lemma in_list_on links vs seq x l k : St links vs seq -> sm_get links x = Some l -> In k (lk_vehicles l) -> exists v, sm_get vs k = Some v /\ v_link v = Some x.
  Proof.
    intros I G Hin. destruct (st_occ _ _ _ I _ _ G) as (_ & Oc). apply Oc in Hin. unfold at_of in Hin. destruct (sm_get vs k) as [v|]; [eauto|discriminate Hin].
  Qed.
  Lemma lane_change_ordered e s v lid dist s' : St (s_links s) (s_vehicles s) (s_seq s) -> do_lane_change e s v lid dist = Ok s' ->
    all_ord (s_links s) (s_vehicles s) -> all_ord (s_links s') (s_vehicles s').
  Proof.
    intros I H F x l' G.
    unfold do_lane_change in H. bok H x0 Hx0. bok H x1 Hx1. bok H x2 Hx2. bok H x3 Hx3. bok H x4 Hx4. destruct x4 as [[pos off] sl].
    bok H x5 Hx5. bok H x6 Hx6. injection H as <-. simpl in *. unfold get_vehicle in Hx0. apply of_option_ok in Hx0.
    destruct (vbase_link _ _ _ _ (st_veh _ _ _ I _ _ Hx0)) as (cur & Hc & _). rewrite Hc in Hx1.
    assert (forall y l0, sm_get x1 y = Some l0 -> ord (posf (sm_set (s_vehicles s) v x5)) (lk_vehicles l0)) as K0.
    { intros y l0 G0.
      assert (~ In v (lk_vehicles l0) /\ ord (posf (s_vehicles s)) (lk_vehicles l0)) as (Nv & F0).
      { destruct (upd_get _ _ _ _ _ _ Hx1 G0) as [(-> & l1 & G1 & E)|(N & G1)].
        - injection E as <-. split; [|eapply ord_sub; [apply remove_vehicle_sub|eauto]].
          destruct (st_occ _ _ _ I _ _ G1) as (Nd & _). rewrite (proj2 (remove_vehicle_spec v l1 Nd)). tauto.
        - split; [|eauto]. intros Hin. destruct (in_list_on _ _ _ _ _ _ I G1 Hin) as (w & Gw & Lw). congruence. }
      eapply ord_ext; [|exact F0]. intros k p Hin. unfold posf. rewrite sm_get_set. destruct (key_eqb_spec v k) as [E|_]; [subst; contradiction|]. cbn [andb]. auto. }
    destruct (upd_get _ _ _ _ _ _ Hx6 G) as [(-> & l1 & G0 & E)|(N & G0)]; [eapply insert_ord; eauto|eauto].
  Qed.

  Lemma exec_ordered e s o s' : Inv s -> exec e s o = Ok s' -> is_step o = false -> all_ord (s_links s) (s_vehicles s) -> all_ord (s_links s') (s_vehicles s').
  Proof.
    intros I H Hs F x l' G.
    assert ((forall a lid, o <> OAddVehicle a lid) -> (forall a b c, o <> OLaneChange a b c) -> forall k y, posf (s_vehicles s') k = Some y -> posf (s_vehicles s) k = Some y) as Kp.
    { intros N1 N2 k y Hy. unfold posf in *. destruct (sm_get (s_vehicles s') k) as [v'|] eqn:G'; [|discriminate Hy].
      destruct (exec_vehicle _ _ _ _ _ _ I H Hs G') as [(v & Gv & _ & _ & _ & _ & [(_ & E & _)|(lid & d & E & _)])|(a & lid & E & _)]; [|exfalso; eapply N2; eauto|exfalso; eapply N1; eauto].
      rewrite Gv. cbn [option_map] in *. congruence. }
    pose proof (exec_sub _ _ _ _ _ _ I H Hs G) as Sb.
    assert ((exists l, sm_get (s_links s) x = Some l /\ subseq (lk_vehicles l') (lk_vehicles l)) \/ lk_vehicles l' = [] -> (forall a lid, o <> OAddVehicle a lid) -> (forall a b c, o <> OLaneChange a b c) -> ord (posf (s_vehicles s')) (lk_vehicles l')) as K.
    { intros [(l & G0 & Sq)|E] N1 N2; [|rewrite E; constructor]. eapply ord_ext; [intros k y _; exact (Kp N1 N2 k y)|]. eapply ord_sub; [exact Sq|]. exact (F _ _ G0). }
    destruct o; try (apply K; [exact Sb|discriminate|discriminate]); clear K Kp Sb; cbn [exec] in H.
    - bok H r Hr. destruct r as [s1 k1]. injection H as <-. unfold add_vehicle in Hr. bok Hr v0 Hv0. bok Hr v Hv. bok Hr links Hl. injection Hr as <- <-. simpl in *.
      assert (forall y l0, sm_get (s_links s) y = Some l0 -> ord (posf (sm_insert (s_vehicles s) v)) (lk_vehicles l0)) as K0.
      { intros y l0 G0. eapply ord_ext; [|exact (F _ _ G0)]. intros k p Hin. destruct (in_list_on _ _ _ _ _ _ (i_st _ I) G0 Hin) as (w & Gw & _).
        unfold posf. rewrite sm_get_insert by apply (st_wf _ _ _ (i_st _ I)). destruct (key_eqb_spec (sm_next_key (s_vehicles s)) k) as [E|_]; auto.
        rewrite <- E, next_key_fresh in Gw by apply (st_wf _ _ _ (i_st _ I)). discriminate Gw. }
      destruct (upd_get _ _ _ _ _ _ Hl G) as [(-> & l & G0 & E)|(N & G0)]; [eapply insert_ord; eauto|eauto].
    - eapply lane_change_ordered; [apply (i_st _ I)|exact H|exact F|exact G].
  Qed.
  (** ** Lane changes during a step *)
  Lemma set_path_pos v p : v_pos (set_path v p) = v_pos v. Proof. reflexivity. Qed.
  Lemma exec_change_ordered e s vp s' : St (s_links s) (s_vehicles s) (s_seq s) -> exec_change e s vp = Ok s' ->
    all_ord (s_links s) (s_vehicles s) -> all_ord (s_links s') (s_vehicles s').
  Proof.
    intros I H F. unfold exec_change in H. bok H lid Hl. bok H s1 H1. bok H v Hv. injection H as <-. cbn [s_links s_vehicles with_vehicles].
    pose proof (lane_change_ordered _ _ _ _ _ _ I H1 F) as F1. intros x l G. eapply ord_ext; [|exact (F1 _ _ G)].
    intros k y _. unfold posf. rewrite sm_get_set. unfold get_vehicle in Hv. apply of_option_ok in Hv.
    destruct (key_eqb_spec (fst vp) k) as [<-|_]; cbn [andb]; [|auto].
    destruct (sm_mem (s_vehicles s1) (fst vp)); [|auto]. rewrite Hv. cbn. auto.
  Qed.
  Lemma lane_changes_ordered e s s' : St (s_links s) (s_vehicles s) (s_seq s) -> flags0 (s_vehicles s) -> calculate_lane_changes e s = Ok s' ->
    all_ord (s_links s) (s_vehicles s) -> all_ord (s_links s') (s_vehicles s').
  Proof.
    intros I F0 H F. unfold calculate_lane_changes in H. destruct (nltb _ _); [injection H as <-; exact F|].
    bok H r Hr. destruct r as [acc vs]. cbn [fst snd] in H.
    set (T := fun _ : panic => True).
    destruct (safe_ok T _ _ _ (choose_all_safe T _ _ _ I F0 (fun _ _ _ => Logic.I)) Hr) as (St1 & F1 & Sh & Ch). cbn [fst snd] in *.
    destruct (choose_all_evo _ _ _ _ _ I Hr) as (K1 & _ & _).
    assert (all_ord (s_links s) vs) as A1.
    { intros x l G. eapply ord_ext; [|exact (F _ _ G)]. intros k y _. unfold posf. destruct (sm_get vs k) as [v'|] eqn:G'; [|discriminate].
      destruct (K1 _ _ G') as (v & Gv & _ & ((_ & Ep & _) & _) & _). rewrite Gv. cbn. congruence. }
    set (s1 := with_vehicles (with_lc_update s n0) vs) in *.
    assert (safe T (foldM (exec_change e) acc s1) (fun s' => all_ord (s_links s') (s_vehicles s'))) as K.
    { eapply safe_weaken; [apply (safe_foldM_rest T (fun rest s' =>
        St (s_links s') (s_vehicles s') (s_seq s') /\ flags0 (s_vehicles s') /\ same_net (s_links s) (s_links s') /\ same_shape vs (s_vehicles s') /\
        Forall (change_ok (s_links s) vs) rest /\ all_ord (s_links s') (s_vehicles s')))|].
      - intros s2 vp rest (St' & F' & S' & Sh' & Fr & Ao). inversion Fr as [|? ? C1 C2]; subst.
        eapply safe_weaken; [apply exec_change_safe; auto; try (intros; exact Logic.I)|].
        + destruct C1 as (Hm & first & Pf & cur & Hcg). split; [rewrite <- (shape_mem _ _ _ Sh'); auto|]. exists first.
          split; [eapply path_from_same; eauto|]. exists cur. apply (nl_chg _ _ (same_net_le _ _ S')). exact Hcg.
        + intros s3 E3 (St2 & F2 & S2 & Es2 & Sh2). split; [exact St2|]. split; [exact F2|]. split; [eapply same_net_trans; eauto|].
          split; [eapply shape_trans; eauto|]. split; [exact C2|]. eapply exec_change_ordered; [exact St'|exact E3|exact Ao].
      - split; [exact St1|]. split; [exact F1|]. split; [apply same_net_refl|]. split; [apply shape_refl|]. split; [exact Ch|exact A1].
      - intros s2 _ (_ & _ & _ & _ & _ & Q). exact Q. }
    exact (safe_ok T _ _ _ K H).
  Qed.

  (** ** Moving on to the next link *)
  Lemma insert_sub vs k l l' : insert_vehicle vs k l = Ok l' -> subseq (lk_vehicles l) (lk_vehicles l').
  Proof.
    unfold insert_vehicle. intros H. bok H v Hv. bok H i Hi. injection H as <-. cbn [lk_vehicles set_vehicles]. unfold insert_at. clear Hi.
    generalize (lk_vehicles l) as m. revert i. induction i as [|i IH]; intros m; [cbn; apply sub_skip, subseq_refl|].
    destruct m as [|a m]; cbn; [apply sub_skip, sub_nil|apply sub_keep, IH].
  Qed.
  Lemma inserts_ordered vs adv links links' : foldM (fun links vl => upd_link links (snd vl) (insert_vehicle vs (fst vl))) adv links = Ok links' ->
    forall x l', sm_get links' x = Some l' -> exists l, sm_get links x = Some l /\ subseq (lk_vehicles l) (lk_vehicles l') /\
      (ord (posf vs) (lk_vehicles l) -> ord (posf vs) (lk_vehicles l')).
  Proof.
    revert links. induction adv as [|vl adv IH]; intros links H x l' G; cbn [foldM] in H; [injection H as <-; exists l'; split; [exact G|]; split; [apply subseq_refl|auto]|].
    bok H ls Hls. destruct (IH _ H _ _ G) as (l1 & G1 & S1 & O1).
    destruct (upd_get _ _ _ _ _ _ Hls G1) as [(-> & l & G0 & E)|(N & G0)].
    - exists l. split; [exact G0|]. split; [eapply subseq_trans; [eapply insert_sub; exact E|exact S1]|]. intros Q. apply O1. eapply insert_ord; eauto.
    - exists l1. auto.
  Qed.
  Lemma subseq_filter (f : key -> bool) l m : subseq l m -> (forall k, In k l -> f k = true) -> subseq l (filter f m).
  Proof.
    intros H. induction H as [|k l m H IH|k l m H IH]; intros Q; cbn [filter]; [apply sub_nil| |].
    - destruct (f k); [apply sub_skip|]; auto.
    - rewrite (Q k (or_introl eq_refl)). apply sub_keep. apply IH. intros z Hz. apply Q. right. exact Hz.
  Qed.
  Lemma advance_lists e s s' : advance_vehicles e s = Ok s' -> forall x l', sm_get (s_links s') x = Some l' ->
    exists l m, sm_get (s_links s) x = Some l /\ subseq m (lk_vehicles l) /\ subseq m (lk_vehicles l') /\
      ((forall k, In k (lk_vehicles l') -> sm_mem (s_vehicles s') k = true) ->
      ord (posf (s_vehicles s')) m -> ord (posf (s_vehicles s')) (lk_vehicles l')).
  Proof.
    unfold advance_vehicles. intros H x l' G. bok H r Hr. destruct r as [[links [adv ex]] vs]. bok H ls Hls. injection H as <-. cbn [s_links s_vehicles with_links with_vehicles] in *.
    destruct (sm_mapS_pointwise (advance_one e) (fun st => forall x l', sm_get (fst st) x = Some l' -> exists l, sm_get (s_links s) x = Some l /\ subseq (lk_vehicles l') (lk_vehicles l))
      (s_vehicles s) (s_links s, ([], [])) (links, (adv, ex)) vs) as (K & _ & _).
    { intros [l1 [a1 e1]] k v [l2 [a2 e2]] v' _ P Ho y l2' G2. cbn [fst] in *. unfold advance_one in Ho. bok Ho lid Hl. bok Ho bv Hb. destruct (fst bv).
      - bok Ho l3 H3. assert (l3 = l2) as -> by (destruct (v_link (snd bv)); injection Ho as <- _ _; reflexivity).
        destruct (upd_get _ _ _ _ _ _ H3 G2) as [(-> & l & G0 & E)|(N & G0)]; [|eauto]. injection E as <-.
        destruct (P _ _ G0) as (l0 & Q1 & Q2). exists l0. split; [exact Q1|]. eapply subseq_trans; [apply remove_vehicle_sub|exact Q2].
      - injection Ho as <- _ _ _. eauto. }
    { intros y l2 G2. exists l2. split; [exact G2|apply subseq_refl]. }
    { exact Hr. }
    destruct (inserts_ordered _ _ _ _ Hls _ _ G) as (l1 & G1 & S1 & O1). destruct (K _ _ G1) as (l & G0 & S0).
    exists l, (lk_vehicles l1). split; [exact G0|]. split; [exact S0|]. split; [exact S1|]. intros Hm Q.
    assert (forall k, In k (lk_vehicles l') -> posf (fold_left sm_remove ex vs) k = posf vs k) as Eq.
    { intros k Hk. apply Hm in Hk. unfold posf, sm_mem in *. rewrite sm_get_fold_remove in *. destruct (key_mem k ex); [discriminate Hk|reflexivity]. }
    eapply ord_ext; [|apply O1; eapply ord_ext; [|exact Q]].
    - intros k y Hk. rewrite Eq by exact Hk. auto.
    - intros k y Hk. rewrite Eq by (eapply subseq_in; eauto). auto.
  Qed.

  Lemma step_ordered e s dt s1 s' : Inv s -> step e s dt = Ok s' -> calculate_lane_changes e s = Ok s1 ->
    (forall x l', link_at s' x = Some l' -> ordered s' (stayed s1 s' x l')) -> all_ordered s'.
  Proof.
    intros I H Hlc Q. destruct (step_phases _ _ _ _ I H) as (t1 & s2 & s3 & s4 & s5 & Ph).
    assert (t1 = s1) by (pose proof (ph1 _ _ _ _ _ _ _ _ _ Ph); congruence). subst t1.
    destruct (ph6 _ _ _ _ _ _ _ _ _ Ph) as (s6 & H6 & Es'). destruct (coords_evo _ _ H6) as (C1 & C2 & _ & Es6).
    assert (forall k, posf (s_vehicles s') k = posf (s_vehicles s5) k) as Ep.
    { intros k. assert (s_vehicles s' = s_vehicles s6) as -> by (rewrite Es'; reflexivity). unfold posf.
      destruct (sm_get (s_vehicles s5) k) as [v|] eqn:G5.
      - destruct (C1 _ _ G5) as (v' & G6 & R). rewrite G6. cbn. f_equal. apply R.
      - destruct (sm_get (s_vehicles s6) k) as [v|] eqn:G6; [|reflexivity]. destruct (C2 _ _ G6) as (v' & G6' & R). congruence. }
    assert (s_links s' = s_links s5) as El by (rewrite Es', Es6; reflexivity).
    intros x l' G. apply ordered_ord. specialize (Q _ _ G). apply ordered_ord in Q. unfold link_at in G. rewrite El in G.
    destruct (advance_lists _ _ _ (ph5 _ _ _ _ _ _ _ _ _ Ph) _ _ G) as (l & m & G4 & S4 & S5 & K).
    pose proof (ps5 _ _ _ _ _ _ _ _ _ Ph) as St5. pose proof (ps1 _ _ _ _ _ _ _ _ _ Ph) as St1.
    assert (ord (posf (s_vehicles s5)) (lk_vehicles l')) as R.
    { apply K.
      - intros k Hk. destruct (in_list_on _ _ _ _ _ _ St5 G Hk) as (v & Gv & _). apply sm_mem_get. eauto.
      - eapply ord_ext; [intros k y _; rewrite <- Ep; intros Z; exact Z|]. eapply ord_sub; [|exact Q]. unfold stayed. apply subseq_filter; [exact S5|].
        intros k Hk. assert (In k (lk_vehicles l)) as Hk4 by (eapply subseq_in; eauto).
        pose proof (plv12 _ _ _ _ _ _ _ _ _ Ph x) as L12. pose proof (plv23 _ _ _ _ _ _ _ _ _ Ph x) as L23.
        rewrite (pn4 _ _ _ _ _ _ _ _ _ Ph) in G4. rewrite G4 in L23. rewrite L23 in L12. destruct (sm_get (s_links s1) x) as [l1|] eqn:G1; [|discriminate L12].
        injection L12 as E1. rewrite <- E1 in Hk4. destruct (in_list_on _ _ _ _ _ _ St1 G1 Hk4) as (v & Gv & Lv). unfold vehicle_at. rewrite Gv, Lv. apply key_eqb_refl. }
    eapply ord_ext; [|exact R]. intros k y _. rewrite Ep. auto.
  Qed.
End Order.

(** ** C51 *)
(** Inserting a vehicle changes nothing else in the list, and keeps it in order. *)
Theorem C51_insert : forall (A : Arith), OrdLaws A -> forall (s : @sim A) (k : key) (l l' : link),
  insert_vehicle (s_vehicles s) k l = Ok l' ->
  (exists pre post, lk_vehicles l = pre ++ post /\ lk_vehicles l' = pre ++ k :: post) /\
  (ordered s (lk_vehicles l) -> ordered s (lk_vehicles l')).
Proof.
  intros A O s k l l' H. split; [|intros F; apply ordered_ord; eapply insert_ord; [exact O|exact H|apply ordered_ord; exact F]].
  unfold insert_vehicle in H. bok H v Hv. bok H i Hi. injection H as <-. cbn [lk_vehicles set_vehicles].
  exists (firstn i (lk_vehicles l)), (skipn i (lk_vehicles l)). split; [symmetry; apply firstn_skipn|reflexivity].
Qed.
Print Assumptions C51_insert.

(** Removing a vehicle that is listed takes out one entry, its last; the others stay in their order. *)
Theorem C51_remove : forall (A : Arith) (k : key) (l : @link A), In k (lk_vehicles l) ->
  exists pre post, lk_vehicles l = pre ++ k :: post /\ lk_vehicles (remove_vehicle k l) = pre ++ post /\ ~ In k post.
Proof.
  intros A k l Hin. unfold remove_vehicle. destruct (rposition _ _) as [i|] eqn:P.
  - cbn [lk_vehicles set_vehicles]. unfold remove_at.
    assert (forall (m : list key) i, rposition (fun x => key_eqb x k) m = Some i -> exists pre post, m = pre ++ k :: post /\ length pre = i /\ ~ In k post) as Q.
    { clear. induction m as [|a m IH]; intros i H; cbn in H; [discriminate H|].
      destruct (rposition _ m) as [j|] eqn:R.
      - injection H as <-. destruct (IH _ eq_refl) as (pre & post & -> & <- & N). exists (a :: pre), post. auto.
      - destruct (key_eqb_spec a k) as [->|_]; [|discriminate H]. injection H as <-. exists [], m. split; [reflexivity|]. split; [reflexivity|]. intros Hin.
        clear IH. induction m as [|b m IH]; [exact Hin|]. cbn in R. destruct (rposition _ m); [discriminate R|]. destruct Hin as [->|Hin]; [rewrite key_eqb_refl in R; discriminate R|]. auto. }
    destruct (Q _ _ P) as (pre & post & E & <- & N). exists pre, post. split; [exact E|]. split; [|exact N].
    rewrite E. rewrite firstn_app, Nat.sub_diag, firstn_all, app_nil_r. f_equal. replace (S (length pre)) with (length pre + 1) by lia.
    rewrite skipn_app. rewrite skipn_all2 by lia. replace (length pre + 1 - length pre) with 1 by lia. reflexivity.
  - exfalso. clear -Hin P. induction (lk_vehicles l) as [|b m IH]; [exact Hin|]. cbn in P. destruct (rposition _ m); [discriminate P|].
    destruct Hin as [->|Hin]; [rewrite key_eqb_refl in P; discriminate P|]. auto.
Qed.
Print Assumptions C51_remove.

(** No call of the API but [step] puts the vehicles of a link out of order. *)
Theorem C51_calls : forall (A : Arith), OrdLaws A -> forall e (s s' : @sim A) o,
  reachable s -> all_ordered s -> exec e s o = Ok s' -> (forall dt, o <> OStep dt) -> all_ordered s'.
Proof.
  intros A O e s s' o R F H N. apply all_ordered_ord. apply all_ordered_ord in F.
  eapply exec_ordered; [exact O|apply (reachable_Inv _ R)|exact H| |exact F]. destruct o; try reflexivity. exfalso. eapply N; reflexivity.
Qed.
Print Assumptions C51_calls.

(** A step begins with the lane changes, which keep the order. *)
Theorem C51_lane_changes : forall (A : Arith), OrdLaws A -> forall e (s s1 : @sim A),
  reachable s -> all_ordered s -> calculate_lane_changes e s = Ok s1 -> all_ordered s1.
Proof.
  intros A O e s s1 R F H. apply all_ordered_ord. apply all_ordered_ord in F. pose proof (reachable_Inv _ R) as I.
  eapply lane_changes_ordered; [exact O|apply (i_st _ I)|apply (i_flags _ I)|exact H|exact F].
Qed.
Print Assumptions C51_lane_changes.

(** If none of the vehicles that stay on their link overtakes another, the vehicles of each link are
    in order after the step: those that move on from another link take their place in the order. *)
Theorem C51_step : forall (A : Arith), OrdLaws A -> forall e (s s1 s' : @sim A) dt,
  reachable s -> exec e s (OStep dt) = Ok s' -> calculate_lane_changes e s = Ok s1 ->
  (forall x l', link_at s' x = Some l' -> ordered s' (stayed s1 s' x l')) -> all_ordered s'.
Proof. intros A O e s s1 s' dt R H H1 Q. eapply step_ordered; [exact O|apply (reachable_Inv _ R)|exact H|exact H1|exact Q]. Qed.
Print Assumptions C51_step.

(** With a large enough time step a vehicle overtakes another on its link: the list is out of order,
    and [can_insert_vehicle] then accepts a place that is taken. *)
Section OrderB.
  Context {A : Arith}.
  Fixpoint ordb (s : sim) (ks : list key) : bool :=
    match ks with
    | [] => true
    | a :: ks => forallb (fun b => match vehicle_at s a, vehicle_at s b with Some v, Some w => negb (nltb (v_pos w) (v_pos v)) | _, _ => true end) ks && ordb s ks
    end.
  Lemma ordb_ok s ks : ordb s ks = true <-> ordered s ks.
  Proof.
    unfold ordered. induction ks as [|a ks IH]; cbn [ordb]; [split; [constructor|auto]|]. rewrite andb_true_iff, IH, forallb_forall. split.
    - intros (H1 & H2). constructor; [|exact H2]. apply Forall_forall. intros b Hb v w Ga Gb. specialize (H1 _ Hb). rewrite Ga, Gb in H1. apply negb_true_iff. exact H1.
    - intros H. inversion H as [|? ? F H']; subst. split; [|exact H']. intros b Hb. rewrite Forall_forall in F. specialize (F _ Hb).
      destruct (vehicle_at s a); [|reflexivity]. destruct (vehicle_at s b); [|reflexivity]. apply negb_true_iff. auto.
  Qed.
  Definition links_b (s : sim) (f : key -> link -> bool) : bool := forallb (fun kl => f (fst kl) (snd kl)) (sm_entries (s_links s)).
  Lemma links_b_ok s f : links_b s f = true -> forall x l, link_at s x = Some l -> f x l = true.
  Proof. unfold links_b, link_at. rewrite forallb_forall. intros H x l G. apply (H (x, l)). apply in_entries. exact G. Qed.
End OrderB.

Definition ex_over : list (@op F64) :=
  [ OAddLink (ex_line 0 0 100 0) (fz 15); OAddVehicle ex_car lane1 ] ++ ex_steps 5 ++ [ OSetFrozen car1 true ] ++ ex_steps 4 ++ [ OAddVehicle ex_car lane1 ] ++ ex_steps 3.
Definition can_b (s : @sim F64) (x : key) (pos len : @num F64) : bool :=
  link_b s x (fun l => okb (can_insert_vehicle l (s_vehicles s) pos len) (fun b => b)).
Lemma ex_over_ok :
  okb (run ex_env sim_new ex_over) (fun s => link_b s lane1 (fun l => ordb s (lk_vehicles l)) && negb (can_b s lane1 (fz 33) (fz 4)) &&
    okb (exec ex_env s (OStep (fz 10))) (fun s' => link_b s' lane1 (fun l => negb (ordb s' (lk_vehicles l))) && can_b s' lane1 (fz 33) (fz 4) &&
      link_b s' lane1 (fun l => existsb (fun k => key_eqb k car1) (lk_vehicles l)) && veh_b s' car1 (fun v => nltb (fz 31) (v_pos v) && nltb (v_pos v) (fz 35)))) = true.
Proof. vm_compute. reflexivity. Qed.
Theorem C51_step_refuted : exists (s s' : @sim F64) dt l l', reachable s /\ link_at s lane1 = Some l /\ ordered s (lk_vehicles l) /\
  exec ex_env s (OStep dt) = Ok s' /\ link_at s' lane1 = Some l' /\ ~ ordered s' (lk_vehicles l') /\
  can_insert_vehicle l' (s_vehicles s') (fz 33) (fz 4) = Ok true /\
  exists v, vehicle_at s' car1 = Some v /\ In car1 (lk_vehicles l') /\ nltb (fz 31) (v_pos v) = true /\ nltb (v_pos v) (fz 35) = true.
Proof.
  destruct (okb_ok _ _ ex_over_ok) as (s & R & B). bsplit B.
  destruct (okb_ok _ _ B0) as (s' & H & C). bsplit C. rename C into D. rename B2 into C1, B3 into C2, B4 into C3, D into C.
  assert (reachable s) as Rs by (eapply run_reachable; exact R).
  destruct (link_b_ok _ _ _ B) as (l & G & Bo). destruct (link_b_ok _ _ _ C) as (l' & G' & Co). destruct (veh_b_ok _ _ _ C1) as (v & Gv & Cv). bsplit Cv.
  unfold can_b in C3. unfold link_b in C2, C3. rewrite G' in C2, C3. destruct (okb_ok _ _ C3) as (b & Hb & ->).
  exists s, s', (fz 10), l, l'. split; [exact Rs|]. split; [exact G|]. split; [apply ordb_ok; exact Bo|]. split; [exact H|]. split; [exact G'|].
  split; [intros Q; apply ordb_ok in Q; rewrite Q in Co; discriminate Co|]. split; [exact Hb|]. exists v. split; [exact Gv|]. split; [|auto].
  apply existsb_exists in C2. destruct C2 as (k & Hk & E). apply key_eqb_eq in E. subst k. exact Hk.
Qed.
Print Assumptions C51_step_refuted.

(** A car joins another on the second of two links. *)
Definition ex_join : list (@op F64) :=
  [ OAddLink (ex_line 0 0 20 0) (fz 15); OAddLink (ex_line 20 0 80 0) (fz 15); OAddConnection lane1 lane2;
    OAddVehicle ex_car lane2 ] ++ ex_steps 3 ++ [ OAddVehicle ex_car lane1; OSetDestination car2 lane2 ] ++ ex_steps 4.
Lemma ex_join_ok :
  okb (run ex_env sim_new ex_join) (fun s => links_b s (fun _ l => ordb s (lk_vehicles l)) &&
    okb (calculate_lane_changes ex_env s) (fun s1 => okb (exec ex_env s (OStep (fz 1))) (fun s' =>
      links_b s' (fun x l => ordb s' (stayed s1 s' x l)) && is_on s car2 lane1 && is_on s' car1 lane2 && is_on s' car2 lane2))) = true.
Proof. vm_compute. reflexivity. Qed.
Example C51_example : exists (s s1 s' : @sim F64) dt, reachable s /\ all_ordered s /\ exec ex_env s (OStep dt) = Ok s' /\ calculate_lane_changes ex_env s = Ok s1 /\
  (forall x l', link_at s' x = Some l' -> ordered s' (stayed s1 s' x l')) /\
  is_on s car2 lane1 = true /\ is_on s' car2 lane2 = true /\ is_on s' car1 lane2 = true.
Proof.
  destruct (okb_ok _ _ ex_join_ok) as (s & R & B). bsplit B. destruct (okb_ok _ _ B0) as (s1 & H1 & C). destruct (okb_ok _ _ C) as (s' & H & D). bsplit D.
  exists s, s1, s', (fz 1). split; [eapply run_reachable; exact R|]. split; [intros x l G; apply ordb_ok; exact (links_b_ok _ _ B _ _ G)|]. split; [exact H|]. split; [exact H1|].
  split; [intros x l G; apply ordb_ok; exact (links_b_ok _ _ D _ _ G)|]. auto.
Qed.

(** [can_insert_vehicle] answers right on a link whose vehicles are in order and do not overlap: it
    accepts a place exactly if the new vehicle would overlap none. *)
Section CanInsert.
  Local Open Scope R_scope.
  Definition spaced (vs : @vehset RA) : list key -> Prop :=
    ForallOrdPairs (fun a b => forall v w, sm_get vs a = Some v -> sm_get vs b = Some w -> (v_length v + v_length w) / 2 <= (v_pos w : R) - v_pos v).
  Definition free_of (v : @vehicle RA) (pos len : R) : Prop := (len + v_length v) / 2 <= Rabs ((v_pos v : R) - pos).
  Theorem C51_can_insert : forall (l : @link RA) (vs : @vehset RA) (pos len : R) (b : bool),
    (forall k v, In k (lk_vehicles l) -> sm_get vs k = Some v -> 0 <= (v_length v : R)) -> spaced vs (lk_vehicles l) ->
    can_insert_vehicle l vs pos len = Ok b ->
    (b = true <-> forall k v, In k (lk_vehicles l) -> sm_get vs k = Some v -> free_of v pos len).
  Proof.
    intros l vs pos len b. unfold can_insert_vehicle. induction (lk_vehicles l) as [|a ks IH]; intros Hl Sp H; cbn [can_insert_loop] in H.
    { injection H as <-. split; [intros _ k v []|reflexivity]. }
    bok H v Hv. unfold get_vehicle in Hv. apply of_option_ok in Hv. inversion Sp as [|? ? Sa Sp']; subst.
    assert (0 <= (v_length v : R)) as L0 by (apply (Hl a); [left|]; auto).
    destruct (nltb (nabs (nsub (v_pos v) pos)) _) eqn:E1 in H.
    - injection H as <-. split; [discriminate|]. intros Q. specialize (Q a v (or_introl eq_refl) Hv). unfold free_of in Q.
      apply ltb_R in E1. pose proof half_R as Hh. unR. rewrite Hh in E1. exfalso. lra.
    - apply ltb_R_false in E1. pose proof half_R as Hh. assert (free_of v pos len) as Fv by (unfold free_of; unR; rewrite Hh in E1; lra).
      destruct (nltb n0 (nsub (v_pos v) pos)) eqn:E2 in H.
      + injection H as <-. split; [|reflexivity]. intros _ k w [<-|Hin] Gw; [congruence|].
        rewrite Forall_forall in Sa. pose proof (Sa _ Hin _ _ Hv Gw) as Q. assert (0 <= (v_length w : R)) as L1 by (apply (Hl k); [right|]; auto).
        apply ltb_R in E2. change (0 < (v_pos v : R) - pos) in E2. unfold free_of in *. rewrite Rabs_right in Fv by lra. rewrite Rabs_right by lra. lra.
      + rewrite (IH (fun k w Hk => Hl k w (or_intror Hk)) Sp' H). split.
        * intros Q k w [<-|Hin] Gw; [congruence|]. eauto.
        * intros Q k w Hin Gw. apply (Q k w); [right|]; auto.
  Qed.
  Print Assumptions C51_can_insert.

  (** Two cars, 4 m long, 20 m apart: there is room in between, and not right behind the second. *)
  Definition ex_carR (p : R) : @vehicle RA :=
    @Vehicle RA null_key 1 2 3 (accel_new (2 : @num RA) 2 2) pf_default p n0 0 [] 0 None 0 true None vzero vzero (Itv n0 n0) (vzero, vzero).
  Definition ex_carsR : @vehset RA := sm_insert (sm_insert sm_empty (ex_carR 10)) (ex_carR 30).
  Example C51_can_insert_example : forall l : @link RA, lk_vehicles l = [car1; car2] ->
    (forall k v, In k (lk_vehicles l) -> sm_get ex_carsR k = Some v -> 0 <= (v_length v : R)) /\ spaced ex_carsR (lk_vehicles l) /\
    can_insert_vehicle l ex_carsR (20 : @num RA) (4 : @num RA) = Ok true /\ can_insert_vehicle l ex_carsR (28 : @num RA) (4 : @num RA) = Ok false.
  Proof.
    intros l E. rewrite E. assert (sm_get ex_carsR car1 = Some (ex_carR 10)) as G1 by reflexivity. assert (sm_get ex_carsR car2 = Some (ex_carR 30)) as G2 by reflexivity.
    assert (forall p, (v_length (ex_carR p) : R) = 4) as Ln by (intros p; change (2 * 2 = 4); lra).
    pose proof half_R as Hh. unR.
    split; [|split; [|split]].
    - intros k v [<-|[<-|[]]] G; rewrite ?G1, ?G2 in G; injection G as <-; rewrite Ln; lra.
    - constructor; [constructor; [|constructor]|constructor; constructor]. intros v w Gv Gw. rewrite G1 in Gv. rewrite G2 in Gw. injection Gv as <-. injection Gw as <-. rewrite !Ln. cbn [v_pos ex_carR]. lra.
    - unfold can_insert_vehicle. rewrite E. cbn [can_insert_loop]. unfold get_vehicle. rewrite G1, G2. cbn [of_option bind]. rewrite !Ln. cbn [v_pos ex_carR].
      replace (nltb (nabs (nsub (10 : @num RA) (20 : @num RA))) (nmul nhalf (nadd (4 : @num RA) (4 : @num RA)))) with false.
      2:{ symmetry. apply ltb_R_false. unR. rewrite Hh. rewrite Rabs_left by lra. lra. }
      replace (nltb n0 (nsub (10 : @num RA) (20 : @num RA))) with false. 2:{ symmetry. apply ltb_R_false. change (10 - 20 <= 0). lra. }
      replace (nltb (nabs (nsub (30 : @num RA) (20 : @num RA))) (nmul nhalf (nadd (4 : @num RA) (4 : @num RA)))) with false.
      2:{ symmetry. apply ltb_R_false. unR. rewrite Hh. rewrite Rabs_right by lra. lra. }
      destruct (nltb n0 _); reflexivity.
    - unfold can_insert_vehicle. rewrite E. cbn [can_insert_loop]. unfold get_vehicle. rewrite G1, G2. cbn [of_option bind]. rewrite !Ln. cbn [v_pos ex_carR].
      replace (nltb (nabs (nsub (10 : @num RA) (28 : @num RA))) (nmul nhalf (nadd (4 : @num RA) (4 : @num RA)))) with false.
      2:{ symmetry. apply ltb_R_false. unR. rewrite Hh. rewrite Rabs_left by lra. lra. }
      replace (nltb n0 (nsub (10 : @num RA) (28 : @num RA))) with false. 2:{ symmetry. apply ltb_R_false. change (10 - 28 <= 0). lra. }
      replace (nltb (nabs (nsub (30 : @num RA) (28 : @num RA))) (nmul nhalf (nadd (4 : @num RA) (4 : @num RA)))) with true; [reflexivity|].
      symmetry. apply ltb_R. unR. rewrite Hh. rewrite Rabs_right by lra. lra.
  Qed.
End CanInsert.
