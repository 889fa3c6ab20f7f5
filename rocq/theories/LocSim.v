(** * A step depends only on the connected part of the network *)
From Coq Require Import List Bool ZArith NArith Arith Lia.
From Verif Require Import Arith Base BaseProofs SlotMap SlotMapProofs Util Geom Light LightProofs Accel Net Path Vehicle LinkOps Sim SpecSim Safe NetInv SimInv AccSafe SimSafe StepSafe OpSafe Evo StepEvo LogProofs SpecLocal Align LocPath LocScan.
Import ListNotations.

Lemma mapS_two {V S1 S2} (P : key -> V -> bool) (RS : S1 -> S2 -> Prop) (R R' : key -> V -> V -> Prop) f1 f2 m1 m2 s t s' t' m1' m2' :
  sm_mapS f1 m1 s = Ok (s', m1') -> sm_mapS f2 m2 t = Ok (t', m2') -> aligned P R m1 m2 -> RS s t ->
  (forall s t k v s' v', sm_get m1 k = Some v -> P k v = false -> RS s t -> f1 s k v = Ok (s', v') -> RS s' t /\ P k v' = false) ->
  (forall s t k w t' w', sm_get m2 k = Some w -> P k w = false -> RS s t -> f2 t k w = Ok (t', w') -> RS s t' /\ P k w' = false) ->
  (forall s t k v w s' v' t' w', sm_get m1 k = Some v -> sm_get m2 k = Some w -> P k v = true -> P k w = true -> R k v w -> RS s t -> f1 s k v = Ok (s', v') -> f2 t k w = Ok (t', w') ->
    RS s' t' /\ R' k v' w' /\ P k v' = true /\ P k w' = true) -> RS s' t' /\ aligned P R' m1' m2'.
Proof.
  intros M1 M2 Al Rs H1 H2 H3.
  destruct (mapS_align (fun _ _ : unit => True) (fun _ => I) (fun _ _ _ _ _ => I) P f1 f2 (fun _ => RS) R (fun _ => R') (fun _ _ _ _ _ _ H => H) (fun k v => sm_get m1 k = Some v) (fun k v => sm_get m2 k = Some v)
    (fun _ => H1) (fun _ => H2)) with (m1 := m1) (m2 := m2) (g := tt) (s := s) (t := t) (s' := s') (t' := t') (m1' := m1') (m2' := m2') as (_ & _ & E & Al'); auto.
  intros _ a b k v w a' v' b' w' G1 G2 P1 P2 Hr E Ha Hb. exists tt. split; [exact I|]. exact (H3 _ _ _ _ _ _ _ _ _ G1 G2 P1 P2 Hr E Ha Hb).
Qed.

Section LocSim.
  Context {A : Arith}.
  Variables part CV : key -> bool.
  Notation agree := (agree part).
  Notation closed := (closed part).
  Notation routec := (routec part CV).
  Notation listc := (listc part CV).
  Notation vagree := (vagree CV).
  Notation LR := (LR part CV).
  Notation own := (own part CV).

  (** ** One simulation *)
  Definition rootc (vs : vehset) : Prop := forall k v x, sm_get vs k = Some v -> v_link v = Some x -> part x = CV k.
  Definition tripc (vs : vehset) : Prop := forall k v, CV k = true -> sm_get vs k = Some v -> v_destination v = null_key \/ part (v_destination v) = true.
  Definition vsame (a b : vehset) : Prop := forall k, CV k = true -> sm_get a k = sm_get b k.
  Lemma chain_col L ids x : closed L -> chain L ids -> hd_error ids = Some x -> forall y, In y ids -> part y = part x.
  Proof.
    intros C. revert x. induction ids as [|z ids IH]; intros x Hc E y Hy; [discriminate E|]. injection E as ->. destruct Hy as [<-|Hy]; [reflexivity|]. destruct ids as [|z2 ids]; [destruct Hy|].
    cbn [chain] in Hc. destruct Hc as (_ & (l & Gl & Hl) & Hc). rewrite (IH z2 Hc eq_refl y Hy). apply (C x l z2 Gl). left. exact Hl.
  Qed.
  Definition U (s : sim) : Prop := St (s_links s) (s_vehicles s) (s_seq s) /\ closed (s_links s) /\ routec (s_vehicles s).
  Lemma U_root L V q : St L V q -> closed L -> rootc V -> routec V.
  Proof.
    intros S C H k v x Gv Hx. pose proof (st_veh _ _ _ S _ _ Gv) as B. pose proof (vb_chain _ _ _ _ B) as Hc. pose proof (vb_src _ _ _ _ B) as Hs. rewrite (chain_col _ _ _ C Hc Hs x Hx). exact (H k v _ Gv Hs).
  Qed.
  Lemma root_of V : routec V -> rootc V.
  Proof. intros H k v x Gv Hx. exact (H k v x Gv (hd_error_in _ _ Hx)). Qed.
  Lemma U_list L V q : St L V q -> routec V -> listc L.
  Proof.
    intros S H k l x Gl Hx. destruct (st_occ _ _ _ S k l Gl) as (_ & O). apply O in Hx. unfold at_of in Hx. destruct (sm_get V x) as [v|] eqn:Gv; [|discriminate Hx]. symmetry. exact (root_of _ H _ _ _ Gv Hx).
  Qed.
  Lemma U_tr L V q : St L V q -> routec V -> listed L V.
  Proof. intros S _. exact (Occ_listed _ _ (st_occ _ _ _ S)). Qed.

  Lemma u_phases e s dt s1 s2 s3 s4 s5 s' : phases e s dt s1 s2 s3 s4 s5 s' -> U s -> U s1 /\ U s2 /\ U s3 /\ U s4 /\ U s5.
  Proof.
    intros F (S0 & C0 & R0). pose proof (root_of _ R0) as T0.
    assert (closed (s_links s1)) as C1 by exact (closed_same part _ _ (pn1 _ _ _ _ _ _ _ _ _ F) C0). assert (closed (s_links s2)) as C2 by exact (closed_same part _ _ (pn2 _ _ _ _ _ _ _ _ _ F) C1). assert (closed (s_links s3)) as C3 by exact (closed_same part _ _ (pn3 _ _ _ _ _ _ _ _ _ F) C2).
    assert (closed (s_links s4)) as C4 by (rewrite (pn4 _ _ _ _ _ _ _ _ _ F); exact C3). assert (closed (s_links s5)) as C5 by exact (closed_same part _ _ (pn5 _ _ _ _ _ _ _ _ _ F) C4).
    assert (rootc (s_vehicles s1)) as T1.
    { intros k v' x Gv Hx. destruct (lane_changes_evo _ _ _ S0 (ph1 _ _ _ _ _ _ _ _ _ F) k v' Gv) as (v & G & _ & [(E & _)|(a & b & Ea & Eb & (l & Gl & Hl) & _)] & _).
      - apply (T0 k v x G). rewrite <- E. exact Hx.
      - rewrite Hx in Eb. injection Eb as <-. rewrite <- (T0 k v a G Ea). apply (C0 a l x Gl). right. right. left. exact Hl. }
    assert (rootc (s_vehicles s2)) as T2.
    { intros k v' x Gv Hx. destruct (pk2 _ _ _ _ _ _ _ _ _ F k v' Gv) as (v & G & (a & f & ->)). exact (T1 k v x G Hx). }
    assert (rootc (s_vehicles s3)) as T3 by (rewrite (pv3 _ _ _ _ _ _ _ _ _ F); exact T2).
    assert (rootc (s_vehicles s4)) as T4.
    { intros k v' x Gv Hx. destruct (integrate_evo _ _ _ (ph4 _ _ _ _ _ _ _ _ _ F)) as (_ & K & _). destruct (K k v' Gv) as (v & q & q' & G & Hi & _). apply integrate_ok in Hi. destruct Hi as (_ & _ & _ & _ & _ & _ & Er & _). apply (T3 k v x G). unfold v_link in *. rewrite <- Er. exact Hx. }
    pose proof (U_root _ _ _ (ps4 _ _ _ _ _ _ _ _ _ F) C4 T4) as R4.
    assert (rootc (s_vehicles s5)) as T5.
    { intros k v' x Gv Hx. destruct (advance_vehicles_evo _ _ _ (ph5 _ _ _ _ _ _ _ _ _ F)) as (K & _). destruct (K k v' Gv) as (v & G & (lid & l & _ & _ & [(_ & ->)|(_ & _ & Er & _)]) & _).
      - exact (T4 k v x G Hx).
      - apply (R4 k v x G). unfold v_link in Hx. rewrite Er in Hx. apply hd_error_in in Hx. destruct (v_route v); [exact Hx|right; exact Hx]. }
    split; [|split; [|split; [|split]]]; (split; [|split]); auto; try (exact (ps1 _ _ _ _ _ _ _ _ _ F)); try (exact (ps2 _ _ _ _ _ _ _ _ _ F)); try (exact (ps3 _ _ _ _ _ _ _ _ _ F)); try (exact (ps4 _ _ _ _ _ _ _ _ _ F)); try (exact (ps5 _ _ _ _ _ _ _ _ _ F)).
    - exact (U_root _ _ _ (ps1 _ _ _ _ _ _ _ _ _ F) C1 T1).
    - exact (U_root _ _ _ (ps2 _ _ _ _ _ _ _ _ _ F) C2 T2).
    - exact (U_root _ _ _ (ps3 _ _ _ _ _ _ _ _ _ F) C3 T3).
    - exact (U_root _ _ _ (ps5 _ _ _ _ _ _ _ _ _ F) C5 T5).
  Qed.
  Lemma trip_phases e s dt s1 s2 s3 s4 s5 s' : phases e s dt s1 s2 s3 s4 s5 s' -> U s -> tripc (s_vehicles s) -> tripc (s_vehicles s4).
  Proof.
    intros F (S0 & _) H k v4 Hk G4. destruct (integrate_evo _ _ _ (ph4 _ _ _ _ _ _ _ _ _ F)) as (_ & K & _). destruct (K k v4 G4) as (v3 & q & q' & G3 & Hi & _). apply integrate_ok in Hi. destruct Hi as (_ & _ & _ & _ & _ & Ep & _). unfold v_destination. rewrite Ep.
    rewrite (pv3 _ _ _ _ _ _ _ _ _ F) in G3. destruct (pk2 _ _ _ _ _ _ _ _ _ F k v3 G3) as (v1 & G1 & (a & f & ->)). destruct (lane_changes_evo _ _ _ S0 (ph1 _ _ _ _ _ _ _ _ _ F) k v1 G1) as (v & G & Hb & _). unfold body in Hb. injection Hb as _ _ _ _ _ _ _ _ _ Hb. cbn [set_flag set_acc v_pathfind]. rewrite Hb. exact (H k v Hk G).
  Qed.

  (** ** Links *)
  Lemma agree_trans a b c : agree a b -> agree b c -> agree a c.
  Proof. intros H1 H2 k Hk. rewrite (H1 k Hk). apply H2. exact Hk. Qed.
  Lemma agree_sym a b : agree a b -> agree b a.
  Proof. intros H k Hk. symmetry. apply H. exact Hk. Qed.
  Lemma agree_refl a : agree a a.
  Proof. intros k _. reflexivity. Qed.
  Lemma set_foreign L id l : part id = false -> agree L (sm_set L id l).
  Proof. intros Hi k Hk. rewrite sm_get_set. destruct (key_eqb_spec id k) as [->|]; [congruence|reflexivity]. Qed.
  Lemma upd_ok L id f L' : upd_link L id f = Ok L' -> exists l l', sm_get L id = Some l /\ f l = Ok l' /\ L' = sm_set L id l'.
  Proof. unfold upd_link, get_link. intros H. bok H l Hl. apply of_option_ok in Hl. bok H l' Hl'. injection H as <-. eauto. Qed.
  Lemma upd_foreign L id f L' : part id = false -> upd_link L id f = Ok L' -> agree L L'.
  Proof. intros Hi H. apply upd_ok in H. destruct H as (l & l' & _ & _ & ->). apply set_foreign. exact Hi. Qed.
  Lemma set_both L1 L2 id l1 l2 l : agree L1 L2 -> sm_get L1 id = Some l1 -> sm_get L2 id = Some l2 -> agree (sm_set L1 id l) (sm_set L2 id l).
  Proof.
    intros H E1 E2 k Hk. rewrite !sm_get_set. destruct (key_eqb id k) eqn:E; cbn [andb]; [|apply H; exact Hk]. replace (sm_mem L1 id) with true by (symmetry; apply sm_mem_get; eauto). replace (sm_mem L2 id) with true by (symmetry; apply sm_mem_get; eauto). reflexivity.
  Qed.
  Lemma upd_rr L1 L2 id f1 f2 : part id = true -> agree L1 L2 -> (forall l, sm_get L1 id = Some l -> rr eq (f1 l) (f2 l)) -> rr agree (upd_link L1 id f1) (upd_link L2 id f2).
  Proof.
    intros Hi H Hf x y H1 H2. apply upd_ok in H1. apply upd_ok in H2. destruct H1 as (l & a & G1 & F1 & ->). destruct H2 as (l2 & b & G2 & F2 & ->). pose proof (H id Hi) as E. rewrite G1, G2 in E. injection E as <-. rewrite (Hf l G1 a b F1 F2) in *. exact (set_both _ _ _ _ _ _ H G1 G2).
  Qed.
  Lemma remove_same L id k L' : upd_link L id (fun l => Ok (remove_vehicle k l)) = Ok L' -> same_net L L'.
  Proof.
    intros H. apply upd_ok in H. destruct H as (l & l' & G & E & ->). injection E as <-. apply (same_net_set _ _ _ _ G); unfold remove_vehicle; destruct (rposition _ _); auto.
  Qed.
  Lemma remove_incl k l x : In x (lk_vehicles (remove_vehicle k l)) -> In x (lk_vehicles l).
  Proof.
    unfold remove_vehicle. destruct (rposition _ _) as [i|]; [|auto]. cbn [lk_vehicles set_vehicles]. unfold remove_at. intros H. apply in_app_iff in H. destruct H as [H|H]; [exact (firstn_in _ _ _ H)|exact (skipn_in _ _ _ H)].
  Qed.
  Lemma remove_listc L id k L' : upd_link L id (fun l => Ok (remove_vehicle k l)) = Ok L' -> listc L -> listc L'.
  Proof.
    intros H Hl. apply upd_ok in H. destruct H as (l & l' & G & E & ->). injection E as <-. intros k2 l2 x G2 Hx. rewrite sm_get_set in G2. destruct (key_eqb_spec id k2) as [->|]; cbn [andb] in G2; [|exact (Hl _ _ _ G2 Hx)].
    replace (sm_mem L k2) with true in G2 by (symmetry; apply sm_mem_get; eauto). injection G2 as <-. apply (Hl _ _ _ G). exact (remove_incl _ _ _ Hx).
  Qed.
  Lemma insert_in i k (l : list key) x : In x (insert_at i k l) -> x = k \/ In x l.
  Proof. unfold insert_at. intros H. apply in_app_iff in H. destruct H as [H|[H|H]]; [right; exact (firstn_in _ _ _ H)|left; auto|right; exact (skipn_in _ _ _ H)]. Qed.
  Lemma insert_listc vs L id k L' : upd_link L id (insert_vehicle vs k) = Ok L' -> part id = CV k -> listc L -> listc L'.
  Proof.
    intros H Hc Hl. apply upd_ok in H. destruct H as (l & l' & G & E & ->). unfold insert_vehicle in E. bok E v Hv. bok E i Hi. injection E as <-. intros k2 l2 x G2 Hx. rewrite sm_get_set in G2. destruct (key_eqb_spec id k2) as [->|]; cbn [andb] in G2; [|exact (Hl _ _ _ G2 Hx)].
    replace (sm_mem L k2) with true in G2 by (symmetry; apply sm_mem_get; eauto). injection G2 as <-. cbn [lk_vehicles set_vehicles] in Hx. apply insert_in in Hx. destruct Hx as [->|Hx]; [symmetry; exact Hc|exact (Hl _ _ _ G Hx)].
  Qed.

  (** ** Two simulations *)
  Section Two.
  Variable Q : nat -> nat -> Prop.
  Hypothesis Q0 : Q 0 0.
  Hypothesis Qlt : forall a a' b b', Q a a' -> Q b b' -> (a < b <-> a' < b').

  Lemma getv_rr' V1 V2 k : vagree Q V1 V2 -> CV k = true -> rr (VR Q) (get_vehicle V1 k) (get_vehicle V2 k).
  Proof. intros H Hk. exact (getv_rr CV Q V1 V2 H k Hk). Qed.
  Lemma insert_rr V1 V2 k l : vagree Q V1 V2 -> CV k = true -> (forall x, In x (lk_vehicles l) -> CV x = true) -> rr eq (insert_vehicle V1 k l) (insert_vehicle V2 k l).
  Proof.
    intros H Hk Hl. unfold insert_vehicle. apply (rr_bind (VR Q)); [apply getv_rr'; auto|]. intros v w (q & -> & _) _ _. change (v_pos (set_q v q)) with (v_pos v). apply rr_bind_eq; [|intros; apply rr_refl].
    revert Hl. generalize (lk_vehicles l) as ids. induction ids as [|x ids IH]; intros Hl; cbn [insert_idx]; [apply rr_refl|]. apply (rr_bind (VR Q)); [apply getv_rr'; [exact H|apply Hl; left; reflexivity]|]. intros v2 w2 (q2 & -> & _) _ _. change (v_pos (set_q v2 q2)) with (v_pos v2).
    destruct (nltb _ _); [apply rr_refl|]. apply rr_bind_eq; [apply IH; intros y Hy; apply Hl; right; exact Hy|intros; apply rr_refl].
  Qed.
  Lemma vagree_al V1 V2 : vagree Q V1 V2 <-> aligned (fun k _ => CV k) (fun _ => VR Q) V1 V2.
  Proof.
    split; intros H k.
    - unfold seen. specialize (H k). destruct (CV k); [specialize (H eq_refl)|]; destruct (sm_get V1 k); destruct (sm_get V2 k); auto; exact Logic.I.
    - intros Hk. specialize (H k). unfold seen in H. rewrite Hk in H. destruct (sm_get V1 k); destruct (sm_get V2 k); auto.
  Qed.
  Lemma vset_both V1 V2 k v w : vagree Q V1 V2 -> sm_mem V1 k = true -> sm_mem V2 k = true -> VR Q v w -> vagree Q (sm_set V1 k v) (sm_set V2 k w).
  Proof. intros H M1 M2 Hv x Hx. rewrite !sm_get_set, M1, M2. destruct (key_eqb k x); cbn [andb]; [exact Hv|apply H; exact Hx]. Qed.
  Lemma vset_foreign V k v : CV k = false -> vsame V (sm_set V k v).
  Proof. intros Hk x Hx. rewrite sm_get_set. destruct (key_eqb_spec k x) as [->|]; [congruence|reflexivity]. Qed.
  Lemma vsame_l V V' V2 : vsame V V' -> vagree Q V V2 -> vagree Q V' V2.
  Proof. intros E H k Hk. rewrite <- (E k Hk). apply H. exact Hk. Qed.
  Lemma vsame_r V V2 V2' : vsame V2 V2' -> vagree Q V V2 -> vagree Q V V2'.
  Proof. intros E H k Hk. rewrite <- (E k Hk). apply H. exact Hk. Qed.

  (** ** Lane changes *)
  Definition mine (kp : key * path) : bool := CV (fst kp).
  Lemma choose_foreign L V q k v acc acc' v' : St L V q -> sm_get V k = Some v -> CV k = false -> choose_one L acc k v = Ok (acc', v') -> filter mine acc' = filter mine acc.
  Proof.
    intros S G Hk H. pose proof (vb_id _ _ _ _ (st_veh _ _ _ S _ _ G)) as Ei. unfold choose_one in H. bok H o Ho. destruct o as [p|]; [|injection H as <- <-; reflexivity]. bok H cur Hc. bok H new Hn. destruct (negb _); injection H as <- <-; [|reflexivity]. rewrite filter_app. cbn [filter mine fst]. rewrite Ei. unfold mine. cbn [fst]. rewrite Hk. apply app_nil_r.
  Qed.
  Lemma choose_both L1 L2 V1 V2 q1 q2 acc1 vs1 acc2 vs2 : St L1 V1 q1 -> St L2 V2 q2 -> closed L1 -> agree L1 L2 -> routec V1 -> vagree Q V1 V2 ->
    sm_mapS (choose_one L1) V1 [] = Ok (acc1, vs1) -> sm_mapS (choose_one L2) V2 [] = Ok (acc2, vs2) -> filter mine acc1 = filter mine acc2 /\ vagree Q vs1 vs2.
  Proof.
    intros S1 S2 C1 Ga R1 Gv M1 M2. pose proof (st_net _ _ _ S1) as N1. apply vagree_al in Gv.
    destruct (mapS_align (fun _ _ : unit => True) (fun _ => Logic.I) (fun _ _ _ _ _ => Logic.I) (fun k _ => CV k) (choose_one L1) (choose_one L2) (fun _ a b => filter mine a = filter mine b) (fun _ => VR Q) (fun _ _ => VR Q)
      (fun _ _ _ _ _ _ H => H) (fun k v => sm_get V1 k = Some v) (fun k v => sm_get V2 k = Some v)) with (m1 := V1) (m2 := V2) (g := tt) (s := @nil (key * path)) (t := @nil (key * path)) (s' := acc1) (t' := acc2) (m1' := vs1) (m2' := vs2) as (_ & _ & E & Al); auto.
    - intros _ a b k v a' v' G Hk E H. split; [|exact Hk]. rewrite (choose_foreign L1 V1 q1 k v a a' v'); auto.
    - intros _ a b k v a' v' G Hk E H. split; [|exact Hk]. rewrite (choose_foreign L2 V2 q2 k v b a' v'); auto.
    - intros _ a b k v w a' v' b' w' G1 G2 Hk _ Hv E H1 H2. exists tt. split; [exact Logic.I|]. destruct Hv as (q & -> & Hq). pose proof (vb_id _ _ _ _ (st_veh _ _ _ S1 _ _ G1)) as Ei.
      assert (rr (fun x y => filter mine (fst x) = filter mine (fst y) /\ VR Q (snd x) (snd y)) (choose_one L1 a k v) (choose_one L2 b k (set_q v q))) as K.
      { unfold choose_one. apply rr_bind_eq; [change (choose_path L2 (set_q v q)) with (choose_path L2 v); apply (choose_rr part L1 L2 Ga); intros x Hx; rewrite (root_of _ R1 _ _ _ G1 Hx); exact Hk|]. intros o _ _. destruct o as [p|]; [|apply rr_ok; split; [exact E|exists q; auto]].
        apply rr_bind_eq; [apply rr_refl|]. intros cur _ _. apply rr_bind_eq; [apply rr_refl|]. intros new _ _. destruct (negb _); apply rr_ok; cbn [fst snd].
        - split; [|exists q; auto]. rewrite !filter_app, E. reflexivity.
        - split; [exact E|]. exists q. split; [reflexivity|exact Hq]. }
      destruct (K _ _ H1 H2) as (K1 & K2). cbn [fst snd] in K1, K2. auto.
    - split; [exact E|]. apply vagree_al. exact Al.
  Qed.

  Lemma path_col L V q acc vs : St L V q -> closed L -> routec V -> flags0 V -> sm_mapS (choose_one L) V [] = Ok (acc, vs) -> forall vp, In vp acc -> change_ok L vs vp /\ forall x, In x (pt_links (snd vp)) -> part x = CV (fst vp).
  Proof.
    intros S C R F M vp Hv. destruct (safe_ok T _ _ _ (choose_all_safe T L V q S F (fun _ _ _ => Logic.I)) M) as (_ & _ & _ & Fc). cbn [fst snd] in Fc. rewrite Forall_forall in Fc. pose proof (Fc _ Hv) as Hc. split; [exact Hc|].
    destruct vp as (k, p). destruct (choose_all_evo _ _ _ _ _ S M) as (_ & _ & K). destruct (K k p Hv) as (v & a & b & G & Ea & Eb & (l & Gl & Hl) & _). destruct Hc as (_ & first & (P1 & P2 & P3) & _). intros x Hx. cbn [fst snd] in *. rewrite (chain_col _ _ _ C P1 P2 x Hx). rewrite Eb in P2. injection P2 as <-. rewrite <- (root_of _ R _ _ _ G Ea).
    apply (C a l b Gl). right. right. left. exact Hl.
  Qed.

  Definition EU (L0 : linkset) (vs0 : vehset) (s : sim) : Prop := U s /\ flags0 (s_vehicles s) /\ same_net L0 (s_links s) /\ same_shape vs0 (s_vehicles s) /\ tripc (s_vehicles s).
  Lemma exec_u L0 vs0 e s vp s' : EU L0 vs0 s -> change_ok L0 vs0 vp -> (forall x, In x (pt_links (snd vp)) -> part x = CV (fst vp)) -> exec_change e s vp = Ok s' -> EU L0 vs0 s'.
  Proof.
    intros ((S & C & R) & F & Sn & Sh & Tr) Hc Hp H. assert (change_ok (s_links s) (s_vehicles s) vp) as Hc'.
    { destruct Hc as (Hm & first & Pf & cur & Hcg). split; [rewrite <- (shape_mem _ _ _ Sh); auto|]. exists first. split; [eapply path_from_same; eauto|]. exists cur. apply (nl_chg _ _ (same_net_le _ _ Sn)); exact Hcg. }
    destruct (safe_ok T _ _ _ (exec_change_safe T e s vp S F Hc' (fun _ => Logic.I) (fun _ => Logic.I) (fun _ => Logic.I)) H) as (S' & F' & Sn' & _ & Sh'). pose proof (closed_same part _ _ Sn' C) as C'.
    destruct (exec_change_evo _ _ _ _ H) as (v & v1 & b & G & Hb & Ev & Bd & _).
    assert (forall k v', sm_get (s_vehicles s') k = Some v' -> k = fst vp /\ v' = set_path v1 (snd vp) \/ sm_get (s_vehicles s) k = Some v') as K.
    { intros k v' G'. rewrite Ev, !sm_get_set in G'. destruct (key_eqb_spec (fst vp) k) as [<-|]; cbn [andb] in G'; [|right; exact G']. rewrite sm_mem_set in G'. replace (sm_mem (s_vehicles s) (fst vp)) with true in G' by (symmetry; apply sm_mem_get; eauto). injection G' as <-. left. auto. }
    split; [split; [exact S'|split; [exact C'|]]|split; [exact F'|split; [eapply same_net_trans; eauto|split; [eapply shape_trans; eauto|]]]].
    - apply (U_root _ _ _ S' C'). intros k v' x G' Hx. destruct (K _ _ G') as [(-> & ->)|G2]; [|exact (root_of _ R _ _ _ G2 Hx)]. apply Hp. unfold v_link in Hx. cbn [set_path v_route] in Hx. exact (hd_error_in _ _ Hx).
    - intros k v' Hk G'. destruct (K _ _ G') as [(-> & ->)|G2]; [|exact (Tr k v' Hk G2)]. unfold v_destination. cbn [set_path v_pathfind]. unfold body in Bd. injection Bd as _ _ _ _ _ _ _ _ _ Bd. rewrite Bd. exact (Tr _ _ Hk G).
  Qed.
  Lemma exec_foreign L0 vs0 e s vp s' : EU L0 vs0 s -> CV (fst vp) = false -> (forall x, In x (pt_links (snd vp)) -> part x = CV (fst vp)) -> exec_change e s vp = Ok s' -> agree (s_links s) (s_links s') /\ vsame (s_vehicles s) (s_vehicles s').
  Proof.
    intros ((S & C & R) & _) Hk Hp H. rewrite Hk in Hp. unfold exec_change in H. bok H lid Hl. bok H s1 H1. bok H v2 H2. apply of_option_ok in Hl. apply hd_error_in in Hl. injection H as <-. cbn [s_links s_vehicles with_vehicles].
    unfold do_lane_change in H1. bok H1 v Hv. unfold get_vehicle in Hv. apply of_option_ok in Hv. bok H1 links Hli. bok H1 l Hl1. bok H1 o Ho. bok H1 oo Hoo. destruct oo as ((ps, off), slope). bok H1 v3 Hv3. bok H1 links2 Hl2. injection H1 as <-. cbn [s_links s_vehicles with_vehicles with_links].
    assert (agree (s_links s) links) as A1. { destruct (v_link v) as [cur|] eqn:Ec; [|injection Hli as <-; apply agree_refl]. apply upd_foreign in Hli; [exact Hli|]. rewrite (root_of _ R _ _ _ Hv Ec). exact Hk. }
    split; [eapply agree_trans; [exact A1|]; apply upd_foreign in Hl2; [exact Hl2|]; exact (Hp _ Hl)|]. intros x Hx. rewrite <- (vset_foreign _ (fst vp) _ Hk x Hx), <- (vset_foreign _ (fst vp) _ Hk x Hx). reflexivity.
  Qed.
  Lemma location_rr e1 e2 L1 L2 v q id ps lc : net_ok L1 -> closed L1 -> agree L1 L2 -> same_ties part e1 e2 -> part id = true -> v_destination v = null_key \/ part (v_destination v) = true -> relo Q (v_queued v) q ->
    rr (VR Q) (set_location e1 L1 v id ps lc) (set_location e2 L2 (set_q v q) id ps lc).
  Proof.
    intros N C Ga T Hi Hd Hq. unfold set_location. apply rr_bind_eq; [change (v_pathfind (set_q v q)) with (v_pathfind v); apply (origin_rr part L1 L2 N C Ga); auto|]. intros pf _ _. apply rr_ok. exists q. split; [reflexivity|exact Hq].
  Qed.
  Lemma do_rr e1 e2 s t k lid d : U s -> tripc (s_vehicles s) -> same_ties part e1 e2 -> CV k = true -> part lid = true -> agree (s_links s) (s_links t) -> vagree Q (s_vehicles s) (s_vehicles t) ->
    rr (fun s' t' => agree (s_links s') (s_links t') /\ vagree Q (s_vehicles s') (s_vehicles t')) (do_lane_change e1 s k lid d) (do_lane_change e2 t k lid d).
  Proof.
    intros (S & C & R) Tr T Hk Hl Ga Gv. pose proof (st_net _ _ _ S) as N. pose proof (U_list _ _ _ S R) as Hlist.
    unfold do_lane_change. apply (rr_bind (VR Q)); [apply getv_rr'; auto|]. intros v w (q & -> & Hq) Hv Hw. unfold get_vehicle in Hv, Hw. apply of_option_ok in Hv. apply of_option_ok in Hw. change (v_link (set_q v q)) with (v_link v).
    apply (rr_bind (fun a b => agree a b /\ same_net (s_links s) a /\ listc a)).
    + destruct (v_link v) as [cur|] eqn:Ec; [|apply rr_ok; split; [exact Ga|split; [apply same_net_refl|exact Hlist]]]. intros a b Ha Hb. split; [|split; [exact (remove_same _ _ _ _ Ha)|exact (remove_listc _ _ _ _ Ha Hlist)]]. revert a b Ha Hb. apply upd_rr; [rewrite (root_of _ R _ _ _ Hv Ec); exact Hk|exact Ga|]. intros l _. apply rr_refl.
    + intros a b (Gab & Sa & La) _ _. pose proof (same_net_ok _ _ Sa N) as Na. pose proof (closed_same part _ _ Sa C) as Ca. apply rr_bind_eq; [apply (get_rr part a b Gab); exact Hl|]. intros l Hl1 _. change (v_world_pos (set_q v q)) with (v_world_pos v). change (v_world_dir (set_q v q)) with (v_world_dir v).
      apply rr_bind_eq; [apply rr_refl|]. intros o _ _. apply rr_bind_eq; [apply rr_refl|]. intros ((ps, off), slope) _ _. apply (rr_bind (VR Q)); [apply location_rr; auto; exact (Tr _ _ Hk Hv)|]. intros v' w' Hvw _ _. cbv zeta.
      assert (vagree Q (sm_set (s_vehicles s) k v') (sm_set (s_vehicles t) k w')) as Gv' by (apply vset_both; auto; apply sm_mem_get; eauto).
      apply (rr_bind agree); [apply upd_rr; [exact Hl|exact Gab|]; intros l2 G2; apply insert_rr; [exact Gv'|exact Hk|intros x Hx; rewrite (La _ _ _ G2 Hx); exact Hl]|].
      intros a2 b2 G2 _ _. apply rr_ok. split; [exact G2|exact Gv'].
  Qed.
  Lemma exec_rr L0 vs0 e1 e2 s t vp : EU L0 vs0 s -> same_ties part e1 e2 -> CV (fst vp) = true -> (forall x, In x (pt_links (snd vp)) -> part x = CV (fst vp)) -> agree (s_links s) (s_links t) -> vagree Q (s_vehicles s) (s_vehicles t) ->
    rr (fun s' t' => agree (s_links s') (s_links t') /\ vagree Q (s_vehicles s') (s_vehicles t')) (exec_change e1 s vp) (exec_change e2 t vp).
  Proof.
    intros (Us & _ & _ & _ & Tr) T Hk Hp Ga Gv. rewrite Hk in Hp. unfold exec_change. apply rr_bind_eq; [apply rr_refl|]. intros lid Hl _. apply of_option_ok in Hl. apply hd_error_in in Hl. apply Hp in Hl.
    apply (rr_bind (fun s' t' => agree (s_links s') (s_links t') /\ vagree Q (s_vehicles s') (s_vehicles t'))).
    - apply do_rr; auto.
    - intros s1 t1 (Ga1 & Gv1) _ _. apply (rr_bind (VR Q)); [apply getv_rr'; auto|]. intros v w (q & -> & Hq) Hv Hw. unfold get_vehicle in Hv, Hw. apply of_option_ok in Hv. apply of_option_ok in Hw. apply rr_ok. split; [exact Ga1|]. cbn [s_vehicles with_vehicles]. apply vset_both; auto; try (apply sm_mem_get; eauto). exists q. split; [reflexivity|exact Hq].
  Qed.
  Lemma lane_changes_rr e1 e2 s t : U s -> U t -> flags0 (s_vehicles s) -> flags0 (s_vehicles t) -> tripc (s_vehicles s) -> tripc (s_vehicles t) -> same_ties part e1 e2 -> agree (s_links s) (s_links t) -> vagree Q (s_vehicles s) (s_vehicles t) -> s_lc_update s = s_lc_update t ->
    rr (fun s' t' => agree (s_links s') (s_links t') /\ vagree Q (s_vehicles s') (s_vehicles t')) (calculate_lane_changes e1 s) (calculate_lane_changes e2 t).
  Proof.
    intros Us Ut Fs Ft Tr Tt Ti Ga Gv El s' t' H1 H2. unfold calculate_lane_changes in H1, H2. rewrite <- El in H2. destruct (nltb _ _); [injection H1 as <-; injection H2 as <-; auto|]. bok H1 x Hx. bok H2 y Hy. destruct x as (acc1, vs1). destruct y as (acc2, vs2). cbn [fst snd with_lc_update s_links s_vehicles] in *.
    pose proof Us as (S1 & C1 & R1). pose proof Ut as (S2 & C2 & R2). destruct (choose_both _ _ _ _ _ _ _ _ _ _ S1 S2 C1 Ga R1 Gv Hx Hy) as (Ef & Gv'). pose proof (path_col _ _ _ _ _ S1 C1 R1 Fs Hx) as P1. pose proof (path_col _ _ _ _ _ S2 C2 R2 Ft Hy) as P2.
    destruct (safe_ok T _ _ _ (choose_all_safe T _ _ _ S1 Fs (fun _ _ _ => Logic.I)) Hx) as (Sa & Fa & Sha & _). destruct (safe_ok T _ _ _ (choose_all_safe T _ _ _ S2 Ft (fun _ _ _ => Logic.I)) Hy) as (Sb & Fb & Shb & _). cbn [fst snd] in *.
    assert (forall L V q acc vs, St L V q -> St L vs q -> closed L -> rootc V -> tripc V -> sm_mapS (choose_one L) V [] = Ok (acc, vs) -> routec vs /\ tripc vs) as Kr.
    { intros L V q acc vs Sv Svs Cv Rv Tv M. destruct (choose_all_evo _ _ _ _ _ Sv M) as (K & _). split.
      - apply (U_root _ _ _ Svs Cv). intros k v' x G Ev. destruct (K _ _ G) as (v & G0 & _ & ((E & _) & _) & _). apply (Rv k v x G0). rewrite <- E. exact Ev.
      - intros k v' Hk G. destruct (K _ _ G) as (v & G0 & Bd & _). unfold v_destination. unfold body in Bd. injection Bd as _ _ _ _ _ _ _ _ _ Bd. rewrite Bd. exact (Tv k v Hk G0). }
    destruct (Kr _ _ _ _ _ S1 Sa C1 (root_of _ R1) Tr Hx) as (Ra & Ta). destruct (Kr _ _ _ _ _ S2 Sb C2 (root_of _ R2) Tt Hy) as (Rb & Tb).
    assert (EU (s_links s) vs1 s' /\ EU (s_links t) vs2 t' /\ agree (s_links s') (s_links t') /\ vagree Q (s_vehicles s') (s_vehicles t')) as K; [|tauto].
    refine (foldM_align mine (exec_change e1) (exec_change e2) (fun a b => EU (s_links s) vs1 a /\ EU (s_links t) vs2 b /\ agree (s_links a) (s_links b) /\ vagree Q (s_vehicles a) (s_vehicles b)) acc1 acc2 Ef _ _ _ _ _ s' t' _ H1 H2).
    - intros a b x a' Hin Hm (Ea & Eb & Gab & Vab) H. destruct (P1 _ Hin) as (Pc & Pp). destruct (exec_foreign _ _ _ _ _ _ Ea Hm Pp H) as (A' & V'). split; [exact (exec_u _ _ _ _ _ _ Ea Pc Pp H)|]. split; [exact Eb|]. split; [exact (agree_trans _ _ _ (agree_sym _ _ A') Gab)|exact (vsame_l _ _ _ V' Vab)].
    - intros a b x b' Hin Hm (Ea & Eb & Gab & Vab) H. destruct (P2 _ Hin) as (Pc & Pp). destruct (exec_foreign _ _ _ _ _ _ Eb Hm Pp H) as (A' & V'). split; [exact Ea|]. split; [exact (exec_u _ _ _ _ _ _ Eb Pc Pp H)|]. split; [exact (agree_trans _ _ _ Gab A')|exact (vsame_r _ _ _ V' Vab)].
    - intros a b x a' b' Hin1 Hin2 Hm (Ea & Eb & Gab & Vab) Ha Hb. destruct (P1 _ Hin1) as (Pc1 & Pp1). destruct (P2 _ Hin2) as (Pc2 & Pp2). split; [exact (exec_u _ _ _ _ _ _ Ea Pc1 Pp1 Ha)|]. split; [exact (exec_u _ _ _ _ _ _ Eb Pc2 Pp2 Hb)|]. exact (exec_rr _ _ e1 e2 a b x Ea Ti Hm Pp1 Gab Vab _ _ Ha Hb).
    - split; [|split; [|split]].
      + split; [split; [exact Sa|split; [exact C1|exact Ra]]|]. split; [exact Fa|]. split; [apply same_net_refl|]. split; [apply shape_refl|exact Ta].
      + split; [split; [exact Sb|split; [exact C2|exact Rb]]|]. split; [exact Fb|]. split; [apply same_net_refl|]. split; [apply shape_refl|exact Tb].
      + exact Ga.
      + exact Gv'.
  Qed.
  (** ** Accelerations *)
  Lemma activate_foreign L v L' : (forall x, In x (v_route v) -> part x = false) -> activate_links v L = Ok L' -> agree L L'.
  Proof.
    intros Hr H. unfold activate_links in H. assert (forall x, In x (firstn (v_entered v) (v_route v)) -> part x = false) as Hf by (intros x Hx; apply Hr; exact (firstn_in _ _ _ Hx)). revert L Hf H. generalize (firstn (v_entered v) (v_route v)) as ids.
    induction ids as [|x ids IH]; intros L Hf H; cbn [foldM] in H; [injection H as <-; apply agree_refl|]. bok H L1 H1. bok H1 l Hl. injection H1 as <-. eapply agree_trans; [apply (set_foreign L x (set_lk_active l true)); apply Hf; left; reflexivity|]. apply IH; [|exact H]. intros y Hy. apply Hf. right. exact Hy.
  Qed.
  Lemma activate_rr L1 L2 v : (forall x, In x (v_route v) -> part x = true) -> agree L1 L2 -> rr agree (activate_links v L1) (activate_links v L2).
  Proof.
    intros Hr Ga. unfold activate_links. apply rr_foldM; [|exact Ga]. intros a b x Hx Gab a' b' Ha Hb. apply firstn_in in Hx. apply Hr in Hx. bok Ha l Hl. bok Hb l2 Hl2. injection Ha as <-. injection Hb as <-. unfold get_link in Hl, Hl2. apply of_option_ok in Hl. apply of_option_ok in Hl2. pose proof (Gab x Hx) as E. rewrite Hl, Hl2 in E. injection E as <-. exact (set_both _ _ _ _ _ _ Gab Hl Hl2).
  Qed.
  Lemma act_u s la va : U s -> activate_all (with_acc_update s n0) = Ok (la, va) ->
    net_ok la /\ closed la /\ routec va /\ listc la /\ listed la va /\ (forall k, sm_get va k = option_map v_reset (sm_get (s_vehicles s) k)) /\ same_net (s_links s) la.
  Proof.
    intros (S & C & R) H. pose proof S as [N W V O]. destruct (safe_ok T _ _ _ (activate_all_safe T (with_acc_update s n0) (fun k v Hk => vb_chain _ _ _ _ (V k v Hk))) H) as (Sn & Sl & _ & V1 & V2). cbn [s_links s_vehicles with_acc_update fst snd] in *.
    assert (forall k l x, sm_get la k = Some l -> In x (lk_vehicles l) -> exists l0, sm_get (s_links s) k = Some l0 /\ In x (lk_vehicles l0)) as Hl.
    { intros k l x G Hx. pose proof (Sl k) as E. rewrite G in E. destruct (sm_get (s_links s) k) as [l0|]; [|discriminate E]. injection E as E. exists l0. rewrite E. auto. }
    split; [exact (same_net_ok _ _ Sn N)|]. split; [exact (closed_same part _ _ Sn C)|]. split; [|split; [|split; [|split; [|exact Sn]]]].
    - intros k v x G Hx. destruct (V2 _ _ G) as (v0 & G0 & ->). exact (R _ _ _ G0 Hx).
    - intros k l x G Hx. destruct (Hl _ _ _ G Hx) as (l0 & G0 & H0). exact (U_list _ _ _ S R _ _ _ G0 H0).
    - intros k l x G Hx. destruct (Hl _ _ _ G Hx) as (l0 & G0 & H0). destruct (Occ_listed _ _ O _ _ _ G0 H0) as (v0 & Gv). destruct (V1 _ _ Gv) as (v' & Gv' & _). eauto.
    - intros k. destruct (sm_get (s_vehicles s) k) as [v|] eqn:E; [destruct (V1 _ _ E) as (v' & -> & ->); reflexivity|]. destruct (sm_get va k) as [v'|] eqn:E'; [|reflexivity]. destruct (V2 _ _ E') as (v & Gv & _). congruence.
  Qed.
  Lemma act_rr s t la va lb vb : U s -> U t -> agree (s_links s) (s_links t) -> vagree Q (s_vehicles s) (s_vehicles t) -> activate_all (with_acc_update s n0) = Ok (la, va) -> activate_all (with_acc_update t n0) = Ok (lb, vb) -> agree la lb.
  Proof.
    intros (S1 & C1 & R1) (S2 & C2 & R2) Ga Gv H1 H2. unfold activate_all in H1, H2. cbn [s_links s_vehicles with_acc_update] in *. bok H1 x Hx. bok H2 y Hy. destruct x as (la', va'). destruct y as (lb', vb'). injection H1 as <- <-. injection H2 as <- <-. apply vagree_al in Gv.
    refine (proj1 (mapS_two (fun k _ => CV k) agree (fun _ => VR Q) (fun _ _ _ => True) _ _ _ _ _ _ _ _ _ _ Hx Hy Gv _ _ _ _)).
    - intros k Hk. rewrite !sm_get_map, (Ga k Hk). reflexivity.
    - intros a b k v a' v' G Hk E H. split; [|exact Hk]. cbn beta in H. bok H a2 Ha. injection H as <- <-. apply activate_foreign in Ha; [exact (agree_trans _ _ _ (agree_sym _ _ Ha) E)|]. intros x Hx'. rewrite (R1 _ _ x G Hx'). exact Hk.
    - intros a b k v b' v' G Hk E H. split; [|exact Hk]. cbn beta in H. bok H a2 Ha. injection H as <- <-. apply activate_foreign in Ha; [exact (agree_trans _ _ _ E Ha)|]. intros x Hx'. rewrite (R2 _ _ x G Hx'). exact Hk.
    - intros a b k v w a' v' b' w' G1 G2 Hk _ (q & -> & _) E Ha Hb. cbn beta in Ha, Hb. bok Ha a2 Ha2. injection Ha as <- <-. bok Hb y2 Hb2. injection Hb as <- <-. split; [|auto].
      refine (activate_rr a b (v_reset v) _ E _ _ Ha2 Hb2). intros x Hx'. rewrite (R1 _ _ x G1 Hx'). exact Hk.
  Qed.
  Lemma values_filter L1 L2 : net_ok L1 -> net_ok L2 -> agree L1 L2 -> filter (fun l => part (lk_id l)) (sm_values L1) = filter (fun l => part (lk_id l)) (sm_values L2).
  Proof.
    intros N1 N2 Ga. assert (forall L, net_ok L -> filter (fun l => part (lk_id l)) (sm_values L) = map snd (filter (fun kl => part (fst kl)) (sm_entries L))) as K.
    { intros L N. unfold sm_values. assert (forall k l, In (k, l) (sm_entries L) -> lk_id l = k) as Hi by (intros k l H; apply in_entries in H; exact (lo_id _ _ _ (nk_link _ N _ _ H))). revert Hi. generalize (sm_entries L) as es. induction es as [|(k, l) es IH]; intros Hi; [reflexivity|]. cbn [map filter fst snd]. rewrite (Hi k l (or_introl eq_refl)), IH; [|intros k2 l2 H2; apply Hi; right; exact H2]. destruct (part k); reflexivity. }
    rewrite (K _ N1), (K _ N2). f_equal. apply (aligned_entries (fun k _ => part k)). intros k. unfold seen. destruct (part k) eqn:E; [rewrite (Ga k E)|]; destruct (sm_get L2 k); try exact Logic.I; try reflexivity; destruct (sm_get L1 k); exact Logic.I.
  Qed.
  Lemma logs_rr e1 e2 la va lb vb c1 c2 log1 log2 logs1 logs2 : net_ok la -> closed la -> routec va -> listc la -> listed la va -> net_ok lb -> closed lb -> routec vb -> listc lb -> listed lb vb ->
    agree la lb -> vagree Q va vb -> (forall c, In c c1 -> part (cpl_link (cp_a c)) = part (cpl_link (cp_b c))) -> (forall c, In c c2 -> part (cpl_link (cp_a c)) = part (cpl_link (cp_b c))) ->
    filter (fun c => part (cpl_link (cp_a c))) c1 = filter (fun c => part (cpl_link (cp_a c))) c2 ->
    sim_stoplines (e_fuel e1) la va [] = Ok logs1 -> sim_stoplines (e_fuel e2) lb vb [] = Ok logs2 ->
    sim_link_accelerations (e_fuel e1) la va c1 logs1 = Ok log1 -> sim_link_accelerations (e_fuel e2) lb vb c2 logs2 = Ok log2 -> LR log1 log2.
  Proof.
    intros N1 C1 R1 Li1 Ld1 N2 C2 R2 Li2 Ld2 Ga Gv Hc1 Hc2 Ec Hs1 Hs2 Ha1 Ha2. pose proof (values_filter _ _ N1 N2 Ga) as Ev.
    assert (LR logs1 logs2) as H0.
    { unfold sim_stoplines in Hs1, Hs2. refine (foldM_align (fun l => part (lk_id l)) _ _ LR _ _ Ev _ _ _ [] [] logs1 logs2 eq_refl Hs1 Hs2).
      - intros a b l a' Hin Hp Hab H. apply in_values in Hin. destruct Hin as (k & G). rewrite (lo_id _ _ _ (nk_link _ N1 _ _ G)) in Hp. unfold LocScan.LR in *. rewrite <- Hab. symmetry. eapply stoplines_foreign; [..|exact H]; eauto.
      - intros a b l a' Hin Hp Hab H. apply in_values in Hin. destruct Hin as (k & G). rewrite (lo_id _ _ _ (nk_link _ N2 _ _ G)) in Hp. unfold LocScan.LR in *. rewrite Hab. eapply stoplines_foreign; [..|exact H]; eauto.
      - intros a b l a' b' Hin _ Hp Hab Ha Hb. apply in_values in Hin. destruct Hin as (k & G). rewrite (lo_id _ _ _ (nk_link _ N1 _ _ G)) in Hp. revert a' b' Ha Hb. change (rr LR (apply_stoplines (e_fuel e1) la va l a) (apply_stoplines (e_fuel e2) lb vb l b)). eapply stoplines_rr; eauto. }
    unfold sim_link_accelerations in Ha1, Ha2. bok Ha1 m1 Hm1. bok Ha2 m2 Hm2.
    assert (LR m1 m2) as Hm.
    { refine (foldM_align (fun l => part (lk_id l)) _ _ LR _ _ Ev _ _ _ logs1 logs2 m1 m2 H0 Hm1 Hm2).
      - intros a b l a' Hin Hp Hab H. apply in_values in Hin. destruct Hin as (k & G). rewrite (lo_id _ _ _ (nk_link _ N1 _ _ G)) in Hp. unfold LocScan.LR in *. rewrite <- Hab. symmetry. eapply accelerations_foreign; [..|exact H]; eauto.
      - intros a b l a' Hin Hp Hab H. apply in_values in Hin. destruct Hin as (k & G). rewrite (lo_id _ _ _ (nk_link _ N2 _ _ G)) in Hp. unfold LocScan.LR in *. rewrite Hab. eapply accelerations_foreign; [..|exact H]; eauto.
      - intros a b l a' b' Hin _ Hp Hab Ha Hb. apply in_values in Hin. destruct Hin as (k & G). rewrite (lo_id _ _ _ (nk_link _ N1 _ _ G)) in Hp. revert a' b' Ha Hb. change (rr LR (apply_accelerations (e_fuel e1) la va l a) (apply_accelerations (e_fuel e2) lb vb l b)). eapply accelerations_rr; eauto. }
    refine (foldM_align (fun c => part (cpl_link (cp_a c))) _ _ LR _ _ Ec _ _ _ m1 m2 log1 log2 Hm Ha1 Ha2).
    - intros a b c a' Hin Hp Hab H. unfold LocScan.LR in *. rewrite <- Hab. symmetry. eapply cp_foreign; [..|exact H]; eauto. rewrite <- (Hc1 _ Hin). exact Hp.
    - intros a b c a' Hin Hp Hab H. unfold LocScan.LR in *. rewrite Hab. eapply cp_foreign; [..|exact H]; eauto. rewrite <- (Hc2 _ Hin). exact Hp.
    - intros a b c a' b' Hin _ Hp Hab Ha Hb. revert a' b' Ha Hb. change (rr LR (cp_apply (e_fuel e1) la va c a) (cp_apply (e_fuel e2) lb vb c b)). eapply cp_rr; eauto. rewrite <- (Hc1 _ Hin). exact Hp.
  Qed.
  Lemma filter_rev {X} (f : X -> bool) l : filter f (rev l) = rev (filter f l).
  Proof. induction l as [|x l IH]; [reflexivity|]. cbn [rev filter]. rewrite filter_app, IH. cbn [filter]. destruct (f x); [reflexivity|apply app_nil_r]. Qed.
  Lemma apply_log_rr la va lb vb log1 log2 : agree la lb -> vagree Q va vb -> LR log1 log2 -> agree (fst (apply_log (la, va) log1)) (fst (apply_log (lb, vb) log2)) /\ vagree Q (snd (apply_log (la, va) log1)) (snd (apply_log (lb, vb) log2)).
  Proof.
    intros Ga Gv Hl. unfold apply_log. refine (fold_align own apply_eff apply_eff (fun a b => agree (fst a) (fst b) /\ vagree Q (snd a) (snd b)) (rev log1) (rev log2) _ _ _ _ (la, va) (lb, vb) (conj Ga Gv)).
    - rewrite !filter_rev. unfold LocScan.LR in Hl. rewrite Hl. reflexivity.
    - intros a b e _ He (H1 & H2). destruct e as [k x|k f|k i]; cbn [LocScan.own] in He; cbn [apply_eff fst snd]; (split; [try exact H1|try exact H2]); intros j Hj; rewrite sm_get_upd; (destruct (key_eqb_spec k j) as [->|]; [congruence|]); [exact (H2 j Hj)|exact (H2 j Hj)|exact (H1 j Hj)].
    - intros a b e _ He (H1 & H2). destruct e as [k x|k f|k i]; cbn [LocScan.own] in He; cbn [apply_eff fst snd]; (split; [try exact H1|try exact H2]); intros j Hj; rewrite sm_get_upd; (destruct (key_eqb_spec k j) as [->|]; [congruence|]); [exact (H2 j Hj)|exact (H2 j Hj)|exact (H1 j Hj)].
    - intros a b e _ _ He (H1 & H2). destruct e as [k x|k f|k i]; cbn [apply_eff fst snd]; (split; [try exact H1|try exact H2]); intros j Hj; rewrite !sm_get_upd.
      + specialize (H2 j Hj). destruct (key_eqb k j); [|exact H2]. destruct (sm_get (snd a) j) as [v|]; destruct (sm_get (snd b) j) as [w|]; try exact H2. destruct H2 as (q & -> & Hq). exists q. split; [reflexivity|exact Hq].
      + specialize (H2 j Hj). destruct (key_eqb k j); [|exact H2]. destruct (sm_get (snd a) j) as [v|]; destruct (sm_get (snd b) j) as [w|]; try exact H2. destruct H2 as (q & -> & Hq). exists q. split; [reflexivity|exact Hq].
      + rewrite (H1 j Hj). reflexivity.
  Qed.
  Lemma key_mem_filter k f l : key_mem k (filter f l) = key_mem k l && f k.
  Proof.
    unfold key_mem. induction l as [|x l IH]; [reflexivity|]. cbn [filter existsb]. destruct (key_eqb_spec k x) as [<-|E].
    - destruct (f k) eqn:F; cbn [existsb orb]; [rewrite key_eqb_refl; reflexivity|]. rewrite IH, andb_false_r. reflexivity.
    - cbn [orb]. destruct (f x); [|exact IH]. cbn [existsb]. destruct (key_eqb_spec k x); [contradiction|exact IH].
  Qed.
  Definition frz (a b : list key) : Prop := forall k, CV k = true -> key_mem k a = key_mem k b.
  Lemma frozen_rr va vb f1 f2 : vagree Q va vb -> frz f1 f2 -> vagree Q (fst (apply_frozen va f1)) (fst (apply_frozen vb f2)) /\ frz (snd (apply_frozen va f1)) (snd (apply_frozen vb f2)).
  Proof.
    intros Gv Hf. split.
    - intros k Hk. rewrite !apply_frozen_get, (Hf k Hk). specialize (Gv k Hk). destruct (key_mem k f2); [|exact Gv]. destruct (sm_get va k) as [v|]; destruct (sm_get vb k) as [w|]; try exact Gv. destruct Gv as (q & -> & Hq). exists q. split; [reflexivity|exact Hq].
    - intros k Hk. cbn [apply_frozen snd]. rewrite !key_mem_filter, (Hf k Hk). f_equal. specialize (Gv k Hk). unfold sm_mem. destruct (sm_get va k) as [v|]; destruct (sm_get vb k) as [w|]; try reflexivity; destruct Gv.
  Qed.
  Lemma acc_rr e1 e2 s t s' t' : U s -> U t -> agree (s_links s) (s_links t) -> vagree Q (s_vehicles s) (s_vehicles t) ->
    (forall c, In c (s_conflicts s) -> part (cpl_link (cp_a c)) = part (cpl_link (cp_b c))) -> (forall c, In c (s_conflicts t) -> part (cpl_link (cp_a c)) = part (cpl_link (cp_b c))) ->
    filter (fun c => part (cpl_link (cp_a c))) (s_conflicts s) = filter (fun c => part (cpl_link (cp_a c))) (s_conflicts t) -> frz (s_frozen s) (s_frozen t) -> s_acc_update s = s_acc_update t ->
    sim_apply_accelerations e1 s = Ok s' -> sim_apply_accelerations e2 t = Ok t' -> agree (s_links s') (s_links t') /\ vagree Q (s_vehicles s') (s_vehicles t') /\ frz (s_frozen s') (s_frozen t').
  Proof.
    intros Us Ut Ga Gv Hc1 Hc2 Ec Hf Et H1 H2. unfold sim_apply_accelerations in H1, H2. rewrite <- Et in H2. destruct (nltb _ _); [injection H1 as <-; injection H2 as <-; auto|]. bok H1 x Hx. bok H2 y Hy. destruct x as (la, va). destruct y as (lb, vb). bok H1 log1 Hl1. bok H1 log Hl. bok H2 log2 Hl2. bok H2 log' Hl'.
    destruct (act_u _ _ _ Us Hx) as (N1 & C1 & R1 & Li1 & Ld1 & V1 & _). destruct (act_u _ _ _ Ut Hy) as (N2 & C2 & R2 & Li2 & Ld2 & V2 & _). pose proof (act_rr _ _ _ _ _ _ Us Ut Ga Gv Hx Hy) as Gl.
    assert (vagree Q va vb) as Gv2. { intros k Hk. rewrite V1, V2. specialize (Gv k Hk). destruct (sm_get (s_vehicles s) k) as [v|]; destruct (sm_get (s_vehicles t) k) as [w|]; try exact Gv. destruct Gv as (q & -> & Hq). exists q. split; [reflexivity|exact Hq]. }
    pose proof (logs_rr e1 e2 la va lb vb _ _ _ _ _ _ N1 C1 R1 Li1 Ld1 N2 C2 R2 Li2 Ld2 Gl Gv2 Hc1 Hc2 Ec Hl1 Hl2 Hl Hl') as Hlog. destruct (apply_log_rr _ _ _ _ _ _ Gl Gv2 Hlog) as (G3 & V3).
    destruct (apply_log (la, va) log) as (l3, v3). destruct (apply_log (lb, vb) log') as (l4, v4). cbn [fst snd] in *. destruct (frozen_rr _ _ _ _ V3 Hf) as (V4 & F4). cbn [s_frozen with_acc_update] in *. destruct (apply_frozen v3 (s_frozen s)) as (v5, f5). destruct (apply_frozen v4 (s_frozen t)) as (v6, f6). injection H1 as <-. injection H2 as <-. cbn. auto.
  Qed.

  (** ** Traffic lights *)
  Lemma mlinks_step l dt l' : light_step l dt = Ok l' -> l_mlinks l' = l_mlinks l.
  Proof. intros H. apply light_step_ok in H. destruct H as (p0 & p & _ & _ & _ & _ & _ & E & _). exact E. Qed.
  Lemma states_in l sts : get_states l = Ok sts -> forall kc, In kc sts -> exists il, In il (l_mlinks l) /\ fst kc = snd il.
  Proof.
    intros H kc Hk. unfold get_states in H. revert sts H Hk. generalize (l_mlinks l) as ms. induction ms as [|m ms IH]; intros sts H Hk; cbn [mapM] in H; [injection H as <-; destruct Hk|]. bok H a Ha. bok H sts1 H1. injection H as <-. bok Ha mv Hm. injection Ha as <-. destruct Hk as [<-|Hk]; [exists m; split; [left|]; reflexivity|]. destruct (IH _ H1 Hk) as (il & Hi & E). exists il. split; [right; exact Hi|exact E].
  Qed.
  Definition lights_al (a b : slotmap light) : Prop := aligned (fun _ l => light_on_part part l) (fun _ => eq) a b.
  Lemma not_on l : light_on_part part l = false -> forall il, In il (l_mlinks l) -> part (snd il) = false.
  Proof. unfold light_on_part. intros H il Hi. destruct (part (snd il)) eqn:E; [|reflexivity]. rewrite <- H. symmetry. apply existsb_exists. exists il. auto. Qed.
  Definition lightc (ls : slotmap light) : Prop := forall k l i j, sm_get ls k = Some l -> In i (l_mlinks l) -> In j (l_mlinks l) -> part (snd i) = part (snd j).
  Lemma is_on ls k l : lightc ls -> sm_get ls k = Some l -> light_on_part part l = true -> forall il, In il (l_mlinks l) -> part (snd il) = true.
  Proof. intros Hc G H il Hi. unfold light_on_part in H. apply existsb_exists in H. destruct H as (j & Hj & E). rewrite (Hc k l il j G Hi Hj). exact E. Qed.
  Lemma states_foreign sts L L' : (forall kc, In kc sts -> part (fst kc) = false) -> foldM (fun links (kc : key * control) => upd_link links (fst kc) (fun l => Ok (set_control l (snd kc)))) sts L = Ok L' -> agree L L'.
  Proof.
    revert L. induction sts as [|kc sts IH]; intros L Hp H; cbn [foldM] in H; [injection H as <-; apply agree_refl|]. bok H L1 H1. eapply agree_trans; [eapply upd_foreign; [|exact H1]; apply Hp; left; reflexivity|]. apply IH; [|exact H]. intros x Hx. apply Hp. right. exact Hx.
  Qed.
  Lemma lights_rr s t dt s' t' : lightc (s_lights s) -> agree (s_links s) (s_links t) -> lights_al (s_lights s) (s_lights t) -> update_lights s dt = Ok s' -> update_lights t dt = Ok t' -> agree (s_links s') (s_links t') /\ lights_al (s_lights s') (s_lights t').
  Proof.
    intros Lc Ga Gl H1 H2. unfold update_lights in H1, H2. bok H1 x Hx. bok H2 y Hy. destruct x as (la, ma). destruct y as (lb, mb). injection H1 as <-. injection H2 as <-. cbn [s_links s_lights fst snd].
    refine (mapS_two (fun _ l => light_on_part part l) agree (fun _ => eq) (fun _ => eq) _ _ _ _ _ _ _ _ _ _ Hx Hy Gl Ga _ _ _).
    - intros a b k l a' l' G Hk E H. cbn beta in H. bok H l1 Hl1. bok H sts Hs. bok H a2 Ha. injection H as <- <-. pose proof (mlinks_step _ _ _ Hl1) as Em. split.
      + apply states_foreign in Ha; [exact (agree_trans _ _ _ (agree_sym _ _ Ha) E)|]. intros kc Hkc. destruct (states_in _ _ Hs _ Hkc) as (il & Hi & ->). rewrite Em in Hi. exact (not_on _ Hk _ Hi).
      + unfold light_on_part in *. rewrite Em. exact Hk.
    - intros a b k l a' l' G Hk E H. cbn beta in H. bok H l1 Hl1. bok H sts Hs. bok H a2 Ha. injection H as <- <-. pose proof (mlinks_step _ _ _ Hl1) as Em. split.
      + apply states_foreign in Ha; [exact (agree_trans _ _ _ E Ha)|]. intros kc Hkc. destruct (states_in _ _ Hs _ Hkc) as (il & Hi & ->). rewrite Em in Hi. exact (not_on _ Hk _ Hi).
      + unfold light_on_part in *. rewrite Em. exact Hk.
    - intros a b k l w a' l' b' w' G _ Hk _ <- E Ha Hb. cbn beta in Ha, Hb. bok Ha l1 Hl1. bok Ha sts Hs. bok Ha a2 Ha2. injection Ha as <- <-. rewrite Hl1 in Hb. cbn [bind] in Hb. rewrite Hs in Hb. cbn [bind] in Hb. bok Hb y2 Hb2. injection Hb as <- <-. pose proof (mlinks_step _ _ _ Hl1) as Em.
      split; [|split; [reflexivity|unfold light_on_part in *; rewrite Em; auto]]. refine (rr_foldM agree _ _ sts _ a b E _ _ Ha2 Hb2). intros x y kc Hkc Hxy. destruct (states_in _ _ Hs _ Hkc) as (il & Hi & Ef). rewrite Em in Hi. apply upd_rr; [rewrite Ef; exact (is_on _ _ _ Lc G Hk _ Hi)|exact Hxy|]. intros z _. apply rr_refl.
  Qed.

  (** ** Moving on *)
  Lemma advance_foreign e L v L' k lid b v' : part lid = false -> v_link v = Some lid -> advance e L v = Ok (b, v') -> upd_link L lid (fun l => Ok (remove_vehicle k l)) = Ok L' -> agree L L'.
  Proof. intros Hp _ _ H. exact (upd_foreign _ _ _ _ Hp H). Qed.
  Lemma advance_rr e1 e2 L1 L2 v q : net_ok L1 -> closed L1 -> agree L1 L2 -> same_ties part e1 e2 -> (forall x, In x (v_route v) -> part x = true) -> v_destination v = null_key \/ part (v_destination v) = true -> relo Q (v_queued v) q ->
    rr (fun a b => fst a = fst b /\ VR Q (snd a) (snd b)) (advance e1 L1 v) (advance e2 L2 (set_q v q)).
  Proof.
    intros N C Ga Ti Hr Hd Hq. unfold advance. cbn [set_q v_route v_pos v_pathfind v_entered]. destruct (v_route v) as [|id rest]; [apply rr_ok; cbn [fst snd]; split; [reflexivity|exists q; auto]|].
    apply rr_bind_eq; [apply (get_rr part L1 L2 Ga); apply Hr; left; reflexivity|]. intros l _ _. cbv zeta. destruct (nltb _ _); [|apply rr_ok; cbn [fst snd]; split; [reflexivity|exists q; auto]].
    apply rr_bind_eq. { destruct rest as [|id' rest]; [apply rr_refl|]. apply (origin_rr part L1 L2 N C Ga); auto. apply Hr. right. left. reflexivity. }
    intros pf _ _. destruct (v_entered v); [intros x y Hx; discriminate Hx|]. apply rr_ok. cbn [fst snd]. split; [reflexivity|]. exists q. split; [reflexivity|exact Hq].
  Qed.
  Definition minel (kl : key * key) : bool := CV (fst kl).
  Definition advc (adv : list (key * key)) : Prop := forall kl, In kl adv -> part (snd kl) = CV (fst kl).
  Lemma adv_route e L v b v' : advance e L v = Ok (b, v') -> forall x, In x (v_route v') -> In x (v_route v).
  Proof.
    unfold advance. intros H x Hx. destruct (v_route v) as [|id rest] eqn:Er; [injection H as <- <-; rewrite <- Er; exact Hx|]. bok H l Hl. destruct (nltb _ _); [|injection H as <- <-; rewrite <- Er; exact Hx]. bok H pf Hpf. destruct (v_entered v); [discriminate H|]. injection H as <- <-. right. exact Hx.
  Qed.
  Lemma adv_u e L adv ex k v L' adv' ex' v' : (forall x, In x (v_route v) -> part x = CV k) -> advance_one e (L, (adv, ex)) k v = Ok ((L', (adv', ex')), v') ->
    same_net L L' /\ (listc L -> listc L') /\ (advc adv -> advc adv') /\ (CV k = false -> agree L L' /\ filter minel adv' = filter minel adv /\ filter CV ex' = filter CV ex).
  Proof.
    intros Hr H. unfold advance_one in H. bok H lid Hl. apply of_option_ok in Hl. pose proof (Hr _ (hd_error_in _ _ Hl)) as Pl. bok H bv Hb. destruct bv as (b, w). cbn [fst snd] in H. pose proof (adv_route _ _ _ _ _ Hb) as Hw. destruct b.
    2: { injection H as <- <- <- <-. split; [apply same_net_refl|]. split; [auto|]. split; [auto|]. intros _. split; [apply agree_refl|auto]. }
    bok H L1 H1. assert (same_net L L1 /\ (listc L -> listc L1) /\ (CV k = false -> agree L L1)) as (K1 & K2 & K3).
    { split; [exact (remove_same _ _ _ _ H1)|]. split; [exact (remove_listc _ _ _ _ H1)|]. intros Hk. apply (upd_foreign _ _ _ _ (eq_trans Pl Hk) H1). }
    destruct (v_link w) as [lid'|] eqn:El; injection H as <- <- <- <-; (split; [exact K1|]); (split; [exact K2|]).
    - split; [|intros Hk; split; [exact (K3 Hk)|split; [|reflexivity]]].
      + intros Ha kl Hkl. apply in_app_iff in Hkl. destruct Hkl as [Hkl|[<-|[]]]; [exact (Ha _ Hkl)|]. cbn [fst snd]. apply Hr. apply Hw. exact (hd_error_in _ _ El).
      + rewrite filter_app. cbn [filter]. unfold minel at 2. cbn [fst]. rewrite Hk. apply app_nil_r.
    - split; [auto|]. intros Hk. split; [exact (K3 Hk)|]. split; [reflexivity|]. rewrite filter_app. cbn [filter]. rewrite Hk. apply app_nil_r.
  Qed.
  Lemma adv_one_rr e1 e2 L1 L2 adv1 adv2 ex1 ex2 k v q : net_ok L1 -> closed L1 -> agree L1 L2 -> same_ties part e1 e2 -> CV k = true -> (forall x, In x (v_route v) -> part x = CV k) -> v_destination v = null_key \/ part (v_destination v) = true -> relo Q (v_queued v) q ->
    filter minel adv1 = filter minel adv2 -> filter CV ex1 = filter CV ex2 ->
    rr (fun a b => agree (fst (fst a)) (fst (fst b)) /\ filter minel (fst (snd (fst a))) = filter minel (fst (snd (fst b))) /\ filter CV (snd (snd (fst a))) = filter CV (snd (snd (fst b))) /\ VR Q (snd a) (snd b))
      (advance_one e1 (L1, (adv1, ex1)) k v) (advance_one e2 (L2, (adv2, ex2)) k (set_q v q)).
  Proof.
    intros N C Ga Ti Hk Hr Hd Hq Ea Ee. unfold advance_one. apply rr_bind_eq; [apply rr_refl|]. intros lid Hl _. apply of_option_ok in Hl. pose proof (Hr _ (hd_error_in _ _ Hl)) as Pl. rewrite Hk in Pl, Hr.
    apply (rr_bind (fun a b => fst a = fst b /\ VR Q (snd a) (snd b))); [apply advance_rr; auto|]. intros (b1, w1) (b2, w2) (E & Hw) _ _. cbn [fst snd] in *. subst b2. destruct b1; [|apply rr_ok; cbn [fst snd]; auto].
    apply (rr_bind agree); [apply upd_rr; [exact Pl|exact Ga|intros; apply rr_refl]|]. intros a b Gab _ _. pose proof Hw as (q' & -> & _). change (v_link (set_q w1 q')) with (v_link w1). destruct (v_link w1); apply rr_ok; cbn [fst snd]; (split; [exact Gab|]); (split; [|split; [|exact Hw]]); auto; rewrite !filter_app; congruence.
  Qed.
  Lemma mem_filter k l1 l2 : CV k = true -> filter CV l1 = filter CV l2 -> key_mem k l1 = key_mem k l2.
  Proof. intros Hk E. pose proof (key_mem_filter k CV l1) as H1. pose proof (key_mem_filter k CV l2) as H2. rewrite Hk, andb_true_r in H1, H2. rewrite <- H1, <- H2, E. reflexivity. Qed.
  Lemma advances_rr e1 e2 s t s' t' : U s -> U t -> tripc (s_vehicles s) -> same_ties part e1 e2 -> agree (s_links s) (s_links t) -> vagree Q (s_vehicles s) (s_vehicles t) -> advance_vehicles e1 s = Ok s' -> advance_vehicles e2 t = Ok t' ->
    agree (s_links s') (s_links t') /\ vagree Q (s_vehicles s') (s_vehicles t').
  Proof.
    intros (S1 & C1 & R1) (S2 & C2 & R2) Tr Ti Ga Gv H1 H2. unfold advance_vehicles in H1, H2. bok H1 x Hx. bok H2 y Hy. destruct x as ((la, (adv1, ex1)), va). destruct y as ((lb, (adv2, ex2)), vb). bok H1 la2 Hl1. bok H2 lb2 Hl2. injection H1 as <-. injection H2 as <-. cbn [s_links s_vehicles with_links with_vehicles].
    pose proof (st_net _ _ _ S1) as N1. apply vagree_al in Gv.
    destruct (mapS_two (fun k _ => CV k) (fun a b => agree (fst a) (fst b) /\ filter minel (fst (snd a)) = filter minel (fst (snd b)) /\ filter CV (snd (snd a)) = filter CV (snd (snd b)) /\ same_net (s_links s) (fst a) /\ listc (fst a) /\ advc (fst (snd a)) /\ advc (fst (snd b)))
      (fun _ => VR Q) (fun _ => VR Q) _ _ _ _ _ _ _ _ _ _ Hx Hy Gv) as ((Gl & Ea & Ee & Sn & Li & Ad1 & Ad2) & Al).
    - cbn [fst snd]. split; [exact Ga|]. split; [reflexivity|]. split; [reflexivity|]. split; [apply same_net_refl|]. split; [exact (U_list _ _ _ S1 R1)|]. split; intros ? [].
    - intros (a, (a1, a2)) (b, (c1, c2)) k v (a', (a1', a2')) v' G Hk (K1 & K2 & K3 & K4 & K5 & K6 & K7) H. cbn [fst snd] in *. split; [|exact Hk]. destruct (adv_u _ _ _ _ _ _ _ _ _ _ (fun x Hx => R1 _ _ x G Hx) H) as (M1 & M2 & M3 & M4). destruct (M4 Hk) as (M5 & M6 & M7).
      split; [exact (agree_trans _ _ _ (agree_sym _ _ M5) K1)|]. split; [congruence|]. split; [congruence|]. split; [eapply same_net_trans; eauto|]. auto.
    - intros (a, (a1, a2)) (b, (c1, c2)) k v (b', (c1', c2')) v' G Hk (K1 & K2 & K3 & K4 & K5 & K6 & K7) H. cbn [fst snd] in *. split; [|exact Hk]. destruct (adv_u _ _ _ _ _ _ _ _ _ _ (fun x Hx => R2 _ _ x G Hx) H) as (M1 & M2 & M3 & M4). destruct (M4 Hk) as (M5 & M6 & M7).
      split; [exact (agree_trans _ _ _ K1 M5)|]. split; [congruence|]. split; [congruence|]. auto.
    - intros (a, (a1, a2)) (b, (c1, c2)) k v w (a', (a1', a2')) v' (b', (c1', c2')) w' G1 G2 Hk _ (q & -> & Hq) (K1 & K2 & K3 & K4 & K5 & K6 & K7) Ha Hb. cbn [fst snd] in *.
      destruct (adv_u _ _ _ _ _ _ _ _ _ _ (fun x Hx => R1 _ _ x G1 Hx) Ha) as (M1 & M2 & M3 & _). destruct (adv_u _ _ _ _ _ _ _ _ _ _ (fun x Hx => R2 _ _ x G2 Hx) Hb) as (_ & _ & P3 & _).
      destruct (adv_one_rr e1 e2 a b a1 c1 a2 c2 k v q (same_net_ok _ _ K4 N1) (closed_same part _ _ K4 C1) K1 Ti Hk (fun x Hx => R1 _ _ x G1 Hx) (Tr _ _ Hk G1) Hq K2 K3 _ _ Ha Hb) as (E1 & E2 & E3 & E4). cbn [fst snd] in *.
      split; [|auto]. split; [exact E1|]. split; [exact E2|]. split; [exact E3|]. split; [eapply same_net_trans; eauto|]. auto.
    - cbn [fst snd] in *. apply vagree_al in Al. split.
      + refine (proj1 (foldM_align minel _ _ (fun a b => agree a b /\ listc a) adv1 adv2 Ea _ _ _ la lb la2 lb2 (conj Gl Li) Hl1 Hl2)).
        * intros a b kl a' Hin Hm (K1 & K2) H. cbn beta in H. pose proof (Ad1 _ Hin) as Pc. unfold minel in Hm. split; [|exact (insert_listc _ _ _ _ _ H Pc K2)]. apply upd_foreign in H; [exact (agree_trans _ _ _ (agree_sym _ _ H) K1)|congruence].
        * intros a b kl b' Hin Hm (K1 & K2) H. cbn beta in H. pose proof (Ad2 _ Hin) as Pc. unfold minel in Hm. split; [|exact K2]. apply upd_foreign in H; [exact (agree_trans _ _ _ K1 H)|congruence].
        * intros a b kl a' b' Hin _ Hm (K1 & K2) Ha Hb. cbn beta in Ha, Hb. pose proof (Ad1 _ Hin) as Pc. unfold minel in Hm. rewrite Hm in Pc. split; [|exact (insert_listc _ _ _ _ _ Ha (eq_trans Pc (eq_sym Hm)) K2)].
          refine (upd_rr _ _ _ _ _ Pc K1 _ _ _ Ha Hb). intros l G. apply insert_rr; [exact Al|exact Hm|]. intros x Hx'. rewrite (K2 _ _ _ G Hx'). exact Pc.
      + intros k Hk. rewrite !sm_get_fold_remove, (mem_filter k ex1 ex2 Hk Ee). destruct (key_mem k ex2); [exact Logic.I|]. exact (Al k Hk).
  Qed.
  Lemma coords_rr s t s' t' : U s -> agree (s_links s) (s_links t) -> vagree Q (s_vehicles s) (s_vehicles t) -> update_vehicle_coords s = Ok s' -> update_vehicle_coords t = Ok t' -> vagree Q (s_vehicles s') (s_vehicles t').
  Proof.
    intros (S1 & C1 & R1) Ga Gv H1 H2. unfold update_vehicle_coords in H1, H2. bok H1 x Hx. bok H2 y Hy. destruct x as (u1, va). destruct y as (u2, vb). injection H1 as <-. injection H2 as <-. cbn [s_vehicles with_vehicles snd]. apply vagree_al in Gv. apply vagree_al.
    refine (proj2 (mapS_two (fun k _ => CV k) (fun _ _ : unit => True) (fun _ => VR Q) (fun _ => VR Q) _ _ _ _ _ _ _ _ _ _ Hx Hy Gv Logic.I _ _ _)); auto.
    intros a b k v w a' v' b' w' G1 G2 Hk _ (q & -> & Hq) _ Ha Hb. cbn beta in Ha, Hb. bok Ha v1 Hv1. injection Ha as <- <-. bok Hb w1 Hw1. injection Hb as <- <-. split; [exact Logic.I|]. split; [|auto]. revert v1 w1 Hv1 Hw1.
    change (rr (VR Q) (update_coords (s_links s) v) (update_coords (s_links t) (set_q v q))). unfold update_coords. apply rr_bind_eq; [apply rr_refl|]. intros id Hi _. apply of_option_ok in Hi. apply rr_bind_eq; [apply (get_rr part _ _ Ga); rewrite (root_of _ R1 _ _ _ G1 Hi); exact Hk|]. intros l _ _. cbv zeta. cbn [set_q v_lane_change v_pos].
    destruct (match v_lane_change v with Some lc => _ | None => _ end) as (ps, off). apply rr_ok. exists q. split; [reflexivity|exact Hq].
  Qed.
  End Two.

  (** ** Joining a queue *)
  Record good (Q : nat -> nat -> Prop) (a b : nat) : Prop := {
    g_zero : Q 0 0;
    g_lt : forall x x' y y', Q x x' -> Q y y' -> (x < y <-> x' < y');
    g_max : forall x x', Q x x' -> x <= a /\ x' <= b
  }.
  Lemma VR_mono (Q Q' : nat -> nat -> Prop) v w : (forall x y, Q x y -> Q' x y) -> VR Q v w -> VR Q' v w.
  Proof. intros H (q & -> & Hq). exists q. split; [reflexivity|]. destruct (v_queued v); destruct q; auto. exact (H _ _ Hq). Qed.
  Lemma integrate_seq v dt a a' v' : integrate v dt a = Ok (a', v') -> a <= a'.
  Proof. unfold integrate. intros H. bok H x Hx. destruct x as (q & en & qu). injection H as <- _. unfold integrate_queue in Hx. destruct (v_flag v) as [|[|[|n]]]; try discriminate Hx; injection Hx as <- _ _; lia. Qed.
  Lemma integrate_rr Q s t dt s' t' : good Q (s_seq s) (s_seq t) -> vagree Q (s_vehicles s) (s_vehicles t) -> sim_integrate s dt = Ok s' -> sim_integrate t dt = Ok t' ->
    exists Q', good Q' (s_seq s') (s_seq t') /\ vagree Q' (s_vehicles s') (s_vehicles t').
  Proof.
    intros Gd Gv H1 H2. unfold sim_integrate in H1, H2. bok H1 x Hx. bok H2 y Hy. destruct x as (a, va). destruct y as (b, vb). injection H1 as <-. injection H2 as <-. cbn [s_vehicles s_seq fst snd]. apply vagree_al in Gv.
    destruct (mapS_align (G := nat -> nat -> Prop) (fun Q Q' => forall x y, Q x y -> Q' x y) (fun _ _ _ H => H) (fun _ _ _ K1 K2 x y H => K2 x y (K1 x y H)) (fun k _ => CV k)
      (fun seq (_ : key) v => integrate v dt seq) (fun seq (_ : key) v => integrate v dt seq) (fun Q' a b => good Q' a b /\ forall x y, Q x y -> Q' x y) (fun _ => VR Q) (fun Q' _ => VR Q') (fun _ _ _ v w H => VR_mono _ _ v w H) (fun _ _ => True) (fun _ _ => True))
      with (m1 := s_vehicles s) (m2 := s_vehicles t) (g := Q) (s := s_seq s) (t := s_seq t) (s' := a) (t' := b) (m1' := va) (m2' := vb) as (Q' & _ & (Gd' & _) & Al); auto.
    - intros Q1 x y k v x' v' _ Hk ([Z L M] & E) H. split; [|exact Hk]. split; [|exact E]. apply integrate_seq in H. split; auto. intros p q Hpq. destruct (M _ _ Hpq). lia.
    - intros Q1 x y k v x' v' _ Hk ([Z L M] & E) H. split; [|exact Hk]. split; [|exact E]. apply integrate_seq in H. split; auto. intros p q Hpq. destruct (M _ _ Hpq). lia.
    - intros Q1 x y k v w x' v' y' w' _ _ Hk _ (q & -> & Hq) ([Z L M] & E) Ha Hb. unfold integrate, integrate_queue in Ha, Hb. cbn [set_q v_flag v_entered v_queued] in Hb. destruct (v_flag v) as [|[|[|n]]]; try discriminate Ha; cbn [bind] in Ha, Hb; injection Ha as <- <-; injection Hb as <- <-.
      + exists Q1. split; [auto|]. split; [split; [split; auto|exact E]|]. split; [|auto]. exists q. split; [reflexivity|]. cbn [v_queued]. destruct (v_queued v); destruct q; auto. exact (E _ _ Hq).
      + exists (fun p r => Q1 p r \/ p = S x /\ r = S y). split; [intros p r Hpr; left; exact Hpr|]. split.
        * split; [|intros p r Hpr; left; exact (E _ _ Hpr)]. split; [left; exact Z| |].
          -- intros p p' r r' [Hp1|(-> & ->)] [Hr1|(-> & ->)]; [exact (L _ _ _ _ Hp1 Hr1)| | |lia]; [destruct (M _ _ Hp1)|destruct (M _ _ Hr1)]; lia.
          -- intros p r [Hpr|(-> & ->)]; [destruct (M _ _ Hpr)|]; lia.
        * split; [|auto]. exists (match q with Some q0 => Some q0 | None => Some (S y) end). split; [reflexivity|]. cbn [v_queued]. destruct (v_queued v); destruct q; try destruct Hq; cbn [relo]; [left; exact (E _ _ Hq)|right; auto].
      + exists Q1. split; [auto|]. split; [split; [split; auto|exact E]|]. split; [|auto]. exists None. split; [reflexivity|exact Logic.I].
    - exists Q'. split; [exact Gd'|]. apply vagree_al. exact Al.
  Qed.
End LocSim.
