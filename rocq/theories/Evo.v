(** * What each phase of a step does to each vehicle *)
From Coq Require Import List Bool ZArith NArith Arith Lia.
From Verif Require Import Arith Base BaseProofs SlotMap Util Geom Light Accel Net Path Vehicle LinkOps Sim SpecSim SlotMapProofs Safe NetInv SimInv AccSafe SimSafe StepSafe OpSafe LightProofs SpecLight.
Import ListNotations.

Ltac bok H x Hx := apply bind_ok in H; destruct H as (x & Hx & H).

Section Evo.
  Context {A : Arith}.

  (** The parts of a vehicle that routing never touches. *)
  Definition body (v : vehicle) :=
    (v_id v, v_half_wid v, v_half_len v, v_wheel_base v, v_acc v, (v_vel v, v_stop_cnt v, v_queued v, v_flag v, pf_dst (v_pathfind v))).

  Definition Rstay (v v' : vehicle) : Prop :=
    v_link v' = v_link v /\ v_pos v' = v_pos v /\ v_lane_change v' = v_lane_change v /\ v_pathfind v' = v_pathfind v.
  Definition Rmove (links : linkset) (v v' : vehicle) : Prop :=
    exists a b, v_link v = Some a /\ v_link v' = Some b /\ chg_of links a b /\ a <> b.
  (** The links entered afterwards were entered before, or the vehicle is on them. *)
  Definition Rent (v v' : vehicle) : Prop :=
    forall x, In x (firstn (v_entered v') (v_route v')) -> v_link v' = Some x \/ In x (firstn (v_entered v) (v_route v)).
  Definition Rlc (links : linkset) (v v' : vehicle) : Prop :=
    body v' = body v /\ (Rstay v v' \/ Rmove links v v') /\ Rent v v'.

  Lemma Rlc_refl links v : Rlc links v v.
  Proof. split; auto. split; [left; repeat split; auto|]. intros x; auto. Qed.

  Lemma matched_firstn a b n : n <= matched a b -> firstn n b = firstn n a.
  Proof.
    revert b n. induction a as [|x a IH]; intros b n H; [simpl in H; replace n with 0 by lia; reflexivity|].
    destruct b as [|y b]; [simpl in H; replace n with 0 by lia; reflexivity|]. simpl in H. destruct (key_eqb_spec x y); [|replace n with 0 by lia; reflexivity].
    subst. destruct n; [reflexivity|]. simpl. f_equal. apply IH. lia.
  Qed.
  Lemma firstn_le_in {X} n m (l : list X) x : n <= m -> In x (firstn n l) -> In x (firstn m l).
  Proof. revert m l. induction n; intros m l H Hi; [destruct Hi|]. destruct l; [destruct Hi|]. destruct m; [lia|]. simpl in *. destruct Hi; auto. right. eapply IHn; eauto. lia. Qed.
  Lemma set_path_ent v p : Rent v (set_path v p).
  Proof.
    intros x. cbn [v_entered v_route set_path]. rewrite (matched_firstn (v_route v)) by lia. intros H. right. eapply firstn_le_in; [|exact H]. lia.
  Qed.
  Lemma set_path_ent1 v1 p b v : v_entered v1 = 1 -> hd_error (pt_links p) = Some b -> Rent v (set_path v1 p).
  Proof.
    intros E Hh x. unfold v_link. cbn [v_entered v_route set_path]. rewrite E. intros H. left. eapply firstn_le_in with (m := 1) in H; [|lia].
    destruct (pt_links p) as [|y l]; [discriminate Hh|]. simpl in H. destruct H as [<-|[]]. reflexivity.
  Qed.

  (** ** Lane changes *)
  Lemma set_origin_dst e links pf id pf' : set_origin e links pf id = Ok pf' -> pf_dst pf' = pf_dst pf /\ pf_src pf' = id.
  Proof.
    unfold set_origin. intros H. apply bind_ok in H. destruct H as (x & Hx & H).
    assert (pf_dst x = pf_dst pf /\ pf_src x = id) as (D & S).
    { cbn [pf_matrix] in Hx. destruct (mx_get (pf_matrix pf) id).
      - inversion Hx; auto.
      - unfold reroute in Hx. cbn [pf_src pf_dst pf_paths pf_matrix] in Hx. destruct (_ || _); [inversion Hx; auto|].
        apply bind_ok in Hx. destruct Hx as (dl & _ & Hx). apply bind_ok in Hx. destruct Hx as (dsts & _ & Hx).
        apply bind_ok in Hx. destruct Hx as (r & _ & Hx). destruct r as [[route c]|]; [|inversion Hx; auto].
        apply bind_ok in Hx. destruct Hx as (m & _ & Hx). inversion Hx; auto. }
    unfold make_paths in H. inv_bind. try (inversion H; subst). simpl. auto.
  Qed.
  Lemma set_location_body e links v id pos lc v' : set_location e links v id pos lc = Ok v' ->
    body v' = body v /\ v_link v' = Some id /\ v_pos v' = pos /\ v_lane_change v' = lc /\
    v_world_pos v' = v_world_pos v /\ v_world_dir v' = v_world_dir v /\ v_can_exit v' = false /\ v_entered v' = 1 /\ v_route v' = [id].
  Proof.
    unfold set_location. intros H. inv_bind. apply set_origin_dst in Hx. destruct Hx as (D & _). try (inversion H; subst).
    unfold body. cbn. rewrite D. auto 12.
  Qed.

  Lemma do_lane_change_ok e s id lid dist s' : do_lane_change e s id lid dist = Ok s' ->
    exists v v' links l pos off slope, sm_get (s_vehicles s) id = Some v /\
      sm_get links lid = Some l /\ (exists k, match v_link v with Some cur => upd_link (s_links s) cur (fun l => Ok (remove_vehicle k l)) = Ok links | None => links = s_links s end /\ k = id) /\
      inverse_sample (lk_curve l) (v_world_pos v) (v_world_dir v) = Ok (Some (pos, off, slope)) /\
      set_location e links v lid pos (Some (LaneChg (nadd pos dist) (cubic_fit pos off slope (nadd pos dist) n0 n0))) = Ok v' /\
      s' = with_links (with_vehicles s (sm_set (s_vehicles s) id v')) (s_links s').
  Proof.
    unfold do_lane_change. intros H. bok H x Hx. bok H x0 Hx0. bok H x1 Hx1. bok H x2 Hx2. unfold get_vehicle in Hx. destruct (sm_get (s_vehicles s) id) as [v|]; [|discriminate].
    inversion Hx; subst x. unfold get_link in Hx1. destruct (sm_get x0 lid) as [l|] eqn:Gl; [|discriminate]. inversion Hx1; subst x1.
    bok H x2' Hx3. destruct x2 as [[[pos off] slope]|]; [|discriminate]. injection Hx3 as <-. bok H x Hx'. bok H x1 Hx1'. injection H as <-.
    exists v, x, x0, l, pos, off, slope. repeat split; auto.
    exists id. split; auto. destruct (v_link v); auto. inversion Hx0; auto.
  Qed.

  Lemma set_path_body v p : body (set_path v p) = body v. Proof. reflexivity. Qed.

  Lemma choose_path_in links v p : choose_path links v = Ok (Some p) -> In p (pf_paths (v_pathfind v)) /\ v_lane_change v = None.
  Proof.
    unfold choose_path. destruct (v_lane_change v); [discriminate|]. intros H. bok H x Hx.
    assert (forall pc, In pc x -> In (fst pc) (pf_paths (v_pathfind v))) as K.
    { clear H. revert x Hx. induction (pf_paths (v_pathfind v)) as [|q l IH]; intros x Hx; simpl in Hx.
      - injection Hx as <-. simpl. tauto.
      - bok Hx c Hc. bok Hc d Hd. injection Hc as <-. bok Hx r Hr. injection Hx as <-. simpl. intros pc [<-|Hin]; auto. right. eapply IH; eauto. }
    destruct x as [|y l]; [discriminate|]. destruct (keys_eqb _ _); try (inversion H; subst). split; auto.
    destruct (min_by_key_in y l) as [->|(c & Hin)]; [apply K; simpl; auto|]. apply (K (min_by_key y l, c)). simpl; auto.
  Qed.

  Lemma choose_all_evo links seq vs acc vs1 : St links vs seq -> sm_mapS (choose_one links) vs [] = Ok (acc, vs1) ->
    (forall k v', sm_get vs1 k = Some v' -> exists v, sm_get vs k = Some v /\ body v' = body v /\ (Rstay v v' /\ Rent v v') /\
        (In k (map fst acc) -> v' = v)) /\
    NoDup (map fst acc) /\
    (forall k p, In (k, p) acc -> exists v a b, sm_get vs k = Some v /\ v_link v = Some a /\ hd_error (pt_links p) = Some b /\ chg_of links a b /\ a <> b).
  Proof.
    intros [N W V O] H.
    pose proof (sm_mapS_ind (choose_one links) (fun done todo acc =>
      NoDup (map fst (done ++ todo)) /\
      (forall k v, In (k, v) todo -> sm_get vs k = Some v) /\
      (forall k v', In (k, v') done -> exists v, sm_get vs k = Some v /\ body v' = body v /\ (Rstay v v' /\ Rent v v') /\ (In k (map fst acc) -> v' = v)) /\
      NoDup (map fst acc) /\ (forall k, In k (map fst acc) -> In k (map fst done)) /\
      (forall k p, In (k, p) acc -> exists v a b, sm_get vs k = Some v /\ v_link v = Some a /\ hd_error (pt_links p) = Some b /\ chg_of links a b /\ a <> b))) as K.
    specialize (K vs [] acc vs1). destruct K as (_ & _ & K1 & K2 & _ & K3); auto.
    - intros done k v todo acc0 acc1 v' (P1 & P2 & P3 & P4 & P5 & P6) Hc.
      assert (sm_get vs k = Some v) as Gk by (apply P2; simpl; auto). pose proof (V _ _ Gk) as B.
      assert (~ In k (map fst done)) as Kd.
      { rewrite map_app in P1. simpl in P1. apply NoDup_remove_2 in P1. rewrite in_app_iff in P1. tauto. }
      assert (forall v1, map fst ((done ++ [(k, v1)]) ++ todo) = map fst (done ++ (k, v) :: todo)) as Em.
      { intros. rewrite !map_app. simpl. rewrite <- app_assoc. auto. }
      rewrite Em. split; auto. split; [intros; apply P2; simpl; auto|].
      unfold choose_one in Hc. bok Hc x Hx.
      assert (acc1 = acc0 /\ (v' = v \/ exists p, v' = set_path v p /\ v_link v = hd_error (pt_links p)) \/
              v' = v /\ exists p a b, acc1 = acc0 ++ [(k, p)] /\ v_link v = Some a /\ hd_error (pt_links p) = Some b /\ chg_of links a b /\ a <> b) as D.
      { destruct x as [p|]; [|inversion Hc; auto]. bok Hc x Hx0. bok Hc x0 Hx1.
        destruct (v_link v) as [a|] eqn:Hl; [|discriminate]. inversion Hx0; subst x.
        destruct (hd_error (pt_links p)) as [b|] eqn:Hh; [|discriminate]. inversion Hx1; subst x0.
        destruct (key_eqb_spec a b); simpl in Hc; inversion Hc; subst.
        - left. split; auto. right. exists p. rewrite Hh. auto.
        - right. split; auto. exists p, a, b. rewrite (vb_id _ _ _ _ B). repeat split; auto.
          apply choose_path_in in Hx. destruct Hx as (Hin & _). pose proof (vb_paths _ _ _ _ B) as F. rewrite Forall_forall in F.
          destruct (F _ Hin) as (first & (_ & Hf & _) & [Heq|Hc']).
          + exfalso. destruct (vbase_link _ _ _ _ B) as (x & Hx & _ & Hs). congruence.
          + destruct (vbase_link _ _ _ _ B) as (x & Hx & _ & Hs). congruence. }
      destruct D as [(-> & D)|(-> & p & a & b & -> & D)].
      + split; [|split; [|split]]; auto.
        * intros k1 v1 Hin. apply in_app_iff in Hin. destruct Hin as [Hin|[Hin|[]]]; auto. inversion Hin; subst k1 v1.
          exists v. split; auto.
          destruct D as [->|(p & -> & Hp)].
          -- split; auto. split; auto. split; [repeat split; auto|intros x0; auto].
          -- split; [reflexivity|]. split; [split; [repeat split; auto|apply set_path_ent]|]. intros Hacc. apply P5 in Hacc. tauto.
        * intros k1 Hin. rewrite map_app, in_app_iff. auto.
      + split; [|split; [|split]].
        * intros k1 v1 Hin. apply in_app_iff in Hin. destruct Hin as [Hin|[Hin|[]]].
          -- destruct (P3 _ _ Hin) as (v0 & G0 & B0 & S0 & E0). exists v0. repeat (split; auto).
             rewrite map_app, in_app_iff. simpl. intros [|[<-|[]]]; auto. exfalso. apply Kd. eapply in_fst_map; eauto.
          -- inversion Hin; subst. exists v1. split; auto. split; auto. split; auto. split; [repeat split; auto|intros x0; auto].
        * rewrite map_app. simpl. apply NoDup_app_intro; auto; [repeat constructor; simpl; tauto|]. intros x' Hx' [<-|[]]. auto.
        * intros k1 Hin. rewrite map_app, in_app_iff in Hin |- *. simpl in Hin |- *. destruct Hin as [Hin|Hin]; auto.
        * intros k1 p1 Hin. apply in_app_iff in Hin. destruct Hin as [Hin|[Hin|[]]]; eauto. inversion Hin; subst. exists v, a, b. auto.
    - split; [apply nodup_keys|]. split; [intros k v Hin; apply in_entries; auto|]. simpl. split; [intros ? ? []|]. split; [constructor|]. split; [intros ? []|intros ? ? []].
    - split; auto. intros k v' Hk. apply K1. apply in_entries. auto.
  Qed.

  Lemma exec_change_evo e s vp s' : exec_change e s vp = Ok s' ->
    exists v v1 b, sm_get (s_vehicles s) (fst vp) = Some v /\ hd_error (pt_links (snd vp)) = Some b /\
      s_vehicles s' = sm_set (sm_set (s_vehicles s) (fst vp) v1) (fst vp) (set_path v1 (snd vp)) /\
      body v1 = body v /\ v_entered v1 = 1.
  Proof.
    unfold exec_change. intros H. bok H x Hx. bok H x0 Hx0. bok H x1 Hx1. apply do_lane_change_ok in Hx0.
    destruct Hx0 as (v & v1 & links & l & pos & off & slope & Gv & _ & _ & _ & Hs & Es).
    destruct (hd_error (pt_links (snd vp))) as [b|]; [|discriminate].
    assert (v_entered v1 = 1) as He by (unfold set_location in Hs; bok Hs pf Hpf; injection Hs as <-; reflexivity).
    apply set_location_body in Hs. destruct Hs as (Hb & _).
    assert (x1 = v1) as ->.
    { unfold get_vehicle in Hx1. rewrite Es in Hx1. simpl in Hx1. rewrite sm_get_set, key_eqb_refl in Hx1. simpl in Hx1.
      replace (sm_mem (s_vehicles s) (fst vp)) with true in Hx1 by (symmetry; apply sm_mem_get; eauto). inversion Hx1; auto. }
    try (inversion H; subst s'). simpl. exists v, v1, b. repeat split; auto. rewrite Es. reflexivity.
  Qed.

  Lemma lane_changes_evo e s s' : St (s_links s) (s_vehicles s) (s_seq s) -> calculate_lane_changes e s = Ok s' ->
    forall k v', sm_get (s_vehicles s') k = Some v' -> exists v, sm_get (s_vehicles s) k = Some v /\ Rlc (s_links s) v v'.
  Proof.
    intros S H. unfold calculate_lane_changes in H. destruct (nltb _ _).
    { try (inversion H; subst). intros k v' Hk. exists v'. split; auto. apply Rlc_refl. }
    bok H x Hx. destruct x as [acc vs1]. simpl in *. destruct (choose_all_evo _ _ _ _ _ S Hx) as (K1 & K2 & K3).
    set (s1 := with_vehicles (with_lc_update s n0) vs1) in *.
    assert (forall acc' s2 s3, foldM (exec_change e) acc' s2 = Ok s3 -> NoDup (map fst acc') -> incl acc' acc ->
      (forall k v', sm_get (s_vehicles s2) k = Some v' -> exists v, sm_get (s_vehicles s) k = Some v /\ Rlc (s_links s) v v' /\
                        (In k (map fst acc') -> v' = v)) ->
      forall k v', sm_get (s_vehicles s3) k = Some v' -> exists v, sm_get (s_vehicles s) k = Some v /\ Rlc (s_links s) v v') as G.
    { clear H. induction acc' as [|vp acc' IH]; intros s2 s3 Hf Hn Hi Hs; simpl in Hf.
      - inversion Hf; subst. intros k v' Hk. destruct (Hs _ _ Hk) as (v & Gv & R & _). eauto.
      - bok Hf x Hx0. inversion Hn; subst. eapply IH; eauto; [intros z Hz; apply Hi; simpl; auto|].
        intros k v' Hk. apply exec_change_evo in Hx0. destruct Hx0 as (v & v1 & b & Gv & Hb & Es & Bd & En).
        rewrite Es, !sm_get_set, sm_mem_set in Hk.
        destruct (key_eqb_spec (fst vp) k); simpl in Hk.
        + subst k. destruct (sm_mem (s_vehicles s2) (fst vp)) eqn:M.
          * inversion Hk; subst v'. destruct (Hs _ _ Gv) as (v0 & G0 & R0 & E0). specialize (E0 (or_introl eq_refl)). subst v0.
            exists v. split; auto. split; [|tauto]. split.
            -- rewrite set_path_body. auto.
            -- split; [|eapply set_path_ent1; eauto]. right. destruct vp as [k p]. destruct (K3 k p) as (v0 & a & b' & G1 & L1 & Hh1 & C1 & N1); [apply Hi; simpl; auto|].
               simpl in *. assert (v0 = v) by congruence. subst v0. exists a, b'. repeat split; auto.
          * unfold sm_mem in M. rewrite Gv in M. discriminate.
        + destruct (Hs _ _ Hk) as (v0 & G0 & R0 & E0). exists v0. split; auto. split; auto. intros Hin; apply E0; right; auto. }
    eapply G; eauto; [apply incl_refl|]. unfold s1. simpl. intros k v' Hk. destruct (K1 _ _ Hk) as (v & Gv & Bd & (St' & En) & Eq).
    exists v. split; auto. split; auto. split; auto.
  Qed.

  (** ** The other phases *)
  Lemma lights_evo s dt s' : update_lights s dt = Ok s' -> s_vehicles s' = s_vehicles s /\ s_frozen s' = s_frozen s /\
    s_seq s' = s_seq s /\ s_frame s' = s_frame s /\ s_acc_update s' = s_acc_update s /\ s_lc_update s' = s_lc_update s.
  Proof. unfold update_lights. intros H. bok H x Hx. destruct x. injection H as <-. simpl. auto 8. Qed.

  Lemma integrate_evo s dt s' : sim_integrate s dt = Ok s' ->
    (forall k v, sm_get (s_vehicles s) k = Some v -> exists v' q q', sm_get (s_vehicles s') k = Some v' /\ integrate v dt q = Ok (q', v') /\ s_seq s <= q /\ q' <= s_seq s') /\
    (forall k v', sm_get (s_vehicles s') k = Some v' -> exists v q q', sm_get (s_vehicles s) k = Some v /\ integrate v dt q = Ok (q', v') /\ s_seq s <= q /\ q' <= s_seq s') /\
    s' = Sim (s_links s) (s_lights s) (s_conflicts s) (s_vehicles s') (s_frozen s) (s_frame s) (s_seq s') (s_acc_update s) (s_lc_update s).
  Proof.
    unfold sim_integrate. intros H. bok H x Hx. destruct x as [q vs]. injection H as <-. simpl.
    pose proof (sm_mapS_ind (fun q (_ : key) v => integrate v dt q) (fun done todo q =>
      NoDup (map fst (done ++ todo)) /\ s_seq s <= q /\ (forall k v, sm_get (s_vehicles s) k = Some v -> In (k, v) todo \/ exists v' q1 q2, In (k, v') done /\ integrate v dt q1 = Ok (q2, v') /\ s_seq s <= q1 /\ q2 <= q) /\
      (forall k v, In (k, v) todo -> sm_get (s_vehicles s) k = Some v) /\
      (forall k v', In (k, v') done -> exists v q1 q2, sm_get (s_vehicles s) k = Some v /\ integrate v dt q1 = Ok (q2, v') /\ s_seq s <= q1 /\ q2 <= q))) as K.
    specialize (K (s_vehicles s) (s_seq s) q vs). destruct K as (_ & K0 & K1 & _ & K2); auto.
    - intros done k v todo q0 q1 v' (Nd & P0 & P1 & P2 & P3) Hi.
      assert (q0 <= q1) as Hq.
      { unfold integrate, integrate_queue in Hi. destruct (v_flag v) as [|[|[|]]]; simpl in Hi; inversion Hi; lia. }
      split; [|split; [lia|]].
      { revert Nd. rewrite !map_app. simpl. rewrite <- app_assoc. auto. }
      split; [|split].
      + intros k1 v1 G1. destruct (P1 _ _ G1) as [[Hin|Hin]|(v2 & qa & qb & Hin & Hi2 & H3 & H4)]; auto.
        * inversion Hin; subst. right. exists v', q0, q1. rewrite in_app_iff. simpl. auto 8.
        * right. exists v2, qa, qb. rewrite in_app_iff. repeat split; auto. lia.
      + intros; apply P2; simpl; auto.
      + intros k1 v1 Hin. apply in_app_iff in Hin. destruct Hin as [Hin|[Hin|[]]].
        * destruct (P3 _ _ Hin) as (v2 & qa & qb & H1 & H2 & H3 & H4). exists v2, qa, qb. repeat split; auto. lia.
        * inversion Hin; subst. exists v, q0, q1. repeat split; auto. apply P2. simpl; auto.
    - split; [apply nodup_keys|]. split; auto. split; [intros k v Hk; left; apply in_entries; auto|]. split; [intros k v Hk; apply in_entries; auto|]. simpl; tauto.
    - split; [|split; auto].
      + intros k v Hk. destruct (K1 _ _ Hk) as [[]|(v' & qa & qb & Hin & Hr)]. apply in_entries in Hin. eauto 8.
      + intros k v' Hk. apply K2. apply in_entries. auto.
  Qed.

  Lemma integrate_ok v dt q q' v' : integrate v dt q = Ok (q', v') ->
    v_id v' = v_id v /\ v_half_wid v' = v_half_wid v /\ v_half_len v' = v_half_len v /\ v_wheel_base v' = v_wheel_base v /\
    v_acc v' = v_acc v /\ v_pathfind v' = v_pathfind v /\ v_route v' = v_route v /\ v_can_exit v' = v_can_exit v /\
    v_vel v' = new_vel v dt /\ v_pos v' = new_pos v dt /\ v_flag v' = 0.
  Proof.
    unfold integrate. intros H. bok H x Hx. destruct x as [a [b c]]. injection H as <- <-. cbn. auto 15.
  Qed.

  (** A vehicle that passed the end of its link moves on. *)
  Definition Radv (links : linkset) (v v' : vehicle) : Prop :=
    exists lid l, v_link v = Some lid /\ sm_get links lid = Some l /\
      (nltb (lk_length l) (v_pos v) = false /\ v' = v \/
       nltb (lk_length l) (v_pos v) = true /\ body v' = body v /\ v_route v' = tl (v_route v) /\ v_pos v' = nsub (v_pos v) (lk_length l) /\ v_can_exit v' = v_can_exit v /\ v_lane_change v' = lc_advance (lk_length l) (v_lane_change v) /\ v_entered v' = Nat.max (pred (v_entered v)) 1).

  Lemma advance_ok e links v b v' lid : advance e links v = Ok (b, v') -> v_link v = Some lid ->
    Radv links v v' /\ (b = true <-> exists l, sm_get links lid = Some l /\ nltb (lk_length l) (v_pos v) = true).
  Proof.
    unfold advance, v_link. intros H Hl. destruct (v_route v) as [|id rest] eqn:Er; [discriminate|]. simpl in Hl. inversion Hl; subst id.
    bok H x Hx. unfold get_link in Hx. destruct (sm_get links lid) as [l|] eqn:Gl; [|discriminate]. inversion Hx; subst x.
    destruct (nltb (lk_length l) (v_pos v)) eqn:Lt.
    - inv_bind. destruct (v_entered v) eqn:Een; try (inversion H; subst). split.
      + exists lid, l. unfold v_link. rewrite Er. split; auto. split; auto. right. split; auto. split; [|rewrite Een; cbn; auto 8].
        unfold body. cbn. assert (pf_dst x = pf_dst (v_pathfind v)) as ->; auto.
        destruct rest; [inversion Hx0; auto|]. apply set_origin_dst in Hx0. apply Hx0.
      + split; auto. intros _. eauto.
    - try (inversion H; subst). split.
      + exists lid, l. unfold v_link. rewrite Er. auto 6.
      + split; [discriminate|]. intros (l' & G' & H'). congruence.
  Qed.

  Lemma upd_remove_length links lid k links' : upd_link links lid (fun l => Ok (remove_vehicle k l)) = Ok links' ->
    same_net links links'.
  Proof.
    unfold upd_link, get_link. intros H. destruct (sm_get links lid) as [l|] eqn:G; [|discriminate]. simpl in H.
    injection H as <-. apply remove_same_net; auto.
  Qed.

  Lemma Radv_net links links' v v' : same_net links links' -> Radv links' v v' -> Radv links v v'.
  Proof.
    intros S (lid & l & H1 & H2 & H3). destruct (same_net_get _ _ _ _ S H2) as (l0 & G0 & Est).
    exists lid, l0. split; auto. split; auto.
    assert (lk_length l0 = lk_length l) as ->; auto.
    unfold lk_static in Est. unfold lk_length. inversion Est. congruence.
  Qed.

  Lemma advance_one_ok e ls ad ex k v ls' ad' ex' v' : advance_one e (ls, (ad, ex)) k v = Ok ((ls', (ad', ex')), v') ->
    Radv ls v v' /\ same_net ls ls' /\ (v_route v' = [] /\ ex' = ex ++ [k] \/ v_route v' <> [] /\ ex' = ex).
  Proof.
    unfold advance_one. intros Ho. bok Ho lid Hl. apply of_option_ok in Hl. bok Ho bv Ha. destruct bv as [b v2]. cbn [fst snd] in Ho.
    destruct (advance_ok _ _ _ _ _ _ Ha Hl) as (R & Hb). destruct b.
    - bok Ho links Hr. apply upd_remove_length in Hr. unfold v_link in Ho.
      destruct (v_route v2) eqn:E2; cbn [hd_error] in Ho; injection Ho as <- <- <- <-; split; auto; split; auto.
      right. rewrite E2. split; auto. discriminate.
    - injection Ho as <- <- <- <-. split; auto. split; [apply same_net_refl|]. right. split; auto.
      destruct R as (a & l & c1 & c2 & [(c3 & ->)|(c3 & _)]).
      + intros E. unfold v_link in c1. rewrite E in c1. discriminate.
      + assert (a = lid) by congruence. subst a. assert (false = true) by (apply Hb; eauto). discriminate.
  Qed.

  Lemma advance_vehicles_evo e s s' : advance_vehicles e s = Ok s' ->
    (forall k v', sm_get (s_vehicles s') k = Some v' ->
       exists v, sm_get (s_vehicles s) k = Some v /\ Radv (s_links s) v v' /\ v_route v' <> []) /\
    (forall k v, sm_get (s_vehicles s) k = Some v ->
       exists v', Radv (s_links s) v v' /\ (v_route v' = [] /\ sm_mem (s_vehicles s') k = false \/ v_route v' <> [] /\ sm_get (s_vehicles s') k = Some v')) /\
    (forall k, sm_issued (s_vehicles s) k -> sm_issued (s_vehicles s') k) /\
    s' = with_links (with_vehicles s (s_vehicles s')) (s_links s').
  Proof.
    intros H. unfold advance_vehicles in H. bok H x Hx. destruct x as [[links [adv ex]] vs]. bok H x Hx1. injection H as <-. simpl.
    pose proof (sm_mapS_ind (advance_one e) (fun done todo (st : linkset * (list (key * key) * list key)) =>
      same_net (s_links s) (fst st) /\
      NoDup (map fst (done ++ todo)) /\
      (forall k, In k (snd (snd st)) -> In k (map fst done)) /\
      (forall k v, In (k, v) todo -> sm_get (s_vehicles s) k = Some v) /\
      (forall k v, sm_get (s_vehicles s) k = Some v -> In (k, v) todo \/ exists v', In (k, v') done /\ Radv (s_links s) v v') /\
      forall k v', In (k, v') done -> (In k (snd (snd st)) <-> v_route v' = []) /\ exists v, sm_get (s_vehicles s) k = Some v /\ Radv (s_links s) v v')) as K.
    specialize (K (s_vehicles s) (s_links s, ([], [])) (links, (adv, ex)) vs). destruct K as (_ & _ & _ & _ & K1 & K2); auto.
    { intros done k v todo [ls [ad x1]] [ls' [ad' x1']] v' (P0 & P1 & P2 & P3 & P4 & P5) Ho. cbn [fst snd] in *.
      assert (~ In k (map fst done)) as Kd.
      { rewrite map_app in P1. simpl in P1. apply NoDup_remove_2 in P1. rewrite in_app_iff in P1. tauto. }
      apply advance_one_ok in Ho. destruct Ho as (R & Sn & Ex). assert (Radv (s_links s) v v') as R' by (eapply Radv_net; eauto).
      split; [eapply same_net_trans; eauto|].
      split; [revert P1; rewrite !map_app; simpl; rewrite <- app_assoc; auto|].
      split; [|split; [|split]].
      - intros k1 Hin. rewrite map_app, in_app_iff. simpl. destruct Ex as [(_ & ->)|(_ & ->)]; auto.
        apply in_app_iff in Hin. destruct Hin as [Hin|[<-|[]]]; auto.
      - intros; apply P3; simpl; auto.
      - intros k1 v1 G1. destruct (P4 _ _ G1) as [[Hin|Hin]|(v2 & Hin & Hr)]; auto.
        + inversion Hin; subst. right. exists v'. rewrite in_app_iff. simpl. auto.
        + right. exists v2. rewrite in_app_iff. auto.
      - intros k1 v1 Hin. apply in_app_iff in Hin. destruct Hin as [Hin|[Hin|[]]].
        + assert (k1 <> k). { intros ->. apply Kd. eapply in_fst_map; eauto. }
          destruct (P5 _ _ Hin) as (Q1 & Q2). split; auto. destruct Ex as [(_ & ->)|(_ & ->)]; auto.
          rewrite in_app_iff. simpl. rewrite <- Q1. intuition congruence.
        + inversion Hin; subst k1 v1. split; [|exists v; split; auto; apply P3; simpl; auto].
          destruct Ex as [(E1 & ->)|(E1 & ->)].
          * rewrite in_app_iff. simpl. intuition.
          * split; [|tauto]. intros Hex. apply P2 in Hex. tauto. }
    { split; [apply same_net_refl|]. split; [apply nodup_keys|]. split; [intros ? []|]. split; [intros; apply in_entries; auto|].
      split; [left; apply in_entries; auto|]. intros ? ? []. }
    cbn [fst snd] in K2.
    split; [|split; [|split; auto]].
    - intros k v' Hk. rewrite sm_get_fold_remove in Hk. destruct (key_mem k ex) eqn:M; [discriminate|].
      apply in_entries in Hk. destruct (K2 _ _ Hk) as (Q1 & v & Gv & R). exists v. split; auto. split; auto.
      intros E. apply Q1 in E. apply key_mem_in in E. congruence.
    - intros k v Gv. destruct (K1 _ _ Gv) as [[]|(v' & Hin & R)]. exists v'. split; auto. destruct (K2 _ _ Hin) as (Q1 & _).
      apply in_entries in Hin. destruct (key_mem k ex) eqn:M.
      + left. split; [apply Q1, key_mem_in; auto|]. unfold sm_mem. rewrite sm_get_fold_remove, M. auto.
      + right. split; [|rewrite sm_get_fold_remove, M; auto]. intros E. apply Q1, key_mem_in in E. congruence.
    - intros k Hk. pose proof (sm_mapS_shape _ _ _ _ _ Hx) as Sh. apply (shape_issued _ _ _ Sh) in Hk.
      clear -Hk. revert vs Hk. induction ex as [|x ex IH]; intros vs Hk; simpl; auto. apply IH. apply issued_remove; auto.
  Qed.

  Definition Rcoords (v v' : vehicle) : Prop :=
    body v' = body v /\ v_pathfind v' = v_pathfind v /\ v_pos v' = v_pos v /\ v_route v' = v_route v /\ v_entered v' = v_entered v /\
    v_can_exit v' = v_can_exit v /\ v_lane_change v' = v_lane_change v.
  Lemma update_coords_ok links v v' : update_coords links v = Ok v' -> Rcoords v v'.
  Proof.
    unfold update_coords. intros H. bok H lid Hi. bok H l Hl.
    set (po := match v_lane_change v with Some _ => _ | None => _ end) in H. destruct po as [pos offset].
    injection H as <-. unfold Rcoords, body. cbn. auto 10.
  Qed.
  Lemma coords_evo s s' : update_vehicle_coords s = Ok s' ->
    (forall k v, sm_get (s_vehicles s) k = Some v -> exists v', sm_get (s_vehicles s') k = Some v' /\ Rcoords v v') /\
    (forall k v', sm_get (s_vehicles s') k = Some v' -> exists v, sm_get (s_vehicles s) k = Some v /\ Rcoords v v') /\
    same_shape (s_vehicles s) (s_vehicles s') /\
    s' = with_vehicles s (s_vehicles s').
  Proof.
    unfold update_vehicle_coords. intros H. bok H x Hx. destruct x as [u vs]. injection H as <-. simpl.
    pose proof (sm_mapS_shape _ _ _ _ _ Hx) as Sh.
    destruct (sm_mapS_pointwise _ (fun _ => True) _ _ _ _ (fun _ _ _ _ _ _ _ _ => Logic.I) Logic.I Hx) as (_ & K1 & K2).
    split; [|split; [|split; auto]].
    - intros k v Hk. destruct (K1 _ _ Hk) as (u1 & u2 & v' & _ & _ & Ho & G). bok Ho v1 Hv. injection Ho as <- <-. exists v1. split; auto.
      eapply update_coords_ok; eauto.
    - intros k v' Hk. destruct (K2 _ _ Hk) as (u1 & u2 & v & _ & _ & Ho & G). bok Ho v1 Hv. injection Ho as <- <-. exists v. split; auto.
      eapply update_coords_ok; eauto.
  Qed.
End Evo.
