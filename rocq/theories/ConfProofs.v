(** * Conflicts: lemmas for C48 and C52 *)
From Coq Require Import List Bool ZArith NArith Arith Lia.
From Verif Require Import Arith Base BaseProofs SlotMap Util Geom Light Accel Net Path Vehicle LinkOps Sim SpecSim SlotMapProofs Safe NetInv SimInv AccSafe SimSafe StepSafe OpSafe Evo StepEvo SimProofs StepProofs LogProofs SpecMotion Motion NetEvo SpecEnter EnterProofs SpecAhead P_Lane SpecConf.
Import ListNotations.

Section ConfInv.
  Context {A : Arith}.

  (** The conflicts a conflict point puts on link [x]. *)
  Definition entries_of (cp : cpoint) (x : key) : list link_conflict := map snd (filter (fun kc => key_eqb (fst kc) x) (link_conflicts cp)).
  (** A conflict point was computed from the two links it names, whose shapes never change. *)
  Definition made_from (links : linkset) (cp : cpoint) : Prop :=
    cpl_link (cp_a cp) <> cpl_link (cp_b cp) /\
    exists fuel la lb, sm_get links (cpl_link (cp_a cp)) = Some la /\ sm_get links (cpl_link (cp_b cp)) = Some lb /\ cpoint_new fuel la lb = Ok (Some cp).
  Definition CI (s : sim) : Prop :=
    (forall x l, sm_get (s_links s) x = Some l -> lk_conflicts l = flat_map (fun cp => entries_of cp x) (s_conflicts s)) /\
    Forall (made_from (s_links s)) (s_conflicts s).

  Lemma cpoint_ids fuel la lb cp : cpoint_new fuel la lb = Ok (Some cp) -> cpl_link (cp_a cp) = lk_id la /\ cpl_link (cp_b cp) = lk_id lb.
  Proof.
    unfold cpoint_new. intros H. bok H ca Ha. destruct ca as [ca|]; [|discriminate H]. bok H cb Hb. destruct cb as [cb|]; [|discriminate H]. injection H as <-.
    cbn [cp_a cp_b]. unfold cpl_new in *. bok Ha m1 H1. bok Hb m2 H2. destruct m1 as [[x1|] [y1|]]; try discriminate Ha. destruct m2 as [[x2|] [y2|]]; try discriminate Hb.
    injection Ha as <-. injection Hb as <-. auto.
  Qed.
  (** Only the shape and the ID matter. *)
  Lemma cpoint_geo fuel la lb la' lb' : geo la' = geo la -> geo lb' = geo lb -> cpoint_new fuel la' lb' = cpoint_new fuel la lb.
  Proof.
    unfold geo. intros Ha Hb. injection Ha as A1 A2 _ _. injection Hb as B1 B2 _ _. unfold cpoint_new, cpl_new, cpl_tangent. rewrite A1, A2, B1, B2. reflexivity.
  Qed.

  Lemma exec_geo e s o s' k l : Inv s -> exec e s o = Ok s' -> sm_get (s_links s) k = Some l -> exists l', sm_get (s_links s') k = Some l' /\ geo l' = geo l.
  Proof.
    intros I H G. assert (valid (s_links s') k) as V.
    { unfold valid. apply (links_stay e s o s' k I H). apply sm_mem_get. eauto. }
    unfold valid in V. apply sm_mem_get in V. destruct V as (l' & G'). exists l'. split; [exact G'|].
    destruct (exec_built _ _ _ _ _ _ I H G') as [(l0 & G0 & E & _)|(c & lim & -> & Ek & _)]; [congruence|].
    subst k. rewrite next_key_fresh in G by apply (st_net _ _ _ (i_st _ I)). discriminate G.
  Qed.
  Lemma made_from_exec e s o s' cp : Inv s -> exec e s o = Ok s' -> made_from (s_links s) cp -> made_from (s_links s') cp.
  Proof.
    intros I H (N & fuel & la & lb & Ga & Gb & E). split; [exact N|].
    destruct (exec_geo _ _ _ _ _ _ I H Ga) as (la' & Ga' & Ea). destruct (exec_geo _ _ _ _ _ _ I H Gb) as (lb' & Gb' & Eb).
    exists fuel, la', lb'. split; [exact Ga'|]. split; [exact Gb'|]. rewrite (cpoint_geo fuel la lb la' lb' Ea Eb). exact E.
  Qed.
  Lemma entries_nil cp x : cpl_link (cp_a cp) <> x -> cpl_link (cp_b cp) <> x -> entries_of cp x = [].
  Proof.
    intros Na Nb. unfold entries_of, link_conflicts. cbn [filter fst]. destruct (key_eqb_spec (cpl_link (cp_a cp)) x); [contradiction|]. destruct (key_eqb_spec (cpl_link (cp_b cp)) x); [contradiction|]. reflexivity.
  Qed.

  (** The conflict points after a call. *)
  Lemma exec_conflicts e s o s' : Inv s -> exec e s o = Ok s' ->
    s_conflicts s' = s_conflicts s \/ exists a b la lb cp, o = OAddConvergence a b /\ a <> b /\ sm_get (s_links s) a = Some la /\ sm_get (s_links s) b = Some lb /\
      cpoint_new (e_fuel e) la lb = Ok (Some cp) /\ s_conflicts s' = s_conflicts s ++ [cp].
  Proof.
    intros I H. destruct o; simpl in H.
    - left. bok H x Hx. unfold add_link in Hx. bok Hx l1 Hl1. injection Hx as <-. injection H as <-. reflexivity.
    - left. unfold add_link_group in H. bok H x1 Hx1. bok H x2 Hx2. bok H x3 Hx3. bok H x4 Hx4. bok H x5 Hx5. injection H as <-. reflexivity.
    - unfold add_link_convergance in H. destruct (key_eqb_spec a b); [injection H as <-; auto|].
      destruct (sm_get _ a) as [la|] eqn:Ga; [|injection H as <-; auto]. destruct (sm_get _ b) as [lb|] eqn:Gb; [|injection H as <-; auto].
      bok H x Hx. destruct x as [cp|]; [|injection H as <-; auto]. bok H y Hy. injection H as <-. right. exists a, b, la, lb, cp. auto 8.
    - left. unfold add_link_connection in H. bok H x Hx. bok H y Hy. injection H as <-. reflexivity.
    - left. bok H x Hx. injection H as <-. reflexivity.
    - left. bok H x Hx. destruct x as [s1 k1]. injection H as <-. unfold add_vehicle in Hx. bok Hx v0 Hv0. bok Hx v Hv. bok Hx links Hl. injection Hx as <- <-. reflexivity.
    - left. unfold sim_remove_vehicle in H. destruct (sm_get _ v) as [v0|]; [|injection H as <-; auto]. simpl in H.
      destruct (v_link v0); [|injection H as <-; auto]. bok H x Hx. injection H as <-. reflexivity.
    - left. unfold randomise_velocity_adjusts in H. bok H x Hx. injection H as <-. reflexivity.
    - left. injection H as <-. unfold set_vehicle_frozen. destruct frozen, (position _ _); reflexivity.
    - left. unfold set_vehicle_destination in H. bok H x Hx. bok H y Hy. injection H as <-. reflexivity.
    - left. unfold set_link_control in H. bok H x Hx. injection H as <-. reflexivity.
    - left. apply do_lane_change_ok in H. destruct H as (v0 & v1 & links & l2 & pos & off & slope & _ & _ & _ & _ & _ & ->). reflexivity.
    - left. destruct (step_phases _ _ _ _ I H) as (s1 & s2 & s3 & s4 & s5 & P). destruct (ph6 _ _ _ _ _ _ _ _ _ P) as (s6 & H6 & ->). cbn [s_conflicts].
      destruct (coords_evo _ _ H6) as (_ & _ & _ & E6). rewrite E6. cbn [s_conflicts with_vehicles].
      destruct (advance_vehicles_evo _ _ _ (ph5 _ _ _ _ _ _ _ _ _ P)) as (_ & _ & _ & E5). rewrite E5. cbn [s_conflicts with_vehicles with_links].
      destruct (integrate_evo _ _ _ (ph4 _ _ _ _ _ _ _ _ _ P)) as (_ & _ & E4). rewrite E4. cbn [s_conflicts].
      pose proof (ph3 _ _ _ _ _ _ _ _ _ P) as H3. unfold update_lights in H3. bok H3 r Hr. injection H3 as <-. cbn [s_conflicts].
      destruct (acc_fields _ _ _ (ph2 _ _ _ _ _ _ _ _ _ P)) as (_ & _ & _ & _ & E2 & _). rewrite E2.
      apply (lc_fields _ _ _ (ph1 _ _ _ _ _ _ _ _ _ P)).
  Qed.

  Lemma add_two links a b ca cb links' : a <> b ->
    foldM (fun links kc => upd_link links (fst kc) (fun l => Ok (add_conflict l (snd kc)))) [(a, ca); (b, cb)] links = Ok links' ->
    forall x l', sm_get links' x = Some l' -> exists l, sm_get links x = Some l /\
      l' = if key_eqb a x then add_conflict l ca else if key_eqb b x then add_conflict l cb else l.
  Proof.
    intros N H x l' G. cbn [foldM fst snd] in H. bok H l1 H1. bok H l2 H2. injection H as <-.
    destruct (upd_get _ _ _ _ _ _ H2 G) as [(-> & l & G1 & E)|(Nb & G1)].
    - injection E as <-. destruct (upd_get _ _ _ _ _ _ H1 G1) as [(E & _)|(Na & G0)]; [congruence|]. exists l. split; [exact G0|].
      destruct (key_eqb_spec a b); [contradiction|]. rewrite key_eqb_refl. reflexivity.
    - destruct (upd_get _ _ _ _ _ _ H1 G1) as [(-> & l & G0 & E)|(Na & G0)].
      + injection E as <-. exists l. split; [exact G0|]. rewrite key_eqb_refl. reflexivity.
      + exists l'. split; [exact G0|]. destruct (key_eqb_spec a x); [congruence|]. destruct (key_eqb_spec b x); [congruence|]. reflexivity.
  Qed.

  Lemma exec_CI e s o s' : Inv s -> exec e s o = Ok s' -> CI s -> CI s'.
  Proof.
    intros I H (C1 & C2).
    assert (Forall (made_from (s_links s')) (s_conflicts s)) as C2'.
    { eapply Forall_impl; [|exact C2]. intros cp. apply (made_from_exec e s o s' cp I H). }
    assert (forall x, sm_get (s_links s) x = None -> flat_map (fun cp => entries_of cp x) (s_conflicts s) = []) as Fr.
    { intros x Gx. clear -C2 Gx. induction C2 as [|cp cps (N & fuel & la & lb & Ga & Gb & _) _ IH]; [reflexivity|]. cbn [flat_map]. rewrite IH, entries_nil; [reflexivity|congruence|congruence]. }
    destruct (exec_conflicts _ _ _ _ I H) as [E|(a & b & la & lb & cp & -> & N & Ga & Gb & Ec & E)].
    - split; [|rewrite E; exact C2'].
      intros x l' G. rewrite E.
      assert ((exists l, sm_get (s_links s) x = Some l /\ lk_conflicts l' = lk_conflicts l) \/ sm_get (s_links s) x = None /\ lk_conflicts l' = []) as K.
      { pose proof (exec_keepers _ _ _ _ _ _ I H G) as X.
        assert ((exists l, sm_get (s_links s) x = Some l /\ keepers l' = keepers l) \/ sm_get (s_links s) x = None /\ keepers l' = (None, [], []) ->
          (exists l, sm_get (s_links s) x = Some l /\ lk_conflicts l' = lk_conflicts l) \/ sm_get (s_links s) x = None /\ lk_conflicts l' = []) as K.
        { unfold keepers. intros [(l & G0 & Q)|(G0 & Q)]; [left; exists l|right]; split; auto; injection Q; auto. }
        destruct o; try exact (K X); clear K X; left; cbn [exec] in H.
        - unfold add_link_group in H. bok H x1 Hx1. bok H x2 Hx2. bok H x3 Hx3. bok H x4 Hx4. bok H x5 Hx5. injection H as <-. cbn [s_links with_links] in G.
          assert (forall y l l1, (fun (ft : key * key) l => add_lane_change l (snd ft)) y l = Ok l1 -> lk_conflicts l1 = lk_conflicts l) as A1.
          { intros y l l1 E1. unfold add_lane_change in E1. destruct (Nat.ltb _ _); [|discriminate E1]. injection E1 as <-. reflexivity. }
          destruct (fold_keeps lk_conflicts fst (fun ft l => add_lane_change l (snd ft)) _ _ _ _ _ Hx5 A1 G) as (l1 & G1 & E1).
          destruct (fold_keeps lk_conflicts (fun x => x) (fun _ l => Ok (set_group l x2)) _ _ _ _ _ Hx3 ltac:(intros ? ? ? Q; injection Q as <-; reflexivity) G1) as (l2 & G2 & E2).
          exists l2. split; [exact G2|congruence].
        - unfold add_link_convergance in H. destruct (key_eqb_spec a b); [injection H as <-; eauto|].
          destruct (sm_get _ a) as [la|] eqn:Ga; [|injection H as <-; eauto]. destruct (sm_get _ b) as [lb|] eqn:Gb; [|injection H as <-; eauto].
          bok H y Hy. destruct y as [cp|]; [|injection H as <-; eauto]. bok H z Hz. exfalso. injection H as <-. cbn [s_conflicts] in E.
          apply (f_equal (@length _)) in E. rewrite app_length in E. cbn in E. lia. }
      destruct K as [(l & G0 & Q)|(G0 & Q)]; [rewrite Q; auto|rewrite Q, Fr; auto].
    - assert (made_from (s_links s) cp) as Mc.
      { destruct (cpoint_ids _ _ _ _ Ec) as (I1 & I2). pose proof (nk_link _ (st_net _ _ _ (i_st _ I))) as Nk.
        rewrite (lo_id _ _ _ (Nk _ _ Ga)) in I1. rewrite (lo_id _ _ _ (Nk _ _ Gb)) in I2. split; [congruence|]. exists (e_fuel e), la, lb. rewrite I1, I2. auto. }
      split; [|rewrite E; apply Forall_app; split; [exact C2'|constructor; [exact (made_from_exec e s _ s' cp I H Mc)|constructor]]].
      intros x l' G. rewrite E, flat_map_app. cbn [flat_map]. rewrite app_nil_r.
      cbn [exec] in H. unfold add_link_convergance in H. destruct (key_eqb_spec a b); [contradiction|]. rewrite Ga, Gb, Ec in H. cbn [bind] in H. bok H links Hl. injection H as <-. cbn [s_links] in G.
      destruct (cpoint_ids _ _ _ _ Ec) as (I1 & I2). pose proof (nk_link _ (st_net _ _ _ (i_st _ I))) as Nk.
      rewrite (lo_id _ _ _ (Nk _ _ Ga)) in I1. rewrite (lo_id _ _ _ (Nk _ _ Gb)) in I2.
      unfold entries_of. unfold link_conflicts in Hl |- *. rewrite I1, I2 in *.
      destruct (add_two _ _ _ _ _ _ N Hl _ _ G) as (l & G0 & ->). cbn [filter fst].
      destruct (key_eqb_spec a x) as [->|Na].
      + destruct (key_eqb_spec b x) as [->|Nb]; [contradiction|]. cbn [map snd add_conflict lk_conflicts]. rewrite (C1 _ _ G0). reflexivity.
      + destruct (key_eqb_spec b x) as [->|Nb]; cbn [map snd add_conflict lk_conflicts]; rewrite (C1 _ _ G0), ?app_nil_r; reflexivity.
  Qed.
  Lemma reachable_CI s : reachable s -> CI s.
  Proof.
    intros R. induction R as [|e s o s' R IH H].
    - split; [intros x l G|constructor]. cbn [s_links sim_new] in G. rewrite sm_get_empty in G. discriminate G.
    - eapply exec_CI; [apply (reachable_Inv _ R)|exact H|exact IH].
  Qed.
End ConfInv.

Section Collect.
  Context {A : Arith}.
  Variables (s : sim) (links : linkset) (vs : vehset) (x : key) (test : relveh -> bool).
  Hypothesis HL : forall k l, sm_get links k = Some l -> exists l0, link_at s k = Some l0 /\ exists b, l = set_lk_active l0 b.
  Hypothesis HV : forall k, sm_get vs k = option_map v_reset (vehicle_at s k).
  Hypothesis HU : forall a l, sm_get links a = Some l -> (in_use s a <-> lk_active l = true).

  Definition collect (buf : list relveh) (r : relveh) : res (list relveh * bool) := Ok (if test r then buf ++ [r] else buf, true).

  Lemma scan_collect idx l0 pos ks : forall buf se,
    scan collect vs (lk_length l0) (idx, x) pos (nsub pos (nmul MAX_LOOKAHEAD (lk_limit l0))) ks buf = Ok se ->
    exists news, fst se = buf ++ news /\
      (forall q, In q news <-> exists pre k post v, ks = pre ++ k :: post /\ let_pass s x idx l0 pos pre /\ vehicle_at s k = Some v /\ heads_to v idx x /\ lets_pass x idx l0 pos v /\
                               q = RV k (v_reset v) idx pos /\ test q = true) /\
      (snd se = Through <-> let_pass s x idx l0 pos ks).
  Proof.
    induction ks as [|k ks IH]; intros buf se H.
    - cbn [scan] in H. injection H as <-. exists []. rewrite app_nil_r. split; [reflexivity|]. split; [|split; [intros _ k []|reflexivity]].
      intros q. split; [intros []|]. intros (pre & k & post & v & E & _). destruct pre; discriminate E.
    - cbn [scan] in H. bok H v0 Hv0. unfold get_vehicle in Hv0. rewrite HV in Hv0. apply of_option_ok in Hv0.
      destruct (vehicle_at s k) as [v|] eqn:G; [|discriminate Hv0]. cbn [option_map] in Hv0. injection Hv0 as <-. change (pos_front (v_reset v)) with (pos_front v) in H.
      cbn [fst snd] in H. change (get_route (v_reset v)) with (get_route v) in H.
      set (mp := nsub pos (nmul MAX_LOOKAHEAD (lk_limit l0))) in *.
      assert (forall se, (~ lets_pass x idx l0 pos v) -> se = (buf, Stop) -> exists news, fst se = buf ++ news /\
        (forall q, In q news <-> exists pre k0 post v, k :: ks = pre ++ k0 :: post /\ let_pass s x idx l0 pos pre /\ vehicle_at s k0 = Some v /\ heads_to v idx x /\ lets_pass x idx l0 pos v /\
                               q = RV k0 (v_reset v) idx pos /\ test q = true) /\
        (snd se = Through <-> let_pass s x idx l0 pos (k :: ks))) as Ks.
      { intros se0 Nl ->. exists []. rewrite app_nil_r. split; [reflexivity|]. split.
        - intros q. split; [intros []|]. intros (pre & k0 & post & w & E & Lp & G0 & _ & Lv & _). exfalso. apply Nl. destruct pre as [|p pre].
          + injection E as <- <-. congruence.
          + injection E as <- E. destruct (Lp k) as (w' & G' & L'); [left; reflexivity|]. congruence.
        - split; [discriminate|]. intros Lp. exfalso. apply Nl. destruct (Lp k) as (w' & G' & L'); [left; reflexivity|]. congruence. }
      assert (forall buf1 se, lets_pass x idx l0 pos v -> (buf1 = buf /\ ~ (heads_to v idx x /\ test (RV k (v_reset v) idx pos) = true) \/
           buf1 = buf ++ [RV k (v_reset v) idx pos] /\ heads_to v idx x /\ test (RV k (v_reset v) idx pos) = true) ->
        scan collect vs (lk_length l0) (idx, x) pos mp ks buf1 = Ok se -> exists news, fst se = buf ++ news /\
        (forall q, In q news <-> exists pre k0 post v, k :: ks = pre ++ k0 :: post /\ let_pass s x idx l0 pos pre /\ vehicle_at s k0 = Some v /\ heads_to v idx x /\ lets_pass x idx l0 pos v /\
                               q = RV k0 (v_reset v) idx pos /\ test q = true) /\
        (snd se = Through <-> let_pass s x idx l0 pos (k :: ks))) as Kg.
      { intros buf1 se0 Lv Hb Hs. destruct (IH _ _ Hs) as (news & E1 & E2 & E3).
        assert (snd se0 = Through <-> let_pass s x idx l0 pos (k :: ks)) as E3'.
        { rewrite E3. unfold let_pass. split; intros Lp k0 Hk; [|apply Lp; right; exact Hk]. destruct Hk as [<-|Hk]; [eauto|auto]. }
        assert (forall q, In q news <-> exists pre k0 post v1, k :: ks = (k :: pre) ++ k0 :: post /\ let_pass s x idx l0 pos (k :: pre) /\ vehicle_at s k0 = Some v1 /\ heads_to v1 idx x /\ lets_pass x idx l0 pos v1 /\
                               q = RV k0 (v_reset v1) idx pos /\ test q = true) as E2'.
        { intros q. rewrite E2. split; intros (pre & k0 & post & v1 & Ea & Eb & Ec); exists pre, k0, post, v1.
          - split; [cbn [app]; congruence|]. split; [|exact Ec]. intros k1 [<-|Hk]; [eauto|auto].
          - split; [injection Ea; auto|]. split; [|exact Ec]. intros k1 Hk. apply Eb. right. exact Hk. }
        destruct Hb as [(-> & Nt)|(-> & Hh & Ht)].
        - exists news. split; [exact E1|]. split; [|exact E3']. intros q. rewrite E2'. split.
          + intros (pre & Q). exists (k :: pre). exact Q.
          + intros (pre & k0 & post & v1 & Ea & Eb & Gv & Hh & Hl & -> & Ht). destruct pre as [|p pre].
            * exfalso. injection Ea as <- <-. apply Nt. assert (v1 = v) by congruence. subst. auto.
            * injection Ea as <- Ea. exists pre, k0, post, v1. split; [cbn [app]; congruence|]. auto 8.
        - exists (RV k (v_reset v) idx pos :: news). split; [rewrite E1, <- app_assoc; reflexivity|]. split; [|exact E3']. intros q. cbn [In]. rewrite E2'. split.
          + intros [<-|(pre & Q)]; [|exists (k :: pre); exact Q]. exists [], k, ks, v. split; [reflexivity|]. split; [intros ? []|]. auto 8.
          + intros (pre & k0 & post & v1 & Ea & Eb & Gv & Hh' & Hl & -> & Ht'). destruct pre as [|p pre].
            * injection Ea as <- <-. left. congruence.
            * right. injection Ea as <- Ea. exists pre, k0, post, v1. split; [cbn [app]; congruence|]. auto 8. }
      destruct (nltb (pos_front v) mp) eqn:W.
      { apply Ks; [|congruence]. intros (W' & _). unfold within in W'. subst mp. change MAX_LOOKAHEAD with (@nofZ A 5) in W. congruence. }
      assert (within l0 pos v) as W' by exact W. clear W.
      unfold get_route in H. destruct (nth_error (v_route v) idx) as [y|] eqn:E; cbn [option_map] in H.
      2:{ apply (Kg _ _) with (3 := H). - split; [exact W'|]. unfold heads_to. congruence. - left. split; [reflexivity|]. unfold heads_to. intros (Q & _). congruence. }
      destruct (key_eqb_spec y x) as [->|Ny]; cbn [negb] in H.
      2:{ apply (Kg _ _) with (3 := H). - split; [exact W'|]. unfold heads_to. congruence. - left. split; [reflexivity|]. unfold heads_to. intros (Q & _). congruence. }
      assert (heads_to v idx x) as Hh by exact E.
      set (st := if Nat.ltb idx (v_entered v) then Entered else _) in H.
      unfold collect at 1 3 in H. cbn [bind fst snd] in H.
      assert (lets_pass x idx l0 pos v \/ ~ lets_pass x idx l0 pos v /\ Ok (buf, Stop) = Ok se) as K.
      { destruct (Nat.ltb idx (v_entered v)) eqn:Ei.
        - left. split; [exact W'|]. intros _. left. apply Nat.ltb_lt. exact Ei.
        - destruct (nltb (lk_length l0) pos) eqn:El; [right|left; split; [exact W'|]; auto]. split.
          + intros (_ & Q). destruct (Q Hh) as [Q1|Q1]; [apply Nat.ltb_lt in Q1; congruence|congruence].
          + subst st. rewrite ?Ei in H. destruct (Nat.eqb (v_entered v) idx); [destruct (v_queued v)|]; exact H. }
      destruct K as [Lv|(Nl & E1)]; [|apply Ks; [exact Nl|congruence]].
      assert (scan collect vs (lk_length l0) (idx, x) pos mp ks (if test (RV k (v_reset v) idx pos) then buf ++ [RV k (v_reset v) idx pos] else buf) = Ok se) as H'.
      { destruct Lv as (_ & Q). destruct (Q Hh) as [Q1|Q1].
        - apply Nat.ltb_lt in Q1. subst st. rewrite Q1 in H. exact H.
        - rewrite Q1 in H. destruct st; exact H. }
      apply (Kg _ _ Lv) with (2 := H'). destruct (test (RV k (v_reset v) idx pos)) eqn:Et; [right; auto|left]. split; [reflexivity|]. intros (_ & Q). discriminate Q.
  Qed.

  Lemma process_collect : forall fuel idx a l pos buf buf', sm_get links a = Some l ->
    process_vehicles collect fuel links vs l (idx, x) pos 0 buf = Ok buf' ->
    exists news, buf' = buf ++ news /\
      forall q, In q news <-> exists k v i d, q = RV k (v_reset v) i d /\ approaching s x idx a pos k v i d /\ test q = true.
  Proof.
    induction fuel as [|fuel IH]; intros idx a l pos buf buf' G H; [discriminate H|]. cbn [process_vehicles] in H.
    destruct (HL _ _ G) as (l0 & G0 & b0 & El).
    destruct (lk_active l) eqn:Ea; cbn [negb] in H.
    2:{ injection H as <-. exists []. rewrite app_nil_r. split; [reflexivity|]. intros q. split; [intros []|]. intros (k & v & i & d & _ & Ap & _).
        assert (in_use s a) as U by (destruct Ap; assumption). apply (HU _ _ G) in U. congruence. }
    assert (in_use s a) as U by (apply (HU _ _ G); exact Ea).
    cbn [fst snd skipn] in H. replace (lk_limit l) with (lk_limit l0) in H by (subst l; reflexivity). replace (lk_vehicles l) with (lk_vehicles l0) in H by (subst l; reflexivity).
    replace (lk_length l) with (lk_length l0) in H by (subst l; reflexivity). replace (lk_in l) with (lk_in l0) in H by (subst l; reflexivity).
    bok H se Hse. destruct (scan_collect _ _ _ _ _ _ Hse) as (news & E1 & E2 & E3).
    assert (let_pass s x idx l0 pos (rev (lk_vehicles l0)) <-> let_pass s x idx l0 pos (lk_vehicles l0)) as Rv.
    { split; intros Q k Hk; apply Q; [apply in_rev; rewrite rev_involutive|apply in_rev in Hk]; exact Hk. }
    assert (forall q, In q news <-> exists k v, q = RV k (v_reset v) idx pos /\ test q = true /\ vehicle_at s k = Some v /\ heads_to v idx x /\ lets_pass x idx l0 pos v /\
              exists behind ahead, lk_vehicles l0 = behind ++ k :: ahead /\ let_pass s x idx l0 pos ahead) as E2'.
    { intros q. rewrite E2. split.
      - intros (pre & k & post & v & El0 & Lp & Gv & Hh & Hl & Eq & Ht). exists k, v. do 5 (split; [assumption|]). exists (rev post), (rev pre). split.
        + apply (f_equal (@rev _)) in El0. rewrite rev_involutive, rev_app_distr in El0. cbn [rev] in El0. rewrite <- app_assoc in El0. exact El0.
        + intros k' Hk'. apply Lp. apply in_rev. exact Hk'.
      - intros (k & v & Eq & Ht & Gv & Hh & Hl & behind & ahead & El0 & Lp). exists (rev ahead), k, (rev behind), v. split; [|split].
        + rewrite El0, rev_app_distr. cbn [rev]. rewrite <- app_assoc. reflexivity.
        + intros k' Hk'. apply Lp. apply in_rev. exact Hk'.
        + auto. }
    assert (forall q, In q news -> exists k v i d, q = RV k (v_reset v) i d /\ approaching s x idx a pos k v i d /\ test q = true) as Kn.
    { intros q Hq. apply E2' in Hq. destruct Hq as (k & v & Eq & Ht & Gv & Hh & Hl & behind & ahead & El0 & Lp). exists k, v, idx, pos. split; [exact Eq|]. split; [|exact Ht].
      exact (appr_here s x idx a l0 pos behind k ahead v G0 U El0 Lp Gv Hh Hl). }
    assert (forall k v behind ahead, lk_vehicles l0 = behind ++ k :: ahead -> let_pass s x idx l0 pos ahead -> vehicle_at s k = Some v -> heads_to v idx x -> lets_pass x idx l0 pos v ->
       test (RV k (v_reset v) idx pos) = true -> In (RV k (v_reset v) idx pos) news) as Kh.
    { intros k v behind ahead Q1 Q2 Q3 Q4 Q5 Q6. apply E2'. exists k, v. do 5 (split; [first [reflexivity|assumption]|]). eauto. }
    assert ((snd se = Stop \/ nleb n0 (nsub pos (nmul (nofZ 5) (lk_limit l0))) = true) -> buf' = fst se -> exists news, buf' = buf ++ news /\
      forall q, In q news <-> exists k v i d, q = RV k (v_reset v) i d /\ approaching s x idx a pos k v i d /\ test q = true) as Kstop.
    { intros Hs ->. exists news. split; [exact E1|]. intros q. split; [apply Kn|]. intros (k & v & i & d & -> & Ap & Ht).
      inversion Ap as [idx' a' la' pos' behind k' ahead v' Q1 Q2 Q3 Q4 Q5 Q6 Q7|idx' a' la' pos' b lb k' v' i' d' Q1 Q2 Q3 Q4 Q5 Q6 Q7]; subst; assert (la' = l0) by congruence; subst la'.
      - eapply Kh; eauto.
      - exfalso. destruct Hs as [Hs|Hs]; [|congruence]. apply Rv in Q3. apply E3 in Q3. congruence. }
    destruct (snd se) eqn:Es; [apply Kstop; [auto|congruence]|].
    change MAX_LOOKAHEAD with (@nofZ A 5) in H. destruct (nleb n0 (nsub pos (nmul (nofZ 5) (lk_limit l0)))) eqn:Em; [apply Kstop; [auto|congruence]|]. clear Kstop.
    assert (let_pass s x idx l0 pos (lk_vehicles l0)) as Lp by (apply Rv; apply E3; reflexivity).
    assert (exists news2, buf' = fst se ++ news2 /\ forall q, In q news2 <-> exists b lb, In b (lk_in l0) /\ link_at s b = Some lb /\
       exists k v i d, q = RV k (v_reset v) i d /\ approaching s x (S idx) b (nadd pos (lk_length lb)) k v i d /\ test q = true) as (news2 & F1 & F2).
    { revert H. generalize (fst se). clear -IH HL. induction (lk_in l0) as [|c cs IHc]; intros bf H.
      - injection H as <-. exists []. rewrite app_nil_r. split; [reflexivity|]. intros q. split; [intros []|]. intros (b & lb & [] & _).
      - cbn [foldM] in H. bok H bf1 H1. bok H1 l' Hl'. unfold get_link in Hl'. apply of_option_ok in Hl'.
        destruct (HL _ _ Hl') as (lc & Gc & b1 & El'). destruct (IH _ _ _ _ _ _ Hl' H1) as (n1 & A1 & A2). destruct (IHc _ H) as (n2 & B1 & B2).
        exists (n1 ++ n2). split; [rewrite B1, A1, app_assoc; reflexivity|]. intros q. rewrite in_app_iff, A2, B2.
        replace (lk_length l') with (lk_length lc) by (subst l'; reflexivity). split.
        + intros [Q|(b & lb & Hb & Q)]; [exists c, lc; split; [left; reflexivity|]; auto|exists b, lb; split; [right; exact Hb|exact Q]].
        + intros (b & lb & [<-|Hb] & Gb & Q); [left; assert (lb = lc) by congruence; subst; exact Q|right; eauto]. }
    exists (news ++ news2). split; [rewrite F1, E1, app_assoc; reflexivity|]. intros q. rewrite in_app_iff. split.
    - intros [Q|Q]; [apply Kn; exact Q|]. apply F2 in Q. destruct Q as (b & lb & Hb & Gb & k & v & i & d & Eq & Ap & Ht). exists k, v, i, d. split; [exact Eq|]. split; [|exact Ht].
      exact (appr_further s x idx a l0 pos b lb k v i d G0 U Lp Em Hb Gb Ap).
    - intros (k & v & i & d & -> & Ap & Ht).
      inversion Ap as [idx' a' la' pos' behind k' ahead v' Q1 Q2 Q3 Q4 Q5 Q6 Q7|idx' a' la' pos' b lb k' v' i' d' Q1 Q2 Q3 Q4 Q5 Q6 Q7]; subst; assert (la' = l0) by congruence; subst la'.
      + left. eapply Kh; eauto.
      + right. apply F2. exists b, lb. split; [exact Q5|]. split; [exact Q6|]. exists k, v, i, d. auto.
  Qed.
End Collect.

Section Used.
  Context {A : Arith}.
  Lemma activate_links_used v : forall links links', activate_links v links = Ok links' ->
    forall k l, sm_get links' k = Some l -> lk_active l = true -> In k (firstn (v_entered v) (v_route v)) \/ exists l0, sm_get links k = Some l0 /\ lk_active l0 = true.
  Proof.
    unfold activate_links. generalize (firstn (v_entered v) (v_route v)). intros ids. induction ids as [|i ids IH]; intros links links' H k l G Ha; cbn [foldM] in H.
    - injection H as <-. right. eauto.
    - bok H ls Hls. destruct (IH _ _ H _ _ G Ha) as [Hin|(l0 & G0 & A0)]; [left; right; exact Hin|].
      bok Hls l1 Hl1. injection Hls as <-. rewrite sm_get_set in G0. destruct (key_eqb_spec i k) as [->|Ni]; [left; left; reflexivity|]. cbn [andb] in G0. right. eauto.
  Qed.
  Lemma activate_all_used s links vs : activate_all s = Ok (links, vs) ->
    forall a l, sm_get links a = Some l -> lk_active l = true -> in_use s a.
  Proof.
    unfold activate_all. intros H. bok H x Hx. destruct x as [ls vs']. injection H as <- <-. cbn [fst snd].
    match type of Hx with sm_mapS ?fn _ _ = _ => pose proof (fun H => sm_mapS_ind fn (fun done todo ls =>
      (forall k v, In (k, v) todo -> sm_get (s_vehicles s) k = Some v) /\
      (forall a l, sm_get ls a = Some l -> lk_active l = true -> in_use s a)) _ _ _ _ H Hx) as K end.
    apply K.
    - intros done k v todo ls0 ls1 v' (P0 & P1) Hf. bok Hf ls2 Ha. injection Hf as <- <-. split; [intros; apply P0; right; assumption|].
      intros a l G E. destruct (activate_links_used _ _ _ Ha _ _ G E) as [Hin|(l0 & G0 & E0)]; [|eauto].
      exists k, v. split; [apply P0; left; reflexivity|exact Hin].
    - split; [intros; apply in_entries; assumption|]. intros a l G E. rewrite sm_get_map in G. destruct (sm_get (s_links s) a); [|discriminate G]. injection G as <-. discriminate E.
  Qed.

  (** ** Sorting *)
  Lemma insert_desc_in r l q : In q (insert_desc r l) <-> q = r \/ In q l.
  Proof.
    induction l as [|x l IH]; cbn [insert_desc].
    - cbn. intuition.
    - destruct (nltb _ _); cbn [In]; [|rewrite IH]; intuition.
  Qed.
  Lemma sort_in l : forall acc q, In q (fold_left (fun acc r => insert_desc r acc) l acc) <-> In q l \/ In q acc.
  Proof.
    induction l as [|x l IH]; intros acc q; cbn [fold_left]; [cbn; intuition|]. rewrite IH, insert_desc_in. cbn [In]. intuition.
  Qed.
  Fixpoint sorted_desc (l : list relveh) : Prop :=
    match l with [] => True | r :: l => (forall q, In q l -> nltb (rv_front r) (rv_front q) = false) /\ sorted_desc l end.
  Section S.
    Hypothesis Tr : forall x y z : num, nnan x = false -> nnan y = false -> nnan z = false -> nltb x y = true -> nltb x z = false -> nltb y z = false.
    Hypothesis As : forall x y : num, nltb x y = true -> nltb y x = false.
    Lemma insert_desc_sorted r l : nnan (rv_front r) = false -> (forall q, In q l -> nnan (rv_front q) = false) -> sorted_desc l -> sorted_desc (insert_desc r l).
    Proof.
      intros Nr. induction l as [|x l IH]; intros Nl Sl; cbn [insert_desc].
      - split; [intros ? []|exact Logic.I].
      - destruct Sl as (S1 & S2). destruct (nltb (rv_front x) (rv_front r)) eqn:E.
        + split; [|split; assumption]. intros q [<-|Hq]; [apply As; exact E|]. apply (Tr (rv_front x)); auto; apply Nl; cbn; auto.
        + split; [|apply IH; auto; intros q Hq; apply Nl; right; exact Hq]. intros q Hq. apply insert_desc_in in Hq. destruct Hq as [->|Hq]; auto.
    Qed.
    Lemma fold_sorted l : forall acc, (forall q, In q l -> nnan (rv_front q) = false) -> (forall q, In q acc -> nnan (rv_front q) = false) -> sorted_desc acc ->
      sorted_desc (fold_left (fun acc r => insert_desc r acc) l acc).
    Proof.
      induction l as [|x l IH]; intros acc Nl Na Sa; [exact Sa|]. cbn [fold_left]. apply IH.
      - intros q Hq. apply Nl. right. exact Hq.
      - intros q Hq. apply insert_desc_in in Hq. destruct Hq as [->|Hq]; [apply Nl; left; reflexivity|auto].
      - apply insert_desc_sorted; auto. apply Nl. left. reflexivity.
    Qed.
    Lemma sort_desc_spec l l' : sort_desc l = Ok l' -> (forall q, In q l' <-> In q l) /\ sorted_desc l'.
    Proof.
      unfold sort_desc. intros H. destruct (existsb _ l && _) eqn:E; [discriminate H|]. injection H as <-. split; [intros q; rewrite sort_in; cbn; tauto|].
      apply andb_false_iff in E. destruct E as [E|E].
      - apply fold_sorted; [|intros ? []|exact Logic.I]. intros q Hq. destruct (nnan (rv_front q)) eqn:Eq; auto. exfalso.
        assert (existsb (fun r => nnan (rv_front r)) l = true) by (apply existsb_exists; eauto). congruence.
      - apply Nat.leb_gt in E. destruct l as [|x [|y l]]; cbn in E; try lia; cbn; auto.
    Qed.
  End S.

  Lemma pairs_step same a b q log : conflict_pairs same (a :: b :: q) log = conflict_pairs same (b :: q)
    (if negb (okey_eqb (rv_link a 0) (rv_link b 0)) then if same && nltb n0 (rv_rear a) then rv_follow_obstacle b (v_rear_coords (rv_veh a)) (v_vel (rv_veh a)) :: log else rv_stop_at_line b n0 :: log else log).
  Proof. reflexivity. Qed.
  Lemma pairs_in same p : forall leader follower q log, rv_link leader 0 <> rv_link follower 0 ->
    In (if same && (nltb n0 (rv_rear leader)) then rv_follow_obstacle follower (v_rear_coords (rv_veh leader)) (v_vel (rv_veh leader)) else rv_stop_at_line follower n0)
       (conflict_pairs same (p ++ leader :: follower :: q) log).
  Proof.
    induction p as [|x p IH]; intros leader follower q log N.
    - cbn [app]. rewrite pairs_step. replace (okey_eqb (rv_link leader 0) (rv_link follower 0)) with false.
      2:{ unfold okey_eqb. destruct (rv_link leader 0) as [y|], (rv_link follower 0) as [z|]; auto. destruct (key_eqb_spec y z); congruence. }
      cbn [negb]. eapply (adds_in is_acc); [apply conflict_pairs_adds|]. destruct (same && _); left; reflexivity.
    - cbn [app]. destruct (p ++ leader :: follower :: q) as [|y r] eqn:E; [destruct p; discriminate E|]. rewrite pairs_step, <- E. apply IH. exact N.
  Qed.
End Used.
