(** * C60: vehicles follow what is in their way in the other lanes *)
From Coq Require Import List Bool ZArith NArith Arith Lia Reals Lra.
From Verif Require Import Arith F64 RealArith Base BaseProofs SlotMap Util Geom Light Accel Net Path Vehicle LinkOps Sim SpecLight SpecSim SlotMapProofs Safe NetInv SimInv AccSafe SimSafe StepSafe OpSafe Evo StepEvo SimProofs SimExample StepProofs Ord LogProofs SpecMotion Motion RFacts P_Motion SpecEnter EnterProofs P_Enter SpecAhead P_Lane P_Proj SpecSide.
Import ListNotations.

(** The projections of a link are those of its group that start from it. *)
Lemma projections_in {A : Arith} V (g : group) a ps p : group_ok V g -> NoDup (g_links g) -> In a (g_links g) -> projections_from_link g a = Ok ps ->
  In p (g_projs g) -> pj_src p = a -> In p ps.
Proof.
  intros GO N Ha H Hpv Es. unfold projections_from_link in H. destruct (find_link_in g a Ha) as (i & Ei & Hi). rewrite Ei in H. cbn [of_option bind] in H.
  assert (i < length (g_links g)) as Li by (apply nth_error_Some; congruence). pose proof (go_projs _ _ GO) as F.
  destruct (Nat.leb _ _); [|discriminate H]. injection H as <-. set (n := length (g_links g) - 1) in *.
  apply In_nth_error in Hpv. destruct Hpv as (m & Em).
  assert (length (g_projs g) = length (g_links g) * n) as Len by (rewrite <- (Forall2_len _ _ _ F), pairs_length; auto).
  assert (m < length (g_projs g)) as Lm by (apply nth_error_Some; congruence).
  assert (n <> 0) as Zn by (intros Z; rewrite Z in Len; lia). pose proof (Nat.div_mod m n Zn) as Dm. pose proof (Nat.mod_upper_bound m n Zn) as Dr.
  assert (m / n < length (g_links g)) as Lq by (apply Nat.div_lt_upper_bound; auto; lia).
  destruct (nth_error (g_links g) (m / n)) as [k|] eqn:Ek; [|apply nth_error_None in Ek; lia].
  pose proof (pairs_nth (g_links g) (m / n) (m mod n) k N Ek ltac:(fold n; lia)) as Pn. fold n in Pn. rewrite <- Dm in Pn.
  destruct (nth_error (g_links g) (if m mod n <? m / n then m mod n else S (m mod n))) as [d|] eqn:Ed.
  2:{ apply nth_error_None in Ed. destruct (Nat.ltb_spec (m mod n) (m / n)); lia. }
  destruct (Forall2_nth _ _ _ _ _ _ F Pn Em) as (E1 & _). cbn [fst] in E1.
  assert (m / n = i) as Eq. { eapply NoDup_nth_error; [exact N|apply nth_error_Some; congruence|]. congruence. }
  apply nth_error_In with (m mod n). rewrite nth_firstn by auto. rewrite nth_skipn. rewrite <- Eq, <- Dm. exact Em.
Qed.

Section Side.
  Context {A : Arith}.

  Lemma clear_spec v o : is_clear v o = true <-> clear_of v o.
  Proof. reflexivity. Qed.
  Lemma pass_loop_spec l o o' : measured l o o' -> forall fuel r, pass_loop fuel (lk_curve l) o = Ok r -> r = o'.
  Proof.
    intros M. induction M as [o H|o o' H M IH]; intros fuel r E; (destruct fuel as [|fuel]; [discriminate E|]); cbn [pass_loop] in E.
    - change (nltb (ahead_of l o) (lit 1 10)) with (nltb (nmin (corner_ahead l o (fst (o_rear o))) (corner_ahead l o (snd (o_rear o)))) (lit 1 10)) in H.
      match type of E with (if ?c then _ else _) = _ => change c with (nltb (nmin (corner_ahead l o (fst (o_rear o))) (corner_ahead l o (snd (o_rear o)))) (lit 1 10)) in E end.
      rewrite H in E. injection E as <-. reflexivity.
    - match type of E with (if ?c then _ else _) = _ => change c with (nltb (ahead_of l o) (lit 1 10)) in E end.
      rewrite H in E. eapply IH. exact E.
  Qed.
  Lemma measured_of l fuel : forall o r, pass_loop fuel (lk_curve l) o = Ok r -> measured l o r.
  Proof.
    induction fuel as [|fuel IH]; intros o r E; [discriminate E|]. cbn [pass_loop] in E.
    match type of E with (if ?c then _ else _) = _ => change c with (nltb (ahead_of l o) (lit 1 10)) in E end.
    destruct (nltb (ahead_of l o) (lit 1 10)) eqn:H.
    - injection E as <-. exact (measured_now l o H).
    - apply measured_further; [exact H|]. apply IH. exact E.
  Qed.
  Lemma can_pass_room fuel v o l r : can_pass fuel v o l = Ok r -> has_room v o l -> r = Pass.
  Proof.
    unfold can_pass. intros H [C|(o' & M & C)].
    - apply clear_spec in C. rewrite C in H. congruence.
    - destruct (is_clear v o); [congruence|]. bok H o2 H2. rewrite (pass_loop_spec _ _ _ M _ _ H2) in H. apply clear_spec in C. rewrite C in H. congruence.
  Qed.
  Lemma can_pass_way fuel v o l r o' : can_pass fuel v o l = Ok r -> in_the_way v o l o' -> r = Follow (o_pos o') (o_vel o').
  Proof.
    unfold can_pass. intros H (C & M & C').
    destruct (is_clear v o) eqn:E; [destruct C; apply clear_spec; exact E|]. bok H o2 H2. rewrite (pass_loop_spec _ _ _ M _ _ H2) in H.
    destruct (is_clear v o') eqn:E'; [destruct C'; apply clear_spec; exact E'|]. congruence.
  Qed.

  Section Proc.
    Variables (s : sim) (links : linkset) (vs : vehset) (b : key) (lb : link).
    Hypothesis N : net_ok links.
    Hypothesis Hl : listed links vs.
    Hypothesis HV : forall k, sm_get vs k = option_map v_reset (vehicle_at s k).
    Hypothesis Gb : sm_get links b = Some lb.
    Hypothesis Act : lk_active lb = true.
    Hypothesis On : forall k v, In k (lk_vehicles lb) -> vehicle_at s k = Some v -> nth_error (v_route v) 0 = Some b /\ 0 < v_entered v.

    (** One vehicle of the lane. *)
    Lemma scan_one fuel o pos k v rest len log : In k (lk_vehicles lb) -> vehicle_at s k = Some v -> within lb pos v ->
      scan (obstacle_cb fuel lb o) vs len (0, b) pos (nsub pos (nmul MAX_LOOKAHEAD (lk_limit lb))) (k :: rest) log =
      bind (obstacle_cb fuel lb o log (RV k (v_reset v) 0 pos)) (fun sb => if snd sb then scan (obstacle_cb fuel lb o) vs len (0, b) pos (nsub pos (nmul MAX_LOOKAHEAD (lk_limit lb))) rest (fst sb) else Ok (fst sb, Stop)).
    Proof.
      intros Hk G W. destruct (On _ _ Hk G) as (E & Ent). cbn [scan]. unfold get_vehicle. rewrite HV, G. cbn [option_map of_option bind].
      unfold within in W. change (pos_front (v_reset v)) with (pos_front v). change MAX_LOOKAHEAD with (@nofZ A 5). rewrite W. cbn [fst snd].
      change (get_route (v_reset v)) with (get_route v). unfold get_route. rewrite E. cbn [option_map]. rewrite key_eqb_refl. cbn [negb].
      destruct (Nat.ltb_spec 0 (v_entered v)); [reflexivity|lia].
    Qed.
    Lemma scan_room fuel o ks rest len log r : (forall k, In k ks -> In k (lk_vehicles lb) /\ exists v, vehicle_at s k = Some v /\ within lb (o_pos o) v /\ has_room v o lb) ->
      scan (obstacle_cb fuel lb o) vs len (0, b) (o_pos o) (nsub (o_pos o) (nmul MAX_LOOKAHEAD (lk_limit lb))) (ks ++ rest) log = Ok r ->
      scan (obstacle_cb fuel lb o) vs len (0, b) (o_pos o) (nsub (o_pos o) (nmul MAX_LOOKAHEAD (lk_limit lb))) rest log = Ok r.
    Proof.
      induction ks as [|k ks IH]; intros Hks H; [exact H|]. destruct (Hks k) as (Hk & v & G & W & Ro); [left; reflexivity|].
      cbn [app] in H. rewrite (scan_one _ _ _ _ _ _ _ _ Hk G W) in H. bok H sb Hsb. unfold obstacle_cb in Hsb. cbn [rv_veh] in Hsb. bok Hsb q Hq.
      assert (q = Pass) as -> by (eapply can_pass_room; [exact Hq|exact Ro]). injection Hsb as <-. cbn [fst snd] in H. apply IH; [|exact H].
      intros k' Hk'. apply Hks. right. exact Hk'.
    Qed.

    Definition skip_to (pos : num) (skip : nat) : res nat :=
      bind (count_ahead vs pos (skipn skip (rev (lk_vehicles lb)))) (fun cnt => Ok (match cnt with Some c => skip + c | None => length (lk_vehicles lb) end)).

    Lemma count_some pos ks k v rest c : vehicle_at s k = Some v -> is_behind v pos -> count_ahead vs pos (ks ++ k :: rest) = Ok c -> exists n, c = Some n /\ n <= length ks.
    Proof.
      intros G Hb. revert c. induction ks as [|k0 ks IH]; intros c H; cbn [app count_ahead] in H.
      - unfold get_vehicle in H. rewrite HV, G in H. cbn [option_map of_option bind] in H. change (v_pos (v_reset v)) with (v_pos v) in H. unfold is_behind in Hb. rewrite Hb in H. injection H as <-. eauto.
      - bok H w Hw. destruct (nltb (v_pos w) pos); [injection H as <-; exists 0; split; [reflexivity|cbn [length]; lia]|]. bok H o Ho.
        destruct (IH _ Ho) as (n & -> & Hn). injection H as <-. exists (S n). split; [reflexivity|]. cbn [length]. lia.
    Qed.
    Lemma count_least pos ks rest c : (forall k, In k ks -> exists v, vehicle_at s k = Some v /\ ~ is_behind v pos) -> count_ahead vs pos (ks ++ rest) = Ok c -> forall n, c = Some n -> length ks <= n.
    Proof.
      intros Hks. revert c. induction ks as [|k0 ks IH]; intros c H n ->; cbn [length]; [lia|]. destruct (Hks k0) as (v & G & Hb); [left; reflexivity|]. cbn [app count_ahead] in H.
      unfold get_vehicle in H. rewrite HV, G in H. cbn [option_map of_option bind] in H. change (v_pos (v_reset v)) with (v_pos v) in H. unfold is_behind in Hb. destruct (nltb (v_pos v) pos); [congruence|].
      bok H o Ho. destruct o as [m|]; [|discriminate H]. injection H as <-. specialize (IH ltac:(intros; apply Hks; right; assumption) _ Ho m eq_refl). lia.
    Qed.

    (** The vehicle is reached as long as it is behind all the obstacles so far. *)
    Lemma skip_bound pos skip skip' pre k v post : rev (lk_vehicles lb) = pre ++ k :: post -> vehicle_at s k = Some v -> is_behind v pos -> skip <= length pre ->
      skip_to pos skip = Ok skip' -> skip <= skip' <= length pre.
    Proof.
      intros E G Hb Hs H. unfold skip_to in H. bok H c Hc. injection H as <-. rewrite E, skipn_app in Hc. replace (skip - length pre) with 0 in Hc by lia. cbn [skipn] in Hc.
      destruct (count_some _ _ _ _ _ _ G Hb Hc) as (n & -> & Hn). rewrite skipn_length in Hn. lia.
    Qed.
    Lemma skip_least pos skip skip' pre k v post ah : rev (lk_vehicles lb) = pre ++ k :: post -> vehicle_at s k = Some v -> is_behind v pos -> skip <= length pre ->
      (forall k', In k' ah -> exists v', vehicle_at s k' = Some v' /\ ~ is_behind v' pos) -> (exists mid, pre = ah ++ mid) ->
      skip_to pos skip = Ok skip' -> length ah <= skip'.
    Proof.
      intros E G Hb Hs Ha (mid & ->) H. pose proof (skip_bound _ _ _ _ _ _ _ E G Hb Hs H) as Sb. destruct (Nat.le_gt_cases (length ah) skip) as [|L]; [lia|].
      unfold skip_to in H. bok H c Hc. rewrite E, <- app_assoc, skipn_app in Hc. replace (skip - length ah) with 0 in Hc by lia. cbn [skipn] in Hc.
      pose proof Hc as Hc'. rewrite app_assoc in Hc'. destruct (count_some _ _ _ _ _ _ G Hb Hc') as (n & -> & _). injection H as <-.
      assert (length (skipn skip ah) <= n) as K.
      { eapply count_least; [|exact Hc|reflexivity]. intros k' Hk'. apply Ha. rewrite <- (firstn_skipn skip ah). apply in_app_iff. right. exact Hk'. }
      rewrite skipn_length in K. lia.
    Qed.

    Lemma obstacle_hit fuel p ws w0 w o o' k v : forall skip log log',
      (forall k', In k' (ws ++ [w0]) -> exists w' o0, vehicle_at s k' = Some w' /\ appears_as w' p o0 /\ is_behind v (o_pos o0)) ->
      vehicle_at s w0 = Some w -> appears_as w p o -> first_without_room s lb o k v -> in_the_way v o lb o' ->
      (forall be bt ah, lk_vehicles lb = be ++ k :: bt ++ ah -> skip <= length (bt ++ ah)) ->
      (exists rest, follow_obstacles fuel links vs lb p (ws ++ w0 :: rest) skip log = Ok log') ->
      In (EAcc k (vx_follow_vehicle v (nadd (o_pos o) (nsub (o_pos o') (o_pos o))) (o_vel o'))) log'.
    Proof.
      induction ws as [|w1 ws IH]; intros skip log log' Hb Gw Ap Fr Iw Sk (rest & H); cbn [app follow_obstacles] in H; bok H wv Hwv; unfold get_vehicle in Hwv; apply of_option_ok in Hwv; rewrite HV in Hwv.
      - rewrite Gw in Hwv. cbn [option_map] in Hwv. injection Hwv as <-. change (v_project (v_reset w) p) with (v_project w p) in H. rewrite Ap in H. cbn [bind] in H.
        bok H cnt Hcnt. set (skip' := match cnt with Some c => _ | None => _ end) in H. assert (skip_to (o_pos o) skip = Ok skip') as Hs by (unfold skip_to; rewrite Hcnt; reflexivity).
        bok H lg Hpv. assert (adds is_acc lg log') as Ad by (eapply follow_obstacles_adds; [exact N|exact Hl|exact Gb|exact H]). eapply adds_in; [exact Ad|].
        destruct Fr as (be & bt & ah & E & Gv & W & Fa & Fb). specialize (Sk _ _ _ E).
        destruct (Hb w0) as (w' & o0 & Gw' & Ap' & Bv). { apply in_app_iff. right. left. reflexivity. } assert (w' = w) by congruence. subst w'. assert (o0 = o) by (unfold appears_as in *; congruence). subst o0.
        assert (rev (lk_vehicles lb) = (rev ah ++ rev bt) ++ k :: rev be) as Er. { rewrite E, rev_app_distr. cbn [rev]. rewrite rev_app_distr, <- !app_assoc. reflexivity. }
        assert (skip <= length (rev ah ++ rev bt)) as Sk' by (rewrite app_length, !rev_length; rewrite app_length in Sk; lia).
        pose proof (skip_bound _ _ _ _ _ _ _ Er Gv Bv Sk' Hs) as Sb.
        assert (length (rev ah) <= skip') as Sl.
        { eapply skip_least; [exact Er|exact Gv|exact Bv|exact Sk'| |exists (rev bt); reflexivity|exact Hs]. intros k' Hk'. apply Fa. apply in_rev. exact Hk'. }
        destruct fuel as [|fuel]; [discriminate Hpv|]. cbn [process_vehicles] in Hpv. rewrite Act in Hpv. cbn [negb] in Hpv. rewrite (lo_id _ _ _ (nk_link _ N _ _ Gb)) in Hpv.
        rewrite Er, skipn_app in Hpv. replace (skip' - length (rev ah ++ rev bt)) with 0 in Hpv by lia. rewrite skipn_app in Hpv. rewrite (skipn_all2 (rev ah)) in Hpv by lia. cbn [app skipn] in Hpv.
        set (mid := skipn (skip' - length (rev ah)) (rev bt)) in Hpv. bok Hpv se Hse.
        assert (In k (lk_vehicles lb)) as Hk by (rewrite E; apply in_elt).
        apply scan_room in Hse.
        2:{ intros k' Hk'. assert (In k' bt) as Hin. { apply in_rev. rewrite <- (firstn_skipn (skip' - length (rev ah)) (rev bt)). apply in_app_iff. right. exact Hk'. }
            split; [rewrite E; apply in_app_iff; right; right; apply in_app_iff; left; exact Hin|]. apply Fb. exact Hin. }
        rewrite (scan_one _ _ _ _ _ _ _ _ Hk Gv W) in Hse. bok Hse sb Hsb. unfold obstacle_cb in Hsb. cbn [rv_veh] in Hsb. bok Hsb q Hq.
        assert (q = Follow (o_pos o') (o_vel o')) as -> by (eapply can_pass_way; [exact Hq|exact Iw]). injection Hsb as <-. cbn [fst snd] in Hse. injection Hse as <-. cbn [fst snd] in Hpv. injection Hpv as <-.
        left. reflexivity.
      - destruct (Hb w1) as (w' & o0 & Gw' & Ap' & Bv); [left; reflexivity|]. rewrite Gw' in Hwv. cbn [option_map] in Hwv. injection Hwv as <-. change (v_project (v_reset w') p) with (v_project w' p) in H. rewrite Ap' in H. cbn [bind] in H.
        bok H cnt Hcnt. set (skip' := match cnt with Some c => _ | None => _ end) in H. assert (skip_to (o_pos o0) skip = Ok skip') as Hs by (unfold skip_to; rewrite Hcnt; reflexivity).
        bok H lg Hpv. eapply (IH skip' lg log'); [intros; apply Hb; right; assumption|exact Gw|exact Ap|exact Fr|exact Iw| |eexists; exact H].
        intros be bt ah E. assert (rev (lk_vehicles lb) = rev (bt ++ ah) ++ k :: rev be) as Er. { rewrite E, rev_app_distr. cbn [rev]. rewrite <- !app_assoc. reflexivity. }
        destruct Fr as (_ & _ & _ & _ & Gv & _). pose proof (skip_bound _ _ _ _ _ _ _ Er Gv Bv ltac:(rewrite rev_length; eapply Sk; exact E) Hs) as Sb. rewrite rev_length in Sb. lia.
    Qed.
  End Proc.

  Lemma measured_vel l o o' : measured l o o' -> o_vel o' = o_vel o.
  Proof. induction 1; cbn [o_vel] in *; congruence. Qed.
  Lemma appears_vel w p o : appears_as w p o -> o_vel o = v_vel w.
  Proof. unfold appears_as, v_project, proj_project. intros H. bok H sp Hsp. injection H as <-. reflexivity. Qed.

  Lemma side_in_log e s1 s2 links vs log1 log a la g p b lb rest w0 ahead w o k v o' : St (s_links s1) (s_vehicles s1) (s_seq s1) -> parts e s1 s2 links vs log1 log ->
    link_at s1 a = Some la -> lk_group la = Some g -> NoDup (g_links g) -> In p (g_projs g) -> pj_src p = a -> pj_dst p = b -> link_at s1 b = Some lb ->
    lk_vehicles la = rest ++ w0 :: ahead -> (forall k', In k' (w0 :: ahead) -> exists w' o0, vehicle_at s1 k' = Some w' /\ appears_as w' p o0 /\ is_behind v (o_pos o0)) ->
    vehicle_at s1 w0 = Some w -> appears_as w p o -> first_without_room s1 lb o k v -> in_the_way v o lb o' ->
    In (EAcc k (vx_follow_vehicle v (nadd (o_pos o) (nsub (o_pos o') (o_pos o))) (v_vel w))) log.
  Proof.
    intros St1 P Ga Eg Nd Hpj Es Ed Gb El Hb Gw Ap Fr Iw. destruct (parts_ctx _ _ _ _ _ _ _ St1 P) as (HL & HV & Ent & _).
    pose proof (pt_net _ _ _ _ _ _ _ P) as N. pose proof (pt_listed _ _ _ _ _ _ _ P) as Ls.
    assert (forall k l0, link_at s1 k = Some l0 -> exists b, sm_get links k = Some (set_lk_active l0 b)) as HG.
    { intros k0 l0 G0. assert (valid links k0) as V by (apply (same_net_valid _ _ _ (pt_same _ _ _ _ _ _ _ P)); apply sm_mem_get; unfold link_at in G0; eauto).
      unfold valid in V. apply sm_mem_get in V. destruct V as (l' & Gl'). destruct (HL _ _ Gl') as (l1 & G1 & b1 & ->). assert (l1 = l0) by congruence. subst. eauto. }
    destruct (HG _ _ Ga) as (ba & Ga'). destruct (HG _ _ Gb) as (bb & Gb').
    assert (forall k' v0, In k' (lk_vehicles lb) -> vehicle_at s1 k' = Some v0 -> v_link v0 = Some b) as Cur.
    { intros k' v0 Hk' G0. destruct (st_occ _ _ _ St1 _ _ Gb) as (_ & Oc). apply Oc in Hk'. unfold at_of in Hk'. unfold vehicle_at in G0. rewrite G0 in Hk'. exact Hk'. }
    pose proof Fr as (be & bt & ah & E & Gv & _). assert (In k (lk_vehicles lb)) as Hk by (rewrite E; apply in_elt).
    assert (bb = true) as Act.
    { assert (lk_active (set_lk_active lb bb) = true) as Q; [|exact Q]. apply (pt_cur _ _ _ _ _ _ _ P k (v_reset v) b); [rewrite HV, Gv; reflexivity|exact (Cur _ _ Hk Gv)|exact Gb']. }
    subst bb.
    assert (exists log0 loga, follow_obstacles (e_fuel e) links vs (set_lk_active lb true) p (rev (lk_vehicles la)) 0 log0 = Ok loga /\ adds is_acc loga log) as (log0 & loga & Hf & Aa).
    { pose proof (pt_link _ _ _ _ _ _ _ P) as H. unfold sim_link_accelerations in H. bok H lg H1.
      assert (adds is_acc lg log) as A2. { refine (foldM_adds _ _ _ _ _ _ H). intros c x y _ Hc. eapply cp_apply_adds; eauto. }
      assert (In (set_lk_active la ba) (sm_values links)) as Hin by (apply in_values; eauto).
      assert (forall l0, In l0 (sm_values links) -> exists k, sm_get links k = Some l0) as Hv by (intros l0 Q; apply in_values in Q; auto).
      clear H. revert log1 P H1. intros log1 _ H1. revert log1 H1. induction (sm_values links) as [|y ls IH]; intros lg0 H1; [contradiction|]. cbn [foldM] in H1. bok H1 lga Ha.
      assert (adds is_acc lga lg) as A1.
      { eapply foldM_adds; [|exact H1]. intros z x b0 Hz Hb0. destruct (Hv z) as (kz & Gz); [right; auto|]. destruct (apply_accelerations_adds _ _ N Ls _ _ _ _ _ Gz Hb0) as (? & _ & B1 & B2). eapply adds_trans; eauto. }
      destruct Hin as [->|Hin]; [|eapply (IH Hin); [intros; apply Hv; right; auto|exact H1]].
      unfold apply_accelerations in Ha. bok Ha lg1 Hf. bok Ha lg2 Hpp. change (lk_group (set_lk_active la ba)) with (lk_group la) in Ha. rewrite Eg in Ha. bok Ha ps Hps.
      change (lk_id (set_lk_active la ba)) with (lk_id la) in Hps. pose proof (lo_id _ _ _ (nk_link _ N _ _ Ga')) as Ei. change (lk_id la = a) in Ei. rewrite Ei in Hps.
      destruct (lo_group _ _ _ (nk_link _ N _ _ Ga') g Eg) as (GO & Hag).
      pose proof (projections_in _ _ _ _ _ GO Nd Hag Hps Hpj Es) as Hps'. change (lk_vehicles (set_lk_active la ba)) with (lk_vehicles la) in Ha.
      clear Hpp. revert lg2 Ha. clear Hps. induction ps as [|q ps IHp]; intros lg2 Ha; [destruct Hps'|]. cbn [foldM] in Ha. bok Ha lg3 H3.
      destruct Hps' as [->|Hps']; [|eapply IHp; [exact Hps'|exact Ha]]. bok H3 l2 Hl2. unfold get_link in Hl2. apply of_option_ok in Hl2. rewrite Ed, Gb' in Hl2. injection Hl2 as <-.
      exists lg2, lg3. split; [exact H3|]. eapply adds_trans; [|eapply adds_trans; [exact A1|exact A2]].
      eapply foldM_adds; [|exact Ha]. intros p' lgc lgd _ Hq. cbn beta in Hq. bok Hq l2 Hl2. unfold get_link in Hl2. apply of_option_ok in Hl2.
      eapply follow_obstacles_adds; eauto. }
    eapply adds_in; [exact Aa|]. rewrite <- (appears_vel _ _ _ Ap). destruct Iw as (Iw1 & Iw2 & Iw3). rewrite <- (measured_vel _ _ _ Iw2).
    rewrite El, rev_app_distr in Hf. cbn [rev] in Hf. rewrite <- app_assoc in Hf. cbn [app] in Hf.
    assert (0 < v_entered v) as Ev by (pose proof (Ent k (v_reset v) ltac:(rewrite HV, Gv; reflexivity)) as Q; change (v_entered (v_reset v)) with (v_entered v) in Q; lia).
    assert (measured (set_lk_active lb true) o o') as Mm.
    { clear - Iw2. remember (set_lk_active lb true) as l' eqn:El. induction Iw2 as [o H|o o' H M IH]; subst l'.
      - exact (measured_now (set_lk_active lb true) o H).
      - apply measured_further; [exact H|exact IH]. }
    assert (first_without_room s1 (set_lk_active lb true) o k v) as Fr'.
    { destruct Fr as (be' & bt' & ah' & E' & G' & W' & F1 & F2). exists be', bt', ah'. split; [exact E'|]. split; [exact G'|]. split; [exact W'|]. split; [exact F1|].
      intros k' Hk'. destruct (F2 _ Hk') as (v' & Gv' & Wv' & Rv'). exists v'. split; [exact Gv'|]. split; [exact Wv'|]. destruct Rv' as [C|(o2 & M2 & C2)]; [left; exact C|right]. exists o2. split; [|exact C2].
      clear - M2. remember (set_lk_active lb true) as l' eqn:El. induction M2 as [o H|o o' H M IH]; subst l'.
      - exact (measured_now (set_lk_active lb true) o H).
      - apply measured_further; [exact H|exact IH]. }
    eapply (obstacle_hit s1 links vs b (set_lk_active lb true) N Ls HV Gb' eq_refl) with (ws := rev ahead) (skip := 0) (w := w); [ | |exact Gw|exact Ap|exact Fr'|split; [exact Iw1|split; [exact Mm|exact Iw3]]|intros; lia|eexists; exact Hf].
    - intros k' v0 Hk' G0. split; [exact (Cur _ _ Hk' G0)|]. pose proof (Ent k' (v_reset v0) ltac:(rewrite HV, G0; reflexivity)) as Q. change (v_entered (v_reset v0)) with (v_entered v0) in Q. lia.
    - intros k' Hk'. apply Hb. apply in_app_iff in Hk'. destruct Hk' as [Hk'|[<-|[]]]; [right; apply in_rev; exact Hk'|left; reflexivity].
  Qed.
End Side.

(** ** C60: the first vehicle behind something in its way in another lane follows it *)
Lemma side_gen {A : Arith} (O : OrdLaws A) (Nd : @nnan A MAX_DECEL = false) e ops s dt s1 s' a la g p b lb rest w0 ahead w o k v o' v' :
  history (@sim_new A) ops s -> step e s dt = Ok s' -> due (lit 1 10) ops = true -> calculate_lane_changes e s = Ok s1 ->
  link_at s1 a = Some la -> lk_group la = Some g -> NoDup (g_links g) -> In p (g_projs g) -> pj_src p = a -> pj_dst p = b -> link_at s1 b = Some lb ->
  lk_vehicles la = rest ++ w0 :: ahead -> (forall k', In k' (w0 :: ahead) -> exists w' o0, vehicle_at s1 k' = Some w' /\ appears_as w' p o0 /\ is_behind v (o_pos o0)) ->
  vehicle_at s1 w0 = Some w -> appears_as w p o -> first_without_room s1 lb o k v -> in_the_way v o lb o' -> vehicle_at s' k = Some v' ->
  let y := driver_model v (nsub (nadd (o_pos o) (nsub (o_pos o') (o_pos o))) (pos_front v)) (v_vel w) in
  nnan y = false -> nleb (acceleration v') (nmax y full_braking) = true.
Proof.
  intros Hh H D H1 Ga Eg Ndl Hpj Es Ed Gb El Hb Gw Ap Fr Iw G' y Ny.
  pose proof (history_Inv _ _ _ Hh Inv_new) as I. pose proof (history_timers _ _ Hh) as (T & _). pose proof (due_true _ _ _ T D) as D'.
  destruct (step_motion _ _ _ _ _ _ I H G') as (v0 & s1' & _ & _ & _ & G0 & H1' & _ & _ & _ & _ & _ & _ & _ & _ & _ & St1 & _).
  assert (s1' = s1) by congruence. subst s1'.
  refine (refresh_bound O Nd e s dt s' k v0 v' y I H G0 G' D' Ny _).
  intros t1 t2 links vs log1 log E1 P. assert (t1 = s1) by congruence. subst t1. exact (side_in_log _ _ _ _ _ _ _ _ _ _ _ _ _ _ _ _ _ _ _ _ _ St1 P Ga Eg Ndl Hpj Es Ed Gb El Hb Gw Ap Fr Iw).
Qed.
(** [s1] is the simulation after the lane changes at the start of the step.  Vehicle [w], on lane [a],
    appears on lane [b] of the same group as obstacle [o].  [v] is the first vehicle behind [o] on lane
    [b] that has no room to pass it; it is also behind the vehicles of lane [a] that are ahead of [w].
    Then [v] follows [w] at the position where that is in its way. *)
Theorem C60_follow :
  forall e ops s dt s1 s' a la g p b lb rest w0 ahead w o k v o' v',
    history (@sim_new F64) ops s -> step e s dt = Ok s' -> due (lit 1 10) ops = true -> calculate_lane_changes e s = Ok s1 ->
    link_at s1 a = Some la -> lk_group la = Some g -> NoDup (g_links g) -> In p (g_projs g) -> pj_src p = a -> pj_dst p = b -> link_at s1 b = Some lb ->
    lk_vehicles la = rest ++ w0 :: ahead -> (forall k', In k' (w0 :: ahead) -> exists w' o0, vehicle_at s1 k' = Some w' /\ appears_as w' p o0 /\ is_behind v (o_pos o0)) ->
    vehicle_at s1 w0 = Some w -> appears_as w p o -> first_without_room s1 lb o k v -> in_the_way v o lb o' -> vehicle_at s' k = Some v' ->
    let y := driver_model v (nsub (nadd (o_pos o) (nsub (o_pos o') (o_pos o))) (pos_front v)) (v_vel w) in
    nnan y = false -> nleb (acceleration v') (nmax y full_braking) = true.
Proof. exact (@side_gen F64 F64_ord decel_nan). Qed.
Print Assumptions C60_follow.

(** In exact arithmetic the gap is the distance from the front of [v] to that position. *)
Local Open Scope R_scope.
Theorem C60_follow_exact :
  forall e ops s dt s1 s' a la g p b lb rest w0 ahead w o k v o' v',
    history (@sim_new RA) ops s -> step e s dt = Ok s' -> due (lit 1 10) ops = true -> calculate_lane_changes e s = Ok s1 ->
    link_at s1 a = Some la -> lk_group la = Some g -> NoDup (g_links g) -> In p (g_projs g) -> pj_src p = a -> pj_dst p = b -> link_at s1 b = Some lb ->
    lk_vehicles la = rest ++ w0 :: ahead -> (forall k', In k' (w0 :: ahead) -> exists w' o0, vehicle_at s1 k' = Some w' /\ appears_as w' p o0 /\ is_behind v (o_pos o0)) ->
    vehicle_at s1 w0 = Some w -> appears_as w p o -> first_without_room s1 lb o k v -> in_the_way v o lb o' -> vehicle_at s' k = Some v' ->
    acceleration v' <= Rmax (driver_model v (o_pos o' - pos_front v) (v_vel w)) (-6).
Proof.
  intros e ops s dt s1 s' a la g p b lb rest w0 ahead w o k v o' v' Hh H D H1 Ga Eg Ndl Hpj Es Ed Gb El Hb Gw Ap Fr Iw G'.
  pose proof (side_gen RA_ord decel_nan_R e ops s dt s1 s' a la g p b lb rest w0 ahead w o k v o' v' Hh H D H1 Ga Eg Ndl Hpj Es Ed Gb El Hb Gw Ap Fr Iw G' eq_refl) as K.
  apply leb_R in K. rewrite max_R in K.
  replace (@nsub RA (nadd (o_pos o) (nsub (o_pos o') (o_pos o))) (pos_front v)) with (o_pos o' - pos_front v) in K; [exact K|].
  generalize (pos_front v). intros z. change (@num RA) with R in *. change (o_pos o' - z = o_pos o + (o_pos o' - o_pos o) - z). lra.
Qed.
Print Assumptions C60_follow_exact.

(** Two lanes 2 m apart; a car on the first and one behind it on the second. *)
Definition ex_beside : list (@op F64) :=
  [ OAddLink (ex_line 0 0 40 0) (fz 15); OAddLink (ex_line 0 2 40 2) (fz 15); OAddGroup [lane1; lane2] 0;
    OAddVehicle ex_car lane1; OStep (fz 1); OStep (fz 1); OAddVehicle ex_car lane2; OStep (fz 1) ].
Definition side_b (s1 s' : @sim F64) : bool :=
  link_b s1 lane1 (fun la => link_b s1 lane2 (fun lb => veh_b s1 car1 (fun w => veh_b s1 car2 (fun v => veh_b s' car2 (fun v' =>
    match lk_group la with None => false | Some g => match g_projs g with [] => false | p :: _ =>
      match g_links g, lk_vehicles la, lk_vehicles lb with
      | [x1; x2], [y1], [y2] => key_eqb x1 lane1 && key_eqb x2 lane2 && key_eqb y1 car1 && key_eqb y2 car2
      | _, _, _ => false end && key_eqb (pj_src p) lane1 && key_eqb (pj_dst p) lane2 &&
      okb (v_project w p) (fun o =>
        nltb (v_pos v) (o_pos o) && negb (nltb (pos_front v) (nsub (o_pos o) (nmul (nofZ 5) (lk_limit lb)))) &&
        negb (is_clear v o) && okb (pass_loop 200 (lk_curve lb) o) (fun o' => negb (is_clear v o') &&
        let y := driver_model v (nsub (nadd (o_pos o) (nsub (o_pos o') (o_pos o))) (pos_front v)) (v_vel w) in
        negb (nnan y) && nltb y n0 && nltb (acceleration v') n0))
    end end))))).
Lemma ex_beside_ok :
  okb (run ex_env sim_new ex_beside) (fun s => due (@lit F64 1 10) ex_beside && okb (calculate_lane_changes ex_env s) (fun s1 => okb (step ex_env s (fz 1)) (fun s' => side_b s1 s'))) = true.
Proof. vm_compute. reflexivity. Qed.

Example C60_example : exists s s1 s' la g p lb w o v o' v',
  history (@sim_new F64) ex_beside s /\ step ex_env s (fz 1) = Ok s' /\ due (lit 1 10) ex_beside = true /\ calculate_lane_changes ex_env s = Ok s1 /\
  link_at s1 lane1 = Some la /\ lk_group la = Some g /\ NoDup (g_links g) /\ In p (g_projs g) /\ pj_src p = lane1 /\ pj_dst p = lane2 /\ link_at s1 lane2 = Some lb /\
  lk_vehicles la = [] ++ car1 :: [] /\ (forall k', In k' [car1] -> exists w' o0, vehicle_at s1 k' = Some w' /\ appears_as w' p o0 /\ is_behind v (o_pos o0)) /\
  vehicle_at s1 car1 = Some w /\ appears_as w p o /\ first_without_room s1 lb o car2 v /\ in_the_way v o lb o' /\ vehicle_at s' car2 = Some v' /\
  nnan (driver_model v (nsub (nadd (o_pos o) (nsub (o_pos o') (o_pos o))) (pos_front v)) (v_vel w)) = false /\ nltb (acceleration v') n0 = true.
Proof.
  pose proof ex_beside_ok as H. apply okb_ok in H. destruct H as (s & H0 & H). apply andb_true_iff in H. destruct H as (D & H). apply okb_ok in H. destruct H as (s1 & H1 & H). apply okb_ok in H. destruct H as (s' & H2 & H).
  unfold side_b in H. apply link_b_ok in H. destruct H as (la & Ga & H). apply link_b_ok in H. destruct H as (lb & Gb & H). apply veh_b_ok in H. destruct H as (w & Gw & H). apply veh_b_ok in H. destruct H as (v & Gv & H). apply veh_b_ok in H. destruct H as (v' & G' & H).
  destruct (lk_group la) as [g|] eqn:Eg; [|discriminate H]. destruct (g_projs g) as [|p ps] eqn:Ep; [discriminate H|].
  apply andb_true_iff in H. destruct H as (H & Ho). apply andb_true_iff in H. destruct H as (H & Ed). apply andb_true_iff in H. destruct H as (H & Es).
  destruct (g_links g) as [|x1 [|x2 [|]]] eqn:El; try (discriminate H). destruct (lk_vehicles la) as [|y1 [|]] eqn:Ela; try (discriminate H). destruct (lk_vehicles lb) as [|y2 [|]] eqn:Elb; try (discriminate H).
  do 3 (apply andb_true_iff in H; destruct H as (H & ?)). repeat match goal with Q : key_eqb _ _ = true |- _ => apply key_eqb_eq in Q end. subst x1 x2 y1 y2.
  apply okb_ok in Ho. destruct Ho as (o & Eo & Ho). apply andb_true_iff in Ho. destruct Ho as (Ho & Hm). do 2 (apply andb_true_iff in Ho; destruct Ho as (Ho & ?)).
  apply okb_ok in Hm. destruct Hm as (o' & Em & Hm). cbn zeta in Hm. apply andb_true_iff in Hm. destruct Hm as (C' & Hy). do 2 (apply andb_true_iff in Hy; destruct Hy as (Hy & ?)).
  exists s, s1, s', la, g, p, lb, w, o, v, o', v'. split; [eapply run_history; exact H0|]. do 4 (split; [assumption|]). split; [exact Eg|].
  split. { rewrite El. constructor; [intros [Q|[]]; discriminate Q|constructor; [intros []|constructor]]. }
  split; [rewrite Ep; left; reflexivity|]. do 3 (split; [assumption|]). split; [exact Ela|].
  split. { intros k' [<-|[]]. exists w, o. split; [exact Gw|]. split; [exact Eo|exact Ho]. }
  split; [exact Gw|]. split; [exact Eo|]. split.
  { exists [], [], []. split; [exact Elb|]. split; [exact Gv|]. split; [apply negb_true_iff; assumption|]. split; intros k' []. }
  split. { split; [intros Q; apply clear_spec in Q; match goal with Z : negb (is_clear v o) = true |- _ => rewrite Q in Z; discriminate Z end|]. split; [eapply measured_of; exact Em|].
    intros Q; apply clear_spec in Q. rewrite Q in C'. discriminate C'. }
  split; [exact G'|]. split; [apply negb_true_iff; exact Hy|assumption].
Qed.
