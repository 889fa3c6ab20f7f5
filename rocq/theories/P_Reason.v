(** * C61: a vehicle accelerates as fast as it can unless there is a reason not to *)
From Coq Require Import List Bool ZArith NArith Arith Lia Reals Lra.
From Flocq Require Import Core.
From Verif Require Import Arith F64 RealArith Base BaseProofs SlotMap Util Geom Light Accel Net Path Vehicle LinkOps Sim SpecLight SpecSim SlotMapProofs Safe NetInv SimInv AccSafe SimSafe StepSafe OpSafe Evo StepEvo SimProofs SimExample StepProofs Ord LogProofs SpecMotion Motion RFacts P_Motion SpecEnter EnterProofs P_Enter SpecAhead P_Ahead P_Lane P_Proj NetEvo SpecConf ConfProofs P_Conf SpecSide P_Side SpecReason.
Import ListNotations.

Section Reason.
  Context {A : Arith}.

  (** The projections of a link start from it, in a group of different lanes. *)
  Lemma projections_of V (g : group) a ps p : group_ok V g -> In a (g_links g) -> projections_from_link g a = Ok ps -> In p ps ->
    In p (g_projs g) /\ (NoDup (g_links g) -> pj_src p = a).
  Proof.
    intros GO Ha H Hin. unfold projections_from_link in H. destruct (find_link_in g a Ha) as (i & Ei & Hi). rewrite Ei in H. cbn [of_option bind] in H.
    destruct (Nat.leb _ _); [|discriminate H]. injection H as <-. set (n := length (g_links g) - 1) in *.
    apply In_nth_error in Hin. destruct Hin as (m & Em).
    assert (m < n) as Lm. { assert (m < length (firstn n (skipn (n * i) (g_projs g)))) as Q by (apply nth_error_Some; congruence). rewrite firstn_length in Q. lia. }
    rewrite nth_firstn in Em by auto. rewrite nth_skipn in Em. split; [eapply nth_error_In; exact Em|]. intros N. pose proof (go_projs _ _ GO) as F.
    pose proof (pairs_nth (g_links g) i m a N Hi ltac:(fold n; lia)) as Pn. fold n in Pn.
    destruct (nth_error (g_links g) (if m <? i then m else S m)) as [d|] eqn:Ed.
    2:{ apply nth_error_None in Ed. assert (i < length (g_links g)) by (apply nth_error_Some; congruence). destruct (Nat.ltb_spec m i); lia. }
    destruct (BaseProofs.Forall2_nth _ _ _ _ _ _ F Pn Em) as (E1 & _). exact E1.
  Qed.

  Section Ctx.
    Variables (s : sim) (links : linkset) (vs : vehset).
    Hypothesis N : net_ok links.
    Hypothesis Hl : listed links vs.
    Hypothesis HL : forall k l, sm_get links k = Some l -> exists l0, link_at s k = Some l0 /\ exists b, l = set_lk_active l0 b.
    Hypothesis HV : forall k, sm_get vs k = option_map v_reset (vehicle_at s k).
    Hypothesis Ent : forall k v, sm_get vs k = Some v -> 1 <= v_entered v <= length (v_route v).

    (** ** The vehicles a search meets *)
    Definition met (x : key) (pos : num) (skip : nat) (r : relveh) : Prop :=
      exists v, vehicle_at s (rv_key r) = Some v /\ rv_veh r = v_reset v /\ on_its_way s x pos (rv_key r) v (rv_idx r) (rv_pos r) /\
        (rv_idx r = 0 -> forall lx, link_at s x = Some lx -> In (rv_key r) (skipn skip (rev (lk_vehicles lx)))).

    Section Proc.
      Context {S_ : Type}.
      Variable func : S_ -> relveh -> res (S_ * bool).
      Variable I : S_ -> Prop.
      Variables (x : key) (pos0 : num) (skip0 : nat).
      Hypothesis Hf : forall st r st' b, I st -> met x pos0 skip0 r -> func st r = Ok (st', b) -> I st'.

      Lemma scan_met i a la d ids : way_back s x pos0 i a d -> link_at s a = Some la -> (forall k, In k ids -> In k (lk_vehicles la)) ->
        (i = 0 -> forall k lx, In k ids -> link_at s x = Some lx -> In k (skipn skip0 (rev (lk_vehicles lx)))) ->
        forall st se, I st -> scan func vs (lk_length la) (i, x) d (nsub d (nmul MAX_LOOKAHEAD (lk_limit la))) ids st = Ok se -> I (fst se).
      Proof.
        intros W Ga. induction ids as [|id ids IH]; intros Hin Hs st se Is H; cbn [scan] in H; [injection H as <-; exact Is|].
        assert (forall st, I st -> scan func vs (lk_length la) (i, x) d (nsub d (nmul MAX_LOOKAHEAD (lk_limit la))) ids st = Ok se -> I (fst se)) as IH'.
        { intros st0 I0 H0. eapply IH; [intros; apply Hin; right; assumption|intros Q k lx Hk Gx; eapply Hs; [exact Q|right; exact Hk|exact Gx]|exact I0|exact H0]. }
        bok H v Hv. unfold get_vehicle in Hv. apply of_option_ok in Hv. rewrite HV in Hv. destruct (vehicle_at s id) as [v0|] eqn:G0; [|discriminate Hv]. injection Hv as <-.
        destruct (nltb (pos_front (v_reset v0)) _) eqn:Ew; [injection H as <-; exact Is|]. cbn [fst snd] in H.
        change (get_route (v_reset v0)) with (get_route v0) in H. destruct (get_route v0 i) as [[y st0]|] eqn:Er; [|eauto]. destruct (key_eqb_spec y x) as [Ey|_]; cbn [negb] in H; [rewrite Ey in Er; clear Ey|eauto].
        assert (met x pos0 skip0 (RV id (v_reset v0) i d)) as M.
        { exists v0. split; [exact G0|]. split; [reflexivity|]. split.
          - exists a, la. split; [exact W|]. split; [exact Ga|]. split; [apply Hin; left; reflexivity|]. split; [|exact Ew].
            unfold get_route in Er. unfold heads_to. cbn [rv_idx]. destruct (nth_error (v_route v0) i); [|discriminate Er]. injection Er as E9 _; rewrite E9. reflexivity.
          - cbn [rv_idx rv_key]. intros E0 lx Gx. apply Hs; [exact E0|left; reflexivity|exact Gx]. }
        assert (bind (func st (RV id (v_reset v0) i d)) (fun sb => if snd sb then scan func vs (lk_length la) (i, x) d (nsub d (nmul MAX_LOOKAHEAD (lk_limit la))) ids (fst sb) else Ok (fst sb, Stop)) = Ok se -> I (fst se)) as Hgo.
        { intros Hb. bok Hb sb Hsb. destruct sb as [st1 b]. pose proof (Hf _ _ _ _ Is M Hsb) as I1. cbn [fst snd] in Hb. destruct b; [eauto|injection Hb as <-; exact I1]. }
        destruct st0; [| |exact (Hgo H)]; (destruct (nltb (lk_length la) d); [injection H as <-; exact Is|exact (Hgo H)]).
      Qed.

      Lemma process_met fuel : forall i a l d skip st st', way_back s x pos0 i a d -> sm_get links a = Some l -> (i = 0 -> skip = skip0) -> I st ->
        process_vehicles func fuel links vs l (i, x) d skip st = Ok st' -> I st'.
      Proof.
        induction fuel as [|fuel IH]; intros i a l d skip st st' W G Hs Is H; cbn [process_vehicles] in H; [discriminate H|].
        destruct (negb (lk_active l)); [injection H as <-; exact Is|]. bok H se Hse. destruct (HL _ _ G) as (la & Ga & ba & El).
        assert (I (fst se)) as I1.
        { rewrite El in Hse. change (lk_limit (set_lk_active la ba)) with (lk_limit la) in Hse. change (lk_vehicles (set_lk_active la ba)) with (lk_vehicles la) in Hse. change (lk_length (set_lk_active la ba)) with (lk_length la) in Hse.
          eapply scan_met; [exact W|exact Ga| | |exact Is|exact Hse].
          - intros k Hk. apply skipn_in in Hk. apply in_rev. exact Hk.
          - intros E0 k lx Hk Gx. rewrite <- (Hs E0). assert (a = x) by (subst i; inversion W; reflexivity). subst a. assert (lx = la) by congruence. subst lx. exact Hk. }
        destruct (snd se); [injection H as <-; exact I1|]. destruct (nleb _ _); [injection H as <-; exact I1|].
        assert (lk_in l = lk_in la) as Ei by (rewrite El; reflexivity). rewrite Ei in H. cbn [fst snd] in H.
        assert (forall id, In id (lk_in la) -> In id (lk_in la)) as Hin by auto. revert Hin I1 H. generalize (fst se). generalize (lk_in la) at 1 3 as ids.
        induction ids as [|id ids IHi]; intros st1 Hin I1 H; cbn [foldM] in H; [injection H as <-; exact I1|].
        bok H st2 H2. bok H2 l' Hl'. unfold get_link in Hl'. apply of_option_ok in Hl'. destruct (HL _ _ Hl') as (lb & Gb & bb & Elb).
        apply (IHi st2); [intros; apply Hin; right; assumption| |exact H].
        eapply (IH (S i) id l' (nadd d (lk_length l')) 0); [|exact Hl'|discriminate|exact I1|exact H2].
        replace (lk_length l') with (lk_length lb) by (rewrite Elb; reflexivity). eapply back_further; [exact W|exact Ga|apply Hin; left; reflexivity|exact Gb].
      Qed.
    End Proc.

    (** ** The accelerations in the log have reasons *)
    Definition grounded (log : list eff) : Prop := forall k y, In (EAcc k y) log -> exists v, vehicle_at s k = Some v /\ reason s k v y.
    Lemma grounded_cons e log : grounded log -> match e with EAcc k y => exists v, vehicle_at s k = Some v /\ reason s k v y | _ => True end -> grounded (e :: log).
    Proof. intros G H k y [->|Hin]; [exact H|exact (G _ _ Hin)]. Qed.
    Lemma grounded_nil : grounded [].
    Proof. intros k y []. Qed.

    Lemma follow_grounded x lx ids log log' : link_at s x = Some lx -> (exists pre, lk_vehicles lx = pre ++ ids) -> grounded log -> follow_on_link vs (lk_limit lx) ids log = Ok log' -> grounded log'.
    Proof.
      intros Gx. revert log. induction ids as [|id ids IH]; intros log (pre & E) Gr H; cbn [follow_on_link] in H; [injection H as <-; exact Gr|].
      assert (In id (lk_vehicles lx)) as Hid by (rewrite E; apply in_elt). destruct ids as [|id2 ids].
      - bok H v Hv. injection H as <-. unfold get_vehicle in Hv. apply of_option_ok in Hv. rewrite HV in Hv. destruct (vehicle_at s id) as [v0|] eqn:G0; [|discriminate Hv]. injection Hv as <-.
        apply grounded_cons; [exact Gr|]. exists v0. split; [exact G0|]. exact (by_limit s id v0 x lx Gx Hid).
      - bok H v Hv. bok H v2 Hv2. unfold get_vehicle in Hv, Hv2. apply of_option_ok in Hv. apply of_option_ok in Hv2. rewrite HV in Hv, Hv2.
        destruct (vehicle_at s id) as [v0|] eqn:G0; [|discriminate Hv]. injection Hv as <-. destruct (vehicle_at s id2) as [v20|] eqn:G2; [|discriminate Hv2]. injection Hv2 as <-.
        apply IH in H; [exact H|exists (pre ++ [id]); rewrite <- app_assoc; exact E|]. apply grounded_cons; [apply grounded_cons; [exact Gr|]|].
        + exists v0. split; [exact G0|]. apply (by_leader s id v0 x lx id2 v20 Gx); [exists pre, ids; exact E|exact G2].
        + exists v0. split; [exact G0|]. exact (by_limit s id v0 x lx Gx Hid).
    Qed.

    Lemma entering_grounded fuel x lx b log log' : link_at s x = Some lx -> sm_get links x = Some (set_lk_active lx b) -> grounded log ->
      process_vehicles (entering_cb vs (set_lk_active lx b)) fuel links vs (set_lk_active lx b) (0, x) n0 (length (lk_vehicles lx)) log = Ok log' -> grounded log'.
    Proof.
      intros Gx G Gr H. refine (process_met (entering_cb vs (set_lk_active lx b)) grounded x n0 (length (lk_vehicles lx)) _ fuel 0 x _ n0 _ log log' (back_here s x n0) G (fun _ => eq_refl) Gr H).
      clear - HV Gx. intros log r log' bb Gr (v & Gv & Ev & W & Hs) H.
      assert (rv_idx r <> 0) as Nz. { intros E. specialize (Hs E _ Gx). rewrite skipn_all2 in Hs by (rewrite rev_length; lia). destruct Hs. }
      destruct (rv_idx r) as [|i] eqn:Ei; [contradiction|]. unfold entering_cb in H. change (lk_limit (set_lk_active lx b)) with (lk_limit lx) in H. change (lk_vehicles (set_lk_active lx b)) with (lk_vehicles lx) in H.
      assert (grounded (rv_speed_limit r (lk_limit lx) n0 ++ log)) as G1.
      { unfold rv_speed_limit. rewrite Ev. change (vx_speed_limit (v_reset v)) with (vx_speed_limit v). destruct (vx_speed_limit v (lk_limit lx) _) as [y|] eqn:Ey; [|exact Gr].
        apply grounded_cons; [exact Gr|]. exists v. split; [exact Gv|]. apply (by_limit_ahead s _ v x lx i (rv_pos r) y Gx W).
        unfold vx_speed_limit, x_speed_limit in Ey. unfold for_limit. destruct (nleb _ n0) eqn:Ed in Ey; rewrite Ed; [left; split; [reflexivity|injection Ey as <-; reflexivity]|right].
        match type of Ey with (if nleb ?a ?b then _ else _) = _ => change a with (slowing v (lk_limit lx) (nsub (nadd (rv_pos r) n0) (v_pos v))) in Ey; change b with (nneg (comf_dec v)) in Ey end.
        destruct (nleb (slowing _ _ _) _) eqn:Es; [|discriminate Ey]. injection Ey as <-. auto. }
      destruct (lk_vehicles lx) as [|k2 ah] eqn:Elv; cbn [hd_error] in H; [injection H as <- <-; exact G1|]. bok H v2 Hv2. injection H as <- <-.
      unfold get_vehicle in Hv2. apply of_option_ok in Hv2. rewrite HV in Hv2. destruct (vehicle_at s k2) as [v20|] eqn:G2; [|discriminate Hv2]. injection Hv2 as <-.
      apply grounded_cons; [exact G1|]. exists v. split; [exact Gv|]. rewrite Ev. apply (by_last_ahead s _ v x lx i (rv_pos r) k2 v20 Gx W); [exists ah; exact Elv|exact G2].
    Qed.

    Lemma stopline_grounded fuel x lx b log log' : link_at s x = Some lx -> sm_get links x = Some (set_lk_active lx b) -> log_ok links vs log -> grounded log ->
      (forall log r log' bb, log_ok links vs log -> rv_ok vs x r -> stopline_cb fuel links vs (set_lk_active lx b) log r = Ok (log', bb) -> log_ok links vs log') ->
      process_vehicles (stopline_cb fuel links vs (set_lk_active lx b)) fuel links vs (set_lk_active lx b) (0, x) (lk_length lx) 0 log = Ok log' -> grounded log'.
    Proof.
      intros Gx G Lo Gr Keep H.
      assert (grounded log' /\ log_ok links vs log') as (R & _); [|exact R].
      refine (process_met (stopline_cb fuel links vs (set_lk_active lx b)) (fun lg => grounded lg /\ log_ok links vs lg) x (lk_length lx) 0 _ fuel 0 x _ (lk_length lx) _ log log' (back_here s x _) G (fun _ => eq_refl) (conj Gr Lo) H).
      clear Gr Lo H. clear log log'. intros log r log' bb (Gr & Lo) (v & Gv & Ev & W & _) H. assert (log_ok links vs log') as Lo'.
      { eapply Keep; [exact Lo| |exact H]. split; [rewrite HV, Gv, Ev; reflexivity|]. destruct W as (a & la & _ & _ & _ & Hh & _). rewrite Ev. unfold get_route. change (v_route (v_reset v)) with (v_route v). unfold heads_to in Hh. rewrite Hh. cbn [option_map]. eauto. }
      split; [|exact Lo']. unfold stopline_cb in H. unfold rv_route, get_route in H. rewrite Ev in H. replace (rv_idx r + 1) with (S (rv_idx r)) in H by lia.
      change (v_route (v_reset v)) with (v_route v) in H. change (v_entered (v_reset v)) with (v_entered v) in H. change (v_queued (v_reset v)) with (v_queued v) in H. change (v_can_exit (v_reset v)) with (v_can_exit v) in H.
      assert (forall lg, grounded lg -> must_stop s v (rv_idx r) lx (rv_pos r) -> grounded (rv_stop_at_line r n0 :: lg)) as Stop.
      { intros lg Gl M. apply grounded_cons; [exact Gl|]. exists v. split; [exact Gv|]. rewrite Ev. exact (by_line s _ v x lx (rv_idx r) (rv_pos r) Gx W M). }
      destruct (nth_error (v_route v) (S (rv_idx r))) as [y|] eqn:En; cbn [option_map] in H.
      - destruct (Nat.ltb_spec (S (rv_idx r)) (v_entered v)) as [Le|Le]; [injection H as <- <-; exact Gr|].
        destruct (Nat.eqb_spec (v_entered v) (S (rv_idx r))) as [Ee|Ne]; [destruct (v_queued v) as [since|] eqn:Eq|].
        + bok H ly Hly. unfold get_link in Hly. apply of_option_ok in Hly. destruct (HL _ _ Hly) as (ly0 & Gy & by_ & ->). change (lk_control (set_lk_active ly0 by_)) with (lk_control ly0) in H.
          destruct (lk_control ly0) as [|d m p|] eqn:Co.
          * destruct (negb _); injection H as <- <-; [apply grounded_cons; [exact Gr|exact Logic.I]|exact Gr].
          * bok H bl Hbl. destruct bl as [bq lq]. cbn [fst snd] in H. change (lk_length (set_lk_active lx b)) with (lk_length lx) in Hbl.
            pose proof (can_enter_exact s links vs HL HV N _ y ly0 by_ (lk_length lx) r since p log bq lq v Lo Hly Ev Hbl) as Ex.
            assert (grounded lq) as Gq. { unfold can_enter in Hbl. bok Hbl oo Hoo. destruct oo; injection Hbl as _ <-; [apply grounded_cons; [exact Gr|exact Logic.I]|exact Gr]. }
            destruct bq; injection H as <- <-; [apply grounded_cons; [exact Gq|exact Logic.I]|]. apply Stop; [exact Gq|]. right. exists y, ly0. split; [exact En|]. split; [lia|]. split; [exact Gy|]. right. exists d, m, p. split; [exact Co|].
            right. exists since. split; [split; [exact Ee|exact Eq]|]. intros Q. apply Ex in Q. discriminate Q.
          * injection H as <- <-. apply Stop; [exact Gr|]. right. exists y, ly0. split; [exact En|]. split; [lia|]. split; [exact Gy|]. left. exact Co.
        + bok H ly Hly. unfold get_link in Hly. apply of_option_ok in Hly. destruct (HL _ _ Hly) as (ly0 & Gy & by_ & ->). change (lk_control (set_lk_active ly0 by_)) with (lk_control ly0) in H.
          destruct (lk_control ly0) as [|d m p|] eqn:Co.
          * destruct (negb _); injection H as <- <-; [apply grounded_cons; [exact Gr|exact Logic.I]|exact Gr].
          * injection H as <- <-. apply Stop; [destruct (_ && _); [apply grounded_cons; [exact Gr|exact Logic.I]|exact Gr]|].
            right. exists y, ly0. split; [exact En|]. split; [lia|]. split; [exact Gy|]. right. exists d, m, p. split; [exact Co|]. left. right. split; [exact Ee|exact Eq].
          * injection H as <- <-. apply Stop; [exact Gr|]. right. exists y, ly0. split; [exact En|]. split; [lia|]. split; [exact Gy|]. left. exact Co.
        + bok H ly Hly. unfold get_link in Hly. apply of_option_ok in Hly. destruct (HL _ _ Hly) as (ly0 & Gy & by_ & ->). change (lk_control (set_lk_active ly0 by_)) with (lk_control ly0) in H.
          destruct (lk_control ly0) as [|d m p|] eqn:Co.
          * destruct (negb _); injection H as <- <-; [apply grounded_cons; [exact Gr|exact Logic.I]|exact Gr].
          * injection H as <- <-. apply Stop; [destruct (_ && _); [apply grounded_cons; [exact Gr|exact Logic.I]|exact Gr]|].
            right. exists y, ly0. split; [exact En|]. split; [lia|]. split; [exact Gy|]. right. exists d, m, p. split; [exact Co|]. left. left. lia.
          * injection H as <- <-. apply Stop; [exact Gr|]. right. exists y, ly0. split; [exact En|]. split; [lia|]. split; [exact Gy|]. left. exact Co.
      - destruct (v_can_exit v) eqn:Ce; injection H as <- <-; [exact Gr|]. apply Stop; [exact Gr|]. left. split; [exact En|exact Ce].
    Qed.

    (** ** Obstacles in other lanes *)
    Lemma skip_skip {X} i j (l : list X) : skipn j (skipn i l) = skipn (i + j) l.
    Proof. revert l. induction i as [|i IH]; intros l; [reflexivity|]. destruct l as [|x l]; [rewrite skipn_nil; destruct j; reflexivity|apply IH]. Qed.
    Lemma count_at pos ids c : count_ahead vs pos ids = Ok (Some c) -> exists pre k v post, ids = pre ++ k :: post /\ length pre = c /\ vehicle_at s k = Some v /\ is_behind v pos.
    Proof.
      revert c. induction ids as [|k ids IH]; intros c H; cbn [count_ahead] in H; [discriminate H|]. bok H w Hw. unfold get_vehicle in Hw. apply of_option_ok in Hw. rewrite HV in Hw.
      destruct (vehicle_at s k) as [v|] eqn:G; [|discriminate Hw]. injection Hw as <-. change (v_pos (v_reset v)) with (v_pos v) in H. destruct (nltb (v_pos v) pos) eqn:E.
      - injection H as <-. exists [], k, v, ids. auto.
      - bok H oc Ho. destruct oc as [c'|]; [|discriminate H]. injection H as <-. destruct (IH _ Ho) as (pre & k2 & v2 & post & -> & <- & G2 & B2). exists (k :: pre), k2, v2, post. auto.
    Qed.
    Lemma skip_past lb pos skip cnt k : count_ahead vs pos (skipn skip (rev (lk_vehicles lb))) = Ok cnt ->
      In k (skipn (match cnt with Some c => skip + c | None => length (lk_vehicles lb) end) (rev (lk_vehicles lb))) -> not_past s lb pos k.
    Proof.
      intros Hc Hk. destruct cnt as [c|]; [|rewrite skipn_all2 in Hk by (rewrite rev_length; lia); destruct Hk].
      destruct (count_at _ _ _ Hc) as (pre & k2 & v2 & post & E & Lp & G2 & B2).
      assert (skipn (skip + c) (rev (lk_vehicles lb)) = k2 :: post) as Es.
      { rewrite <- (skip_skip skip c), E, skipn_app, skipn_all2 by lia. rewrite Lp, Nat.sub_diag. reflexivity. }
      rewrite Es in Hk. pose proof (firstn_skipn skip (rev (lk_vehicles lb))) as Ef. rewrite E in Ef. rewrite app_assoc in Ef. apply (f_equal (@rev _)) in Ef. rewrite rev_involutive in Ef.
      revert Ef. generalize (firstn skip (rev (lk_vehicles lb))). intros fr Ef. exists k2, v2, (rev post), (rev (fr ++ pre)). split.
      - rewrite <- Ef, rev_app_distr. cbn [rev]. rewrite <- app_assoc. reflexivity.
      - split; [exact G2|]. split; [exact B2|]. destruct Hk as [->|Hk]; [left; reflexivity|right; apply in_rev; rewrite rev_involutive; exact Hk].
    Qed.
    Lemma measured_plain lb b o o' : measured (set_lk_active lb b) o o' -> measured lb o o'.
    Proof.
      remember (set_lk_active lb b) as l' eqn:E. intros M. induction M as [o H|o o' H M IH]; subst l'.
      - exact (measured_now lb o H).
      - apply measured_further; [exact H|exact IH].
    Qed.
    Lemma obstacles_grounded fuel a la g p b lb bb : link_at s a = Some la -> lk_group la = Some g -> In p (g_projs g) -> (NoDup (g_links g) -> pj_src p = a) -> pj_dst p = b ->
      link_at s b = Some lb -> sm_get links b = Some (set_lk_active lb bb) ->
      forall ids skip log log', (forall k, In k ids -> In k (lk_vehicles la)) -> grounded log -> follow_obstacles fuel links vs (set_lk_active lb bb) p ids skip log = Ok log' -> grounded log'.
    Proof.
      intros Ga Eg Hpj Hsrc Ed Gb Gb'. induction ids as [|id ids IH]; intros skip log log' Hids Gr H; cbn [follow_obstacles] in H; [injection H as <-; exact Gr|].
      bok H wv Hwv. unfold get_vehicle in Hwv. apply of_option_ok in Hwv. rewrite HV in Hwv. destruct (vehicle_at s id) as [w|] eqn:Gw; [|discriminate Hwv]. injection Hwv as <-.
      bok H o Ho. change (v_project (v_reset w) p) with (v_project w p) in Ho. change (lk_vehicles (set_lk_active lb bb)) with (lk_vehicles lb) in H. bok H cnt Hcnt.
      bok H lg Hpv. refine (IH _ _ _ _ _ H); [intros; apply Hids; right; assumption|]. assert (lk_id (set_lk_active lb bb) = b) as Ei by (exact (lo_id _ _ _ (nk_link _ N _ _ Gb'))). rewrite Ei in Hpv.
      refine (process_met _ grounded b (o_pos o) _ _ _ 0 b _ _ _ _ _ (back_here s b _) Gb' (fun _ => eq_refl) Gr Hpv).
      intros log0 r log1 bx Gr0 (v & Gv & Ev & W & Hs) Hcb. unfold obstacle_cb in Hcb. bok Hcb q Hq. destruct q as [|qp qv]; injection Hcb as <- <-; [exact Gr0|].
      apply grounded_cons; [exact Gr0|]. exists v. split; [exact Gv|]. rewrite Ev in Hq |- *.
      unfold can_pass in Hq. change (is_clear (v_reset v)) with (is_clear v) in Hq. destruct (is_clear v o) eqn:C1; [discriminate Hq|]. bok Hq o2 H2. apply measured_of, measured_plain in H2. destruct (is_clear v o2) eqn:C2; [discriminate Hq|]. injection Hq as <- <-.
      assert (in_the_way v o lb o2) as Iw. { split; [|split; [exact H2|]]; intros Q; apply clear_spec in Q; congruence. }
      replace (o_vel o2) with (v_vel w) by (rewrite (measured_vel _ _ _ H2); symmetry; exact (appears_vel _ _ _ Ho)).
      eapply (by_other_lane s (rv_key r) v a la g p b lb id w o o2 (rv_idx r) (rv_pos r)); try eassumption; [apply Hids; left; reflexivity|].
      intros E0. eapply skip_past; [exact Hcnt|]. exact (Hs E0 _ Gb).
    Qed.

    Lemma accelerations_grounded fuel x lx b log log' : link_at s x = Some lx -> sm_get links x = Some (set_lk_active lx b) -> grounded log ->
      apply_accelerations fuel links vs (set_lk_active lx b) log = Ok log' -> grounded log'.
    Proof.
      intros Gx G Gr H. unfold apply_accelerations in H. assert (lk_id (set_lk_active lx b) = x) as Ei by (exact (lo_id _ _ _ (nk_link _ N _ _ G))). rewrite Ei in H.
      bok H lg1 H1. apply (follow_grounded x lx) in H1; [|exact Gx|exists []; reflexivity|exact Gr]. bok H lg2 H2. apply (entering_grounded _ x lx b) in H2; [|exact Gx|exact G|exact H1].
      change (lk_group (set_lk_active lx b)) with (lk_group lx) in H. destruct (lk_group lx) as [g|] eqn:Eg; [|injection H as <-; exact H2]. bok H ps Hps.
      destruct (lo_group _ _ _ (nk_link _ N _ _ G) g Eg) as (GO & Hag).
      assert (forall p, In p ps -> In p (g_projs g) /\ (NoDup (g_links g) -> pj_src p = x)) as Hpp by (intros p Hin; exact (projections_of _ _ _ _ _ GO Hag Hps Hin)). clear Hps.
      revert lg2 H2 H. induction ps as [|p ps IH]; intros lg2 H2 H; cbn [foldM] in H; [injection H as <-; exact H2|]. bok H lg3 H3.
      apply (IH ltac:(intros; apply Hpp; right; assumption) lg3); [|exact H]. bok H3 l2 Hl2. unfold get_link in Hl2. apply of_option_ok in Hl2. destruct (HL _ _ Hl2) as (l20 & G2 & b2 & ->).
      destruct (Hpp p (or_introl eq_refl)) as (Q1 & Q2).
      eapply (obstacles_grounded fuel x lx g p (pj_dst p) l20 b2); [exact Gx|exact Eg|exact Q1|exact Q2|reflexivity|exact G2|exact Hl2| |exact H2|exact H3]. intros k Hk. apply in_rev. exact Hk.
    Qed.

    (** ** Conflict points *)
    Hypothesis HU : forall a l, sm_get links a = Some l -> (in_use s a <-> lk_active l = true).
    Hypothesis Tr : forall x y z : num, nnan x = false -> nnan y = false -> nnan z = false -> nltb x y = true -> nltb x z = false -> nltb y z = false.
    Hypothesis As : forall x y : num, nltb x y = true -> nltb y x = false.

    Lemma pairs_inv same l : forall log e, In e (conflict_pairs same l log) -> In e log \/
      exists p leader follower q, l = p ++ leader :: follower :: q /\ rv_link leader 0 <> rv_link follower 0 /\
        e = if same && nltb n0 (rv_rear leader) then rv_follow_obstacle follower (v_rear_coords (rv_veh leader)) (v_vel (rv_veh leader)) else rv_stop_at_line follower n0.
    Proof.
      induction l as [|x l IH]; intros log e H; [left; exact H|]. destruct l as [|y l]; [left; exact H|]. rewrite pairs_step in H. apply IH in H. destruct H as [H|(p & leader & follower & q & E & Nl & He)].
      - destruct (okey_eqb (rv_link x 0) (rv_link y 0)) eqn:Ek; cbn [negb] in H; [left; exact H|].
        assert (rv_link x 0 <> rv_link y 0) as Nk. { intros Q. rewrite Q in Ek. unfold okey_eqb in Ek. destruct (rv_link y 0); [rewrite key_eqb_refl in Ek|]; discriminate Ek. }
        assert (In e log \/ e = if same && nltb n0 (rv_rear x) then rv_follow_obstacle y (v_rear_coords (rv_veh x)) (v_vel (rv_veh x)) else rv_stop_at_line y n0) as [Q|Q].
        { destruct (same && nltb n0 (rv_rear x)); destruct H as [<-|H]; auto. }
        + left. exact Q.
        + right. exists [], x, y, l. auto.
      - right. exists (x :: p), leader, follower, q. rewrite E. auto.
    Qed.
    Lemma cp_grounded fuel cp log log' : CI s -> net_ok (s_links s) -> In cp (s_conflicts s) -> grounded log -> cp_apply fuel links vs cp log = Ok log' -> grounded log'.
    Proof.
      intros C Ns Hin Gr H. pose proof C as (C1 & C2). rewrite Forall_forall in C2. destruct (C2 _ Hin) as (Nab & fu & la & lb & Ga & Gb & _). clear C2 fu.
      destruct (cp_a cp) as [a mna mxa] eqn:Ea. destruct (cp_b cp) as [b mnb mxb] eqn:Eb. cbn [cpl_link] in *.
      set (c := LConf b mxa mnb mxb). set (c' := LConf a mxb mna mxa).
      assert (twins cp a b c c') as Tw. { unfold twins, c, c'. cbn [cf_max cf_min]. auto. }
      destruct (twins_zone _ _ _ _ _ _ _ _ C Ns Ga Gb Hin Tw) as (_ & _ & _ & [(_ & _ & Sd)|(Q & _)]); [|rewrite Ea in Q; exfalso; congruence].
      assert (In c (lk_conflicts la)) as Hc.
      { rewrite (C1 _ _ Ga). apply in_flat_map. exists cp. split; [exact Hin|]. unfold entries_of, link_conflicts. rewrite Ea, Eb. cbn [filter fst cpl_link cpl_max cpl_min]. rewrite key_eqb_refl. cbn [map snd]. left. reflexivity. }
      assert (In c' (lk_conflicts lb)) as Hc'.
      { rewrite (C1 _ _ Gb). apply in_flat_map. exists cp. split; [exact Hin|]. unfold entries_of, link_conflicts. rewrite Ea, Eb. cbn [filter fst cpl_link cpl_max cpl_min]. rewrite key_eqb_refl.
        destruct (key_eqb_spec a b); [contradiction|]. cbn [map snd]. left. reflexivity. }
      unfold cp_apply in H. rewrite Ea, Eb in H. bok H bu1 H1. destruct (find_near s links vs HL HV HU _ _ _ _ _ _ H1) as (n1 & E1 & A1 & B1). cbn [app] in E1. subst n1.
      destruct bu1 as [|q0 bu1]; [injection H as <-; exact Gr|]. bok H bu2 H2. destruct (find_near s links vs HL HV HU _ _ _ _ _ _ H2) as (n2 & E2 & A2 & B2).
      destruct (Nat.eqb _ _); [injection H as <-; exact Gr|]. bok H l Hs. injection H as <-. destruct (sort_desc_spec Tr As _ _ Hs) as (Sin & Sdd).
      assert (forall z mn mx r, near_zone s z mn mx r -> vehicle_at s (ar_key r) = Some (ar_veh r)) as Vn.
      { intros z mn mx r (_ & _ & i & Ap). apply approaching_facts in Ap. tauto. }
      destruct (sorted_order s l Sdd) as (order & Bf & F & V).
      { intros q Hq. apply Sin in Hq. rewrite E2 in Hq. apply in_app_iff in Hq. destruct Hq as [Hq|Hq]; [destruct (A1 _ Hq) as (r & Nr & Mr)|destruct (A2 _ Hq) as (r & Nr & Mr)]; exists r; eauto. }
      rewrite Forall_forall in V.
      assert (forall r, In r order <-> near_zone s a mna mxa r \/ near_zone s b mnb mxb r) as Oi.
      { intros r. split.
        + intros Hr. destruct (Forall2_in_r _ _ _ _ F Hr) as (q & Hq & Mq). apply Sin in Hq. rewrite E2 in Hq. apply in_app_iff in Hq.
          destruct Hq as [Hq|Hq]; [destruct (A1 _ Hq) as (r' & Nr & Mr); left|destruct (A2 _ Hq) as (r' & Nr & Mr); right]; rewrite (matches_fun s q r r'); eauto.
        + intros Hr. assert (exists q, In q l /\ matches q r) as (q & Hq & Mq).
          { destruct Hr as [Hr|Hr]; [destruct (B1 _ Hr) as (q & Hq & Mq)|destruct (B2 _ Hr) as (q & Hq & Mq)]; exists q; (split; [|exact Mq]); apply Sin; rewrite E2; apply in_app_iff; auto. }
          destruct (Forall2_in_l _ _ _ _ F Hq) as (r' & Hr' & Mr'). rewrite (matches_fun s q r r'); auto. destruct Hr as [Hr|Hr]; eauto. }
      intros k y Hy. apply pairs_inv in Hy. destruct Hy as [Hy|(p & ql & qf & t & -> & Nl & He)]; [exact (Gr _ _ Hy)|].
      apply Forall2_app_inv_l in F. destruct F as (p' & o2 & Fp & Fl & Eo). inversion Fl as [|x1 leader x2 o3 Ml Fl2]; subst. inversion Fl2 as [|x1 follower x2 o4 Mf _]; subst.
      assert (ar_link leader <> ar_link follower) as Na. { destruct Ml as (_ & _ & _ & Q1), Mf as (_ & _ & _ & Q2). congruence. }
      assert (vehicle_at s (ar_key follower) = Some (ar_veh follower)) as Vf. { apply V. apply in_app_iff. right. right. left. reflexivity. }
      assert (EAcc k y = EAcc (ar_key follower) (yield_to (same_direction la lb mna mxa mnb mxb) leader follower)) as Ey.
      { rewrite He. change (cf_min c') with mna in Sd. change (cf_max c') with mxa in Sd. change (cf_min c) with mnb in Sd. change (cf_max c) with mxb in Sd. rewrite Sd. unfold yield_to. rewrite <- (matches_rear _ _ Ml). destruct Ml as (Kl & Vl & Pl & _), Mf as (Kf & Vf' & Pf & _).
        destruct (same_direction _ _ _ _ _ _ && _).
        + unfold rv_follow_obstacle. rewrite Kf, Vf', Vl. reflexivity.
        + unfold rv_stop_at_line. rewrite Kf, Vf', Pf. reflexivity. }
      injection Ey as -> ->. exists (ar_veh follower). split; [exact Vf|].
      refine (by_conflict s (ar_key follower) (ar_veh follower) a b la lb c c' _ p' leader o4 follower Ga Gb Nab Hc eq_refl Hc' eq_refl _ _ Bf eq_refl Na eq_refl eq_refl).
      - split; reflexivity.
      - exact Oi.
    Qed.
  End Ctx.

  Lemma parts_grounded (Tr : forall x y z : num, nnan x = false -> nnan y = false -> nnan z = false -> nltb x y = true -> nltb x z = false -> nltb y z = false)
      (As : forall x y : num, nltb x y = true -> nltb y x = false) e s1 s2 links vs log1 log :
    St (s_links s1) (s_vehicles s1) (s_seq s1) -> CI s1 -> parts e s1 s2 links vs log1 log -> grounded s1 log.
  Proof.
    intros St1 C P. destruct (parts_ctx _ _ _ _ _ _ _ St1 P) as (HL & HV & Ent & _). pose proof (pt_net _ _ _ _ _ _ _ P) as N. pose proof (pt_listed _ _ _ _ _ _ _ P) as Ls. pose proof (pt_chain _ _ _ _ _ _ _ P) as Hch.
    assert (forall a l, sm_get links a = Some l -> (in_use s1 a <-> lk_active l = true)) as HU.
    { intros a0 l Gl. split.
      - intros (k0 & v0 & G0 & Hin0). destruct (activate_all_active _ _ _ (pt_act _ _ _ _ _ _ _ P)) as (_ & _ & Ac). eapply (Ac k0 (v_reset v0)); [|exact Hin0|exact Gl]. rewrite HV, G0. reflexivity.
      - intros Ea. exact (activate_all_used _ _ _ (pt_act _ _ _ _ _ _ _ P) _ _ Gl Ea). }
    assert (grounded s1 log1) as G1.
    { pose proof (pt_stop _ _ _ _ _ _ _ P) as H. unfold sim_stoplines in H.
      assert (forall l0, In l0 (sm_values links) -> exists k, sm_get links k = Some l0) as Hv by (intros l0 Q; apply in_values in Q; auto).
      assert (grounded s1 []) as G0 by apply grounded_nil. assert (log_ok links vs []) as L0 by constructor. revert G0 L0 H. generalize (@nil eff) as lg.
      clear P C. induction (sm_values links) as [|y ls IH]; intros lg G0 L0 H; cbn [foldM] in H; [injection H as <-; exact G0|]. bok H lga Ha.
      destruct (Hv y (or_introl eq_refl)) as (ky & Gy).
      pose proof (safe_ok (fun _ => True) _ _ _ (apply_stoplines_safe (fun _ => True) links vs N Ls Hch (e_fuel e) ky y lg Gy L0) Ha) as La.
      apply (IH ltac:(intros; apply Hv; right; assumption) lga); [|exact La|exact H]. destruct (HL _ _ Gy) as (ly & Gly & b0 & ->).
      unfold apply_stoplines in Ha. assert (lk_id (set_lk_active ly b0) = ky) as Ei by (exact (lo_id _ _ _ (nk_link _ N _ _ Gy))). rewrite Ei in Ha.
      refine (stopline_grounded s1 links vs N HL HV _ ky ly b0 lg lga Gly Gy L0 G0 _ Ha).
      intros log0 r log' bb Lg Hr Hs. exact (safe_ok (fun _ => True) _ (fun lb => log_ok links vs (fst lb)) _ (stopline_cb_safe (fun _ => True) links vs N Ls Hch _ _ _ _ _ Lg Hr) Hs). }
    pose proof (pt_link _ _ _ _ _ _ _ P) as H. unfold sim_link_accelerations in H. bok H lg Hlg.
    assert (grounded s1 lg) as G2.
    { assert (forall l0, In l0 (sm_values links) -> exists k, sm_get links k = Some l0) as Hv by (intros l0 Q; apply in_values in Q; auto).
      clear H P. revert log1 G1 Hlg. induction (sm_values links) as [|y ls IH]; intros log1 G1 H; cbn [foldM] in H; [injection H as <-; exact G1|]. bok H lga Ha.
      apply (IH ltac:(intros; apply Hv; right; assumption) lga); [|exact H]. destruct (Hv y (or_introl eq_refl)) as (ky & Gy). destruct (HL _ _ Gy) as (ly & Gly & b0 & ->).
      eapply (accelerations_grounded s1 links vs N HL HV); [exact Gly|exact Gy|exact G1|exact Ha]. }
    assert (forall cp, In cp (s_conflicts s1) -> In cp (s_conflicts s1)) as Hcp by auto. clear Hlg. revert Hcp lg G2 H. generalize (s_conflicts s1) at 1 3 as cps.
    induction cps as [|cp cps IH]; intros Hcp lg G2 H; cbn [foldM] in H; [injection H as <-; exact G2|]. bok H lga Ha.
    apply (IH ltac:(intros; apply Hcp; right; assumption) lga); [|exact H]. eapply (cp_grounded s1 links vs HL HV HU Tr As); [exact C|exact (st_net _ _ _ St1)|apply Hcp; left; reflexivity|exact G2|exact Ha].
  Qed.
End Reason.

(** ** C61: every acceleration that is not the largest has a reason *)
Lemma reason_gen {A : Arith} (O : OrdLaws A) e ops s dt s1 s' k v v' :
  history (@sim_new A) ops s -> step e s dt = Ok s' -> due (lit 1 10) ops = true -> calculate_lane_changes e s = Ok s1 ->
  vehicle_at s1 k = Some v -> vehicle_at s' k = Some v' -> get_vehicle_frozen s k = false ->
  acceleration v' = nmax (max_acc v) full_braking \/ exists y, reason s1 k v y /\ acceleration v' = nmax y full_braking.
Proof.
  intros Hh H D H1 G1 G' Fz.
  pose proof (history_Inv _ _ _ Hh Inv_new) as I. pose proof (history_timers _ _ Hh) as (T & _). pose proof (due_true _ _ _ T D) as D'.
  assert (reachable s) as R by (exact (history_reachable _ _ _ Hh (@reach_new A))).
  destruct (step_phases _ _ _ _ I H) as (s1' & s2 & s3 & s4 & s5 & P). assert (s1' = s1) by (pose proof (ph1 _ _ _ _ _ _ _ _ _ P); congruence). subst s1'.
  assert (CI s1) as C1. { eapply CI_lane_changes; [exact (reachable_CI _ R)|exact (pn1 _ _ _ _ _ _ _ _ _ P)|]. apply (lc_fields _ _ _ H1). }
  destruct (step_refresh _ _ _ _ _ _ I H G' D') as (v0 & t1 & t2 & v1 & links & vs & log1 & log & G0 & E1 & Gt & St1 & _ & B & Pt & Ea). assert (t1 = s1) by congruence. subst t1.
  assert (v1 = v) by (unfold vehicle_at in G1; congruence). subst v1. rewrite frozen_key_mem in Fz. rewrite Fz in Ea. apply body_spec in B. destruct B as (_ & Ev & _).
  assert (forall x y z : num, nnan x = false -> nnan y = false -> nnan z = false -> nltb x y = true -> nltb x z = false -> nltb y z = false) as Tr.
  { intros x y z Nx Ny Nz. rewrite !(o_lt O), Nx, Ny, Nz. cbn [orb negb andb]. intros Q1 Q2. destruct (Rlt_bool_spec (val O x) (val O y)); [|discriminate Q1]. destruct (Rlt_bool_spec (val O x) (val O z)); [discriminate Q2|].
    apply Rlt_bool_false. lra. }
  assert (forall x y : num, nltb x y = true -> nltb y x = false) as As.
  { intros x y. rewrite !(o_lt O). intros Q. destruct (Rlt_bool_spec (val O x) (val O y)); [|rewrite andb_false_r in Q; discriminate Q]. rewrite (Rlt_bool_false (val O y)) by lra. apply andb_false_r. }
  pose proof (parts_grounded Tr As _ _ _ _ _ _ _ St1 C1 Pt) as Gr. unfold acceleration, am_get. rewrite Ea. cbn [am_acc am_set_acc]. rewrite <- Ev.
  destruct (log_acc_in k (am_max (v_acc v)) log) as [->|Hin]; [left; reflexivity|right]. destruct (Gr _ _ Hin) as (v9 & G9 & Rs). assert (v9 = v) by congruence. subst v9.
  eexists. split; [exact Rs|reflexivity].
Qed.
(** [s1] is the simulation after the lane changes at the start of the step.  A vehicle which is not
    frozen gets its maximum acceleration or one that it has a reason not to exceed. *)
Theorem C61_reason : forall e ops s dt s1 s' k v v',
  history (@sim_new F64) ops s -> step e s dt = Ok s' -> due (lit 1 10) ops = true -> calculate_lane_changes e s = Ok s1 ->
  vehicle_at s1 k = Some v -> vehicle_at s' k = Some v' -> get_vehicle_frozen s k = false ->
  acceleration v' = nmax (max_acc v) full_braking \/ exists y, reason s1 k v y /\ acceleration v' = nmax y full_braking.
Proof. exact (@reason_gen F64 F64_ord). Qed.
Print Assumptions C61_reason.
Theorem C61_reason_exact : forall e ops s dt s1 s' k v v',
  history (@sim_new RA) ops s -> step e s dt = Ok s' -> due (lit 1 10) ops = true -> calculate_lane_changes e s = Ok s1 ->
  vehicle_at s1 k = Some v -> vehicle_at s' k = Some v' -> get_vehicle_frozen s k = false ->
  acceleration v' = nmax (max_acc v) full_braking \/ exists y, reason s1 k v y /\ acceleration v' = nmax y full_braking.
Proof. exact (@reason_gen RA RA_ord). Qed.
Print Assumptions C61_reason_exact.

(** The car of C60 that brakes behind one in the other lane has a reason to. *)
Definition reason_b (s1 s' : @sim F64) : bool := veh_b s1 car2 (fun v => veh_b s' car2 (fun v' => nltb (acceleration v') n0 && nltb n0 (nmax (max_acc v) full_braking))).
Lemma ex_reason_ok :
  okb (run ex_env sim_new ex_beside) (fun s => due (@lit F64 1 10) ex_beside && negb (get_vehicle_frozen s car2) &&
    okb (calculate_lane_changes ex_env s) (fun s1 => okb (step ex_env s (fz 1)) (fun s' => reason_b s1 s'))) = true.
Proof. vm_compute. reflexivity. Qed.
Example C61_example : exists s s1 s' v v' y,
  history (@sim_new F64) ex_beside s /\ step ex_env s (fz 1) = Ok s' /\ due (lit 1 10) ex_beside = true /\ calculate_lane_changes ex_env s = Ok s1 /\
  vehicle_at s1 car2 = Some v /\ vehicle_at s' car2 = Some v' /\ get_vehicle_frozen s car2 = false /\ nltb (acceleration v') n0 = true /\
  reason s1 car2 v y /\ acceleration v' = nmax y full_braking.
Proof.
  pose proof ex_reason_ok as H. apply okb_ok in H. destruct H as (s & H0 & H). apply andb_true_iff in H. destruct H as (D & H). apply andb_true_iff in D. destruct D as (D & Fz). apply negb_true_iff in Fz.
  apply okb_ok in H. destruct H as (s1 & H1 & H). apply okb_ok in H. destruct H as (s' & H2 & H).
  unfold reason_b in H. apply veh_b_ok in H. destruct H as (v & Gv & H). apply veh_b_ok in H. destruct H as (v' & G' & H). apply andb_true_iff in H. destruct H as (Lo & Hi).
  assert (history (@sim_new F64) ex_beside s) as Hh by (eapply run_history; exact H0).
  destruct (C61_reason _ _ _ _ _ _ _ _ _ Hh H2 D H1 Gv G' Fz) as [E|(y & Rs & E)].
  - exfalso. rewrite E in Lo. apply (lt_iff F64_ord) in Lo. apply (lt_iff F64_ord) in Hi. destruct Lo as (_ & _ & Lo), Hi as (_ & _ & Hi). lra.
  - exists s, s1, s', v, v', y. repeat (split; [assumption|]). exact E.
Qed.
