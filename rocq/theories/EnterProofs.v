(** * Entering links *)
From Coq Require Import List Bool ZArith NArith Arith Lia.
From Verif Require Import Arith Base BaseProofs SlotMap Util Geom Light Accel Net Path Vehicle LinkOps Sim SpecSim SlotMapProofs Safe NetInv SimInv AccSafe SimSafe StepSafe OpSafe Evo StepEvo SimProofs StepProofs LogProofs SpecMotion Motion SpecEnter.
Import ListNotations.

Section EnterProofs.
  Context {A : Arith}.

  (** ** The scan only finds vehicles that have entered the link the scan started at *)
  Section Proc.
    Context {S_ : Type}.
    Variable func : S_ -> relveh -> res (S_ * bool).
    Variable I : S_ -> Prop.
    Variables (links : linkset) (vs : vehset) (tgt : key).
    Variable Pos : num -> Prop.
    Hypothesis Padd : forall x k l, Pos x -> sm_get links k = Some l -> Pos (nadd x (lk_length l)) /\ nltb (lk_length l) (nadd x (lk_length l)) = true.
    Hypothesis Ent : forall k v, sm_get vs k = Some v -> 1 <= v_entered v.

    Variable start : num.
    Definition found (r : relveh) : Prop :=
      sm_get vs (rv_key r) = Some (rv_veh r) /\ get_route (rv_veh r) (rv_idx r) = Some (tgt, Entered) /\ Pos (rv_pos r) /\ (rv_idx r = 0 -> rv_pos r = start).
    Hypothesis Hf : forall s r s' b, I s -> found r -> func s r = Ok (s', b) -> I s'.

    Lemma scan_found len ridx pos min_pos ids s se : (ridx = 0 \/ nltb len pos = true) -> Pos pos -> (ridx = 0 -> pos = start) ->
      I s -> scan func vs len (ridx, tgt) pos min_pos ids s = Ok se -> I (fst se).
    Proof.
      intros Hp Pp P0. revert s. induction ids as [|id ids IH]; intros s Hs H; cbn [scan] in H; [injection H as <-; exact Hs|].
      bok H v Hv. unfold get_vehicle in Hv. apply of_option_ok in Hv. destruct (nltb (pos_front v) min_pos); [injection H as <-; exact Hs|].
      cbn [fst snd] in H. destruct (get_route v ridx) as [[l st]|] eqn:G; [|eauto]. destruct (key_eqb_spec l tgt); cbn [negb] in H; [subst l|eauto].
      assert (found (RV id v ridx pos) -> bind (func s (RV id v ridx pos)) (fun sb => if snd sb then scan func vs len (ridx, tgt) pos min_pos ids (fst sb) else Ok (fst sb, Stop)) = Ok se -> I (fst se)) as Hgo.
      { intros Fd Hb. bok Hb sb Hsb. destruct sb as [s1 b]. pose proof (Hf _ _ _ _ Hs Fd Hsb) as Hs1. cbn [fst snd] in Hb. destruct b; [eauto|injection Hb as <-; exact Hs1]. }
      assert (st = Entered -> found (RV id v ridx pos)) as Hfd by (intros ->; repeat split; auto).
      destruct st; [| |apply Hgo; auto].
      - destruct Hp as [->|Hp]; [|rewrite Hp in H; injection H as <-; exact Hs].
        exfalso. unfold get_route in G. destruct (nth_error (v_route v) 0); [|discriminate G]. pose proof (Ent _ _ Hv). destruct (v_entered v); [lia|discriminate G].
      - destruct Hp as [->|Hp]; [|rewrite Hp in H; injection H as <-; exact Hs].
        exfalso. unfold get_route in G. destruct (nth_error (v_route v) 0); [|discriminate G]. pose proof (Ent _ _ Hv). destruct (v_entered v); [lia|discriminate G].
    Qed.
    Lemma process_found fuel lid l ridx pos skip s s' : sm_get links lid = Some l -> (ridx = 0 \/ nltb (lk_length l) pos = true) -> Pos pos -> (ridx = 0 -> pos = start) ->
      I s -> process_vehicles func fuel links vs l (ridx, tgt) pos skip s = Ok s' -> I s'.
    Proof.
      revert lid l ridx pos skip s s'. induction fuel as [|fuel IH]; intros lid l ridx pos skip s s' G Hp Pp P0 Hs H; cbn [process_vehicles] in H; [discriminate H|].
      destruct (negb (lk_active l)); [injection H as <-; exact Hs|]. bok H se Hse. pose proof (scan_found _ _ _ _ _ _ _ Hp Pp P0 Hs Hse) as Hs1.
      destruct (snd se); [injection H as <-; exact Hs1|]. destruct (nleb _ _); [injection H as <-; exact Hs1|].
      cbn [fst snd] in H. revert Hs1 H. generalize (fst se). generalize (lk_in l) as ids. induction ids as [|id ids IHi]; intros s1 Hs1 H; cbn [foldM] in H; [injection H as <-; exact Hs1|].
      bok H s2 H2. bok H2 l' Hl'. unfold get_link in Hl'. apply of_option_ok in Hl'. destruct (Padd _ _ _ Pp Hl') as (P1 & P2).
      apply (IHi s2); [|exact H]. eapply (IH id l' (S ridx)); [exact Hl'|right; exact P2|exact P1|discriminate|exact Hs1|exact H2].
    Qed.
  End Proc.

  (** ** Gap acceptance *)
  Section Gap.
    Variable s : sim.
    Variables (links : linkset) (vs : vehset).
    Hypothesis HL : forall k l, sm_get links k = Some l -> exists l0, link_at s k = Some l0 /\ exists b, l = set_lk_active l0 b.
    Hypothesis HV : forall k, sm_get vs k = option_map v_reset (vehicle_at s k).

    Definition rule_of (q : option nat) : rule := match q with None => Ignore_none | Some b => Ignore_later b end.
    Lemma rule_of_queued c p f : rule_of (conflict_queued c p f) = precedence p f c.
    Proof.
      destruct c as [|d m p2|]; simpl; auto. unfold Z.ltb. destruct (Z.compare_spec p p2); simpl; auto.
      - subst. rewrite Z.eqb_refl. reflexivity.
      - replace (p =? p2)%Z with false by (symmetry; apply Z.eqb_neq; lia). reflexivity.
    Qed.
    Lemma get_v id v : get_vehicle vs id = Ok v -> exists v0, vehicle_at s id = Some v0 /\ v = v_reset v0.
    Proof.
      unfold get_vehicle. intros H. apply of_option_ok in H. rewrite HV in H. destruct (vehicle_at s id) as [v0|]; [|discriminate H]. injection H as <-. eauto.
    Qed.
    Lemma skip_past_spec pos1 ids rest : skip_past vs pos1 ids = Ok rest -> exists past, ids = past ++ rest /\
      Forall (fun k => exists v, vehicle_at s k = Some v /\ nltb pos1 (pos_rear v) = true) past /\
      match rest with [] => True | k :: _ => exists v, vehicle_at s k = Some v /\ nltb pos1 (pos_rear v) = false end.
    Proof.
      revert rest. induction ids as [|id ids IH]; intros rest H; cbn [skip_past] in H; [injection H as <-; exists []; auto|].
      bok H v Hv. destruct (get_v _ _ Hv) as (v0 & G0 & ->). change (pos_rear (v_reset v0)) with (pos_rear v0) in H. destruct (nltb pos1 (pos_rear v0)) eqn:E.
      - destruct (IH _ H) as (past & -> & F & R). exists (id :: past). split; [reflexivity|]. split; [|exact R]. constructor; [eauto|exact F].
      - injection H as <-. exists []. simpl. split; auto. split; [constructor|]. eauto.
    Qed.
    Lemma gap_loop_none pos0 time q idx tgt mv ids : gap_loop vs pos0 time q (idx, tgt) mv ids = Ok None -> none_heads s idx tgt ids.
    Proof.
      induction ids as [|id ids IH]; intros H; cbn [gap_loop] in H; [constructor|]. bok H v Hv. destruct (get_v _ _ Hv) as (v0 & G0 & ->).
      change (get_route (v_reset v0)) with (get_route v0) in H. cbn [fst snd] in H. unfold get_route in H. destruct (nth_error (v_route v0) idx) as [x|] eqn:E; cbn [option_map] in H.
      - destruct (key_eqb_spec x tgt); cbn [negb] in H.
        + exfalso. destruct (if Nat.ltb idx (v_entered v0) then Entered else _), q; try discriminate H. destruct (Nat.ltb _ _); discriminate H.
        + constructor; [|apply IH; exact H]. exists v0. split; [exact G0|]. unfold heads_to. congruence.
      - constructor; [|apply IH; exact H]. exists v0. split; [exact G0|]. unfold heads_to. congruence.
    Qed.
    Lemma gap_loop_true pos0 time q idx tgt mv ids : gap_loop vs pos0 time q (idx, tgt) mv ids = Ok (Some true) ->
      exists others k behind w, ids = others ++ k :: behind /\ none_heads s idx tgt others /\ vehicle_at s k = Some w /\ heads_to w idx tgt /\
        (gives_way (rule_of q) w idx \/ nltb time (min_reach_time w pos0 mv) = true).
    Proof.
      induction ids as [|id ids IH]; intros H; cbn [gap_loop] in H; [discriminate H|]. bok H v Hv. destruct (get_v _ _ Hv) as (v0 & G0 & ->).
      change (get_route (v_reset v0)) with (get_route v0) in H. change (min_reach_time (v_reset v0)) with (min_reach_time v0) in H. cbn [fst snd] in H.
      assert (none_heads s idx tgt [id] -> gap_loop vs pos0 time q (idx, tgt) mv ids = Ok (Some true) ->
         exists others k behind w, id :: ids = others ++ k :: behind /\ none_heads s idx tgt others /\ vehicle_at s k = Some w /\ heads_to w idx tgt /\
        (gives_way (rule_of q) w idx \/ nltb time (min_reach_time w pos0 mv) = true)) as Hrec.
      { intros Nh H'. destruct (IH H') as (others & k & behind & w & -> & F & R). exists (id :: others), k, behind, w. split; [reflexivity|]. split; [|exact R]. inversion Nh; subst. constructor; auto. }
      destruct (get_route v0 idx) as [[x st]|] eqn:E.
      2:{ apply Hrec; [|exact H]. constructor; [|constructor]. exists v0. split; [exact G0|]. unfold heads_to. unfold get_route in E. destruct (nth_error (v_route v0) idx); discriminate. }
      unfold get_route in E. destruct (nth_error (v_route v0) idx) as [y|] eqn:En; [|discriminate E]. injection E as -> Est. destruct (key_eqb_spec x tgt); cbn [negb] in H.
      2:{ apply Hrec; [|exact H]. constructor; [|constructor]. exists v0. split; [exact G0|]. unfold heads_to. congruence. }
      subst x. exists [], id, ids, v0. split; [reflexivity|]. split; [constructor|]. split; [exact G0|]. split; [exact En|].
      destruct (Nat.ltb_spec idx (v_entered v0)); [subst st; destruct q; right; congruence|].
      destruct (Nat.eqb_spec (v_entered v0) idx) as [E2|E2]; [destruct (v_queued v0) as [a|] eqn:Eq|]; subst st.
      - destruct q as [b|]; [|right; congruence]. destruct (Nat.ltb_spec b a) as [L|L]; [|right; congruence].
        left. exists b. split; [reflexivity|]. right. exists a. split; [split; auto|exact L].
      - destruct q as [b|]; [|right; congruence]. left. exists b. split; [reflexivity|]. left. right. auto.
      - destruct q as [b|]; [|right; congruence]. left. exists b. split; [reflexivity|]. left. left. lia.
    Qed.
    Lemma allM_true {X} (f : X -> res bool) l : allM f l = Ok true -> forall x, In x l -> f x = Ok true.
    Proof.
      induction l as [|y l IH]; intros H x Hx; [destruct Hx|]. cbn [allM] in H. bok H b Hb. destruct b; [|discriminate H]. destruct Hx as [->|Hx]; auto.
    Qed.
    Lemma check_gap_clear fuel l0 b p0 p1 time q idx tgt vmax : check_gap fuel links vs (set_lk_active l0 b) (p0, p1) time q (idx, tgt) vmax = Ok true ->
      clear s time (rule_of q) tgt idx l0 p0 p1 vmax.
    Proof.
      revert l0 b p0 p1 idx vmax. induction fuel as [|fuel IH]; intros l0 b p0 p1 idx vmax H; cbn [check_gap] in H; [discriminate H|].
      cbn [fst snd] in H. change (lk_limit (set_lk_active l0 b)) with (lk_limit l0) in H. change (lk_vehicles (set_lk_active l0 b)) with (lk_vehicles l0) in H. change (lk_in (set_lk_active l0 b)) with (lk_in l0) in H.
      bok H rest Hr. destruct (skip_past_spec _ _ _ Hr) as (past & Ep). bok H o Ho. destruct o as [d|].
      - injection H as ->. destruct (gap_loop_true _ _ _ _ _ _ _ Ho) as (others & k & behind & w & -> & F & G & Hh & D). eapply clear_vehicle; eauto.
      - apply gap_loop_none in Ho. destruct (nltb time (ndiv p0 (nmax vmax (lk_limit l0)))) eqn:D; [eapply clear_far; eauto|].
        eapply clear_before; eauto. intros k' Hk'. pose proof (allM_true _ _ H k' Hk') as Hb. cbn beta in Hb. bok Hb l' Hl'. unfold get_link in Hl'. apply of_option_ok in Hl'.
        destruct (HL _ _ Hl') as (l1 & G1 & b1 & ->). exists l1. split; [exact G1|]. eapply IH. exact Hb.
    Qed.
    (** The search is exact: if it ends with a refusal, the way is not clear. *)
    Lemma past_unique l p past rest past' rest' : past_and_rest s l p past rest -> past_and_rest s l p past' rest' -> past = past' /\ rest = rest'.
    Proof.
      intros (E & F & M) (E' & F' & M'). rewrite E in E'. clear E. revert past' F' E'. induction past as [|k past IH]; intros past' F' E'; destruct past' as [|k' past']; simpl in E'.
      - auto.
      - exfalso. subst rest. inversion F' as [|? ? (v & G & L) _]; subst. destruct M as (v' & G' & L'). congruence.
      - exfalso. subst rest'. inversion F as [|? ? (v & G & L) _]; subst. destruct M' as (v' & G' & L'). congruence.
      - injection E' as <- E'. inversion F; inversion F'; subst. destruct (IH H2 past' H6 E') as (-> & ->). auto.
    Qed.
    Lemma none_not_heads idx tgt ks k v : none_heads s idx tgt ks -> In k ks -> vehicle_at s k = Some v -> heads_to v idx tgt -> False.
    Proof. intros F Hin G Hh. unfold none_heads in F. rewrite Forall_forall in F. destruct (F _ Hin) as (w & Gw & N). assert (w = v) by congruence. subst. auto. Qed.
    Lemma first_unique idx tgt o k b w o' k' b' w' : o ++ k :: b = o' ++ k' :: b' -> none_heads s idx tgt o -> none_heads s idx tgt o' ->
      vehicle_at s k = Some w -> heads_to w idx tgt -> vehicle_at s k' = Some w' -> heads_to w' idx tgt -> k = k'.
    Proof.
      intros E F F' G Hh G' Hh'. revert o' F' E. induction o as [|x o IH]; intros o' F' E; destruct o' as [|x' o']; simpl in E.
      - congruence.
      - injection E as -> _. exfalso. eapply (none_not_heads idx tgt (x' :: o') x' w); eauto; left; auto.
      - injection E as <- _. exfalso. eapply (none_not_heads idx tgt (x :: o) x w'); eauto; left; auto.
      - injection E as <- E. inversion F; inversion F'; subst. eapply IH; eauto.
    Qed.
    Lemma gap_loop_false pos0 time q idx tgt mv ids : gap_loop vs pos0 time q (idx, tgt) mv ids = Ok (Some false) ->
      exists others k behind w, ids = others ++ k :: behind /\ none_heads s idx tgt others /\ vehicle_at s k = Some w /\ heads_to w idx tgt /\
        ~ (gives_way (rule_of q) w idx \/ nltb time (min_reach_time w pos0 mv) = true).
    Proof.
      induction ids as [|id ids IH]; intros H; cbn [gap_loop] in H; [discriminate H|]. bok H v Hv. destruct (get_v _ _ Hv) as (v0 & G0 & ->).
      change (get_route (v_reset v0)) with (get_route v0) in H. change (min_reach_time (v_reset v0)) with (min_reach_time v0) in H. cbn [fst snd] in H.
      assert (none_heads s idx tgt [id] -> gap_loop vs pos0 time q (idx, tgt) mv ids = Ok (Some false) ->
         exists others k behind w, id :: ids = others ++ k :: behind /\ none_heads s idx tgt others /\ vehicle_at s k = Some w /\ heads_to w idx tgt /\
        ~ (gives_way (rule_of q) w idx \/ nltb time (min_reach_time w pos0 mv) = true)) as Hrec.
      { intros Nh H'. destruct (IH H') as (others & k & behind & w & -> & F & R). exists (id :: others), k, behind, w. split; [reflexivity|]. split; [|exact R]. inversion Nh; subst. constructor; auto. }
      destruct (get_route v0 idx) as [[x st]|] eqn:E.
      2:{ apply Hrec; [|exact H]. constructor; [|constructor]. exists v0. split; [exact G0|]. unfold heads_to. unfold get_route in E. destruct (nth_error (v_route v0) idx); discriminate. }
      unfold get_route in E. destruct (nth_error (v_route v0) idx) as [y|] eqn:En; [|discriminate E]. injection E as -> Est. destruct (key_eqb_spec x tgt); cbn [negb] in H.
      2:{ apply Hrec; [|exact H]. constructor; [|constructor]. exists v0. split; [exact G0|]. unfold heads_to. congruence. }
      subst x. exists [], id, ids, v0. split; [reflexivity|]. split; [constructor|]. split; [exact G0|]. split; [exact En|].
      assert (forall since, rule_of q = Ignore_later since -> q = Some since) as Kq by (intros since; destruct q; simpl; congruence).
      destruct (Nat.ltb_spec idx (v_entered v0)).
      { subst st. intros [(since & Er & [[D|(D & _)]|(a & (D & _) & _)])|D]; try lia. destruct q; congruence. }
      destruct (Nat.eqb_spec (v_entered v0) idx) as [E2|E2]; [destruct (v_queued v0) as [a|] eqn:Eq|]; subst st.
      - destruct q as [b|].
        + destruct (Nat.ltb_spec b a) as [L|L]; [congruence|]. intros [(since & Er & [[D|(D & Dq)]|(a' & (D & Dq) & Da)])|D]; try congruence; try lia. injection (Kq _ Er) as <-. assert (a' = a) by congruence. lia.
        + intros [(since & Er & _)|D]; [discriminate Er|congruence].
      - destruct q as [b|]; [congruence|]. intros [(since & Er & _)|D]; [discriminate Er|congruence].
      - destruct q as [b|]; [congruence|]. intros [(since & Er & _)|D]; [discriminate Er|congruence].
    Qed.
    Lemma allM_false {X} (f : X -> res bool) l : allM f l = Ok false -> exists x, In x l /\ f x = Ok false.
    Proof.
      induction l as [|y l IH]; intros H; [discriminate H|]. cbn [allM] in H. bok H b Hb. destruct b; [|exists y; simpl; auto]. destruct (IH H) as (x & Hx & E). exists x; simpl; auto.
    Qed.
    Lemma check_gap_refuse fuel l0 b p0 p1 time q idx tgt vmax : check_gap fuel links vs (set_lk_active l0 b) (p0, p1) time q (idx, tgt) vmax = Ok false ->
      ~ clear s time (rule_of q) tgt idx l0 p0 p1 vmax.
    Proof.
      revert l0 b p0 p1 idx vmax. induction fuel as [|fuel IH]; intros l0 b p0 p1 idx vmax H; cbn [check_gap] in H; [discriminate H|].
      cbn [fst snd] in H. change (lk_limit (set_lk_active l0 b)) with (lk_limit l0) in H. change (lk_vehicles (set_lk_active l0 b)) with (lk_vehicles l0) in H. change (lk_in (set_lk_active l0 b)) with (lk_in l0) in H.
      bok H rest Hr. destruct (skip_past_spec _ _ _ Hr) as (past & Ep). change (past_and_rest s l0 p1 past rest) in Ep. bok H o Ho. destruct o as [d|].
      - injection H as ->. destruct (gap_loop_false _ _ _ _ _ _ _ Ho) as (others & k & behind & w & -> & F & G & Hh & D).
        intros C. inversion C as [idx' l' p0' p1' vm past' others' k' behind' w' Ep' F' G' Hh' D'|? ? ? ? ? past' others' Ep' F' D'|? ? ? ? ? past' others' Ep' F' D']; subst.
        + destruct (past_unique _ _ _ _ _ _ Ep Ep') as (_ & E). assert (k = k') by (eapply first_unique; eauto). subst k'. assert (w' = w) by congruence. subst. auto.
        + destruct (past_unique _ _ _ _ _ _ Ep Ep') as (_ & E). subst others'. eapply none_not_heads; [exact F'| |exact G|exact Hh]. apply in_app_iff. simpl. auto.
        + destruct (past_unique _ _ _ _ _ _ Ep Ep') as (_ & E). subst others'. eapply none_not_heads; [exact F'| |exact G|exact Hh]. apply in_app_iff. simpl. auto.
      - apply gap_loop_none in Ho. destruct (nltb time (ndiv p0 (nmax vmax (lk_limit l0)))) eqn:D; [discriminate H|].
        destruct (allM_false _ _ H) as (k1 & Hk1 & Hb). bok Hb l' Hl'. unfold get_link in Hl'. apply of_option_ok in Hl'. destruct (HL _ _ Hl') as (l1 & G1 & b1 & ->).
        intros C. inversion C as [idx' l' p0' p1' vm past' others' k' behind' w' Ep' F' G' Hh' D'|? ? ? ? ? past' others' Ep' F' D'|? ? ? ? ? past' others' Ep' F' D']; subst.
        + destruct (past_unique _ _ _ _ _ _ Ep Ep') as (_ & E). subst rest. eapply none_not_heads; [exact Ho| |exact G'|exact Hh']. apply in_app_iff. simpl. auto.
        + congruence.
        + destruct (D' _ Hk1) as (l2 & G2 & C2). assert (l2 = l1) by congruence. subst l2. exact (IH _ _ _ _ _ _ Hb C2).
    Qed.
    Lemma enter_loop_all fuel l r q p idxs : enter_loop fuel links vs l r q p idxs = Ok None -> forall i, In i idxs -> exists c l2,
      nth_error (lk_conflicts l) i = Some c /\ sm_get links (cf_link c) = Some l2 /\
      check_gap fuel links vs l2 (cf_min c, cf_max c) (nadd (rv_min_reach_time r (cf_own_max c) (lk_limit l)) GAP_BUFFER) (conflict_queued (lk_control l2) p q) (0, cf_link c) n0 = Ok true.
    Proof.
      induction idxs as [|j idxs IH]; intros H i Hi; [destruct Hi|]. cbn [enter_loop] in H. bok H c Hc. bok H l2 Hl2. bok H g Hg. destruct g; [|discriminate H].
      destruct Hi as [->|Hi]; [|apply IH; auto]. exists c, l2. apply of_option_ok in Hc. unfold get_link in Hl2. apply of_option_ok in Hl2. auto.
    Qed.

    (** ** Stop lines *)
    Hypothesis N : net_ok links.
    Hypothesis Hl : listed links vs.
    Hypothesis Hc : forall k v, sm_get vs k = Some v -> chain links (v_route v).
    Hypothesis Ent : forall k v, sm_get vs k = Some v -> 1 <= v_entered v <= length (v_route v).
    Hypothesis Add : lengths_add_up s.

    Lemma in_rotated count start i : start < count \/ start = 0 -> i < count -> In i (rotated_range count start).
    Proof.
      intros Hs Hi. unfold rotated_range. rewrite map_map. apply in_map_iff. exists (if Nat.ltb i start then i + count - start else i - start).
      destruct (Nat.ltb_spec i start).
      - destruct (Nat.leb_spec count (i + count - start + start)); [|lia]. split; [lia|]. apply in_seq. lia.
      - destruct (Nat.leb_spec count (i - start + start)); [lia|]. split; [lia|]. apply in_seq. lia.
    Qed.

    (** Every flag in the log has a reason. *)
    Definition reasons (log : list eff) : Prop := log_ok links vs log /\
      forall k f, In (EFlag k f) log -> exists v x, vehicle_at s k = Some v /\ next_link v = Some x /\ (f = 1 /\ may_queue s v x \/ f = 2 /\ may_enter s v x).
    Lemma reasons_cons log e : reasons log -> eff_ok links vs e -> match e with EFlag _ _ => False | _ => True end -> reasons (e :: log).
    Proof. intros (L & R) E F. split; [constructor; auto|]. intros k f [->|H]; [contradiction|auto]. Qed.

    Lemma stopline_reasons fuel lid self log r log' b : sm_get links lid = Some self -> reasons log -> found vs lid (run_length s) (lk_length self) r ->
      stopline_cb fuel links vs self log r = Ok (log', b) -> reasons log'.
    Proof.
      intros G (L & R) (Gv & Gr & Pr & P0) H.
      assert (log_ok links vs log') as L'.
      { refine (safe_ok T _ (fun lb => log_ok links vs (fst lb)) _ (stopline_cb_safe T links vs N Hl Hc fuel self lid log r L _) H). split; eauto. }
      split; [exact L'|]. pose proof (Ent _ _ Gv) as En. pose proof Gv as Gv'. rewrite HV in Gv'. destruct (vehicle_at s (rv_key r)) as [v|] eqn:Gs; [|discriminate Gv']. injection Gv' as Ev.
      destruct (HL _ _ G) as (self0 & Gs0 & b0 & Es). 
      assert (nth_error (v_route v) (rv_idx r) = Some lid /\ rv_idx r < v_entered v) as (Nth & Lt).
      { unfold get_route in Gr. rewrite <- Ev in Gr. change (v_route (v_reset v)) with (v_route v) in Gr. change (v_entered (v_reset v)) with (v_entered v) in Gr.
        destruct (nth_error (v_route v) (rv_idx r)) as [y|]; [|discriminate Gr]. cbn [option_map] in Gr. destruct (Nat.ltb_spec (rv_idx r) (v_entered v)); [|destruct (Nat.eqb _ _); [destruct (v_queued _)|]; discriminate Gr].
        injection Gr as ->. auto. }
      unfold stopline_cb in H. destruct (rv_route r 1) as [[id st]|] eqn:Er.
      2:{ destruct (v_can_exit _); injection H as <- <-; [exact R|]. intros k f [Q|Q]; [discriminate Q|auto]. }
      assert (st <> Entered -> v_entered v = S (rv_idx r) /\ next_link v = Some id /\ last_entered v = Some lid /\ (forall fr, st = QueuedAt fr -> v_queued v = Some fr) /\ (st = NotEntered -> v_queued v = None) /\
              (v_entered v = 1 -> rv_pos r = lk_length self0)) as K.
      { intros Ne. unfold rv_route, get_route in Er. rewrite <- Ev in Er. change (v_route (v_reset v)) with (v_route v) in Er. change (v_entered (v_reset v)) with (v_entered v) in Er. change (v_queued (v_reset v)) with (v_queued v) in Er.
        destruct (nth_error (v_route v) (rv_idx r + 1)) as [y|] eqn:En1; [|discriminate Er]. cbn [option_map] in Er. injection Er as -> Est.
        destruct (Nat.ltb_spec (rv_idx r + 1) (v_entered v)); [congruence|]. assert (v_entered v = S (rv_idx r)) as Ee by lia. split; [exact Ee|].
        unfold next_link, last_entered. rewrite Ee. split; [replace (S (rv_idx r)) with (rv_idx r + 1) by lia; exact En1|]. split; [exact Nth|]. split.
        - intros fr ->. replace (Nat.eqb (v_entered v) (rv_idx r + 1)) with true in Est by (symmetry; apply Nat.eqb_eq; lia). destruct (v_queued v); congruence.
        - split; [|intros E1; rewrite P0 by lia; subst self; reflexivity]. intros ->. replace (Nat.eqb (v_entered v) (rv_idx r + 1)) with true in Est by (symmetry; apply Nat.eqb_eq; lia). destruct (v_queued v); congruence. }
      assert (forall l0, link_at s id = Some l0 -> st <> Entered -> lk_control l0 = COpen -> may_enter s v id) as Kopen by (intros l0 Gl _ Co; exists l0; auto).
      destruct st as [|frame|]; [| |injection H as <- <-; exact R]; bok H l Hg; unfold get_link in Hg; apply of_option_ok in Hg; destruct (HL _ _ Hg) as (l0 & Gl & b1 & El);
        destruct K as (Ee & Nx & La & Qu & Qn & Po); try discriminate; replace (lk_control l) with (lk_control l0) in H by (subst l; reflexivity); destruct (lk_control l0) as [|d m p|] eqn:Co.
      - destruct (negb _); injection H as <- <-; [|exact R]. intros k f [Q|Q]; [|auto]. injection Q as <- <-. exists v, id. split; [exact Gs|]. split; [exact Nx|]. right. split; [reflexivity|]. eapply Kopen; eauto. discriminate.
      - injection H as <- <-. intros k f [Q|Q]; [discriminate Q|]. destruct (_ && _) eqn:Cl; [|auto]. destruct Q as [Q|Q]; [|auto]. injection Q as <- <-.
        exists v, id. split; [exact Gs|]. split; [exact Nx|]. left. split; [reflexivity|]. split; [apply Qn; reflexivity|]. exists l0, d, m, p, (rv_pos r). split; [exact Gl|]. split; [exact Co|]. split; [exact Pr|].
        apply andb_true_iff in Cl. destruct Cl as (C1 & C2). split; [intros E1; exists lid, self0; auto|]. unfold rv_front in C1. rewrite <- Ev in C1, C2. split; [exact C1|].
        intros ->. exact C2.
      - injection H as <- <-. intros k f [Q|Q]; [discriminate Q|auto].
      - destruct (negb _); injection H as <- <-; [|exact R]. intros k f [Q|Q]; [|auto]. injection Q as <- <-. exists v, id. split; [exact Gs|]. split; [exact Nx|]. right. split; [reflexivity|]. eapply Kopen; eauto. discriminate.
      - bok H bl Hbl. assert (forall k f, In (EFlag k f) (snd bl) -> In (EFlag k f) log) as Hi.
        { unfold can_enter in Hbl. bok Hbl o Ho. destruct o; injection Hbl as <-; cbn [snd]; auto. intros k f [Q|Q]; [discriminate Q|auto]. }
        destruct bl as [[] lg]; cbn [fst snd] in *; injection H as <- <-.
        2:{ intros k f [Q|Q]; [discriminate Q|apply R, Hi, Q]. }
        intros k f [Q|Q]; [|apply R, Hi, Q]. injection Q as <- <-. exists v, id. split; [exact Gs|]. split; [exact Nx|]. right. split; [reflexivity|]. exists l0. split; [exact Gl|]. right.
        exists d, m, p, frame, lid, self0, (rv_pos r). split; [exact Co|]. split; [apply Qu; reflexivity|]. split; [exact La|]. split; [exact Gs0|]. split; [exact Pr|]. split; [exact Po|].
        unfold can_enter in Hbl. bok Hbl o Ho. destruct o; [discriminate Hbl|]. apply Forall_forall. intros c Hcin. destruct (In_nth_error _ _ Hcin) as (i & Hi').
        assert (lk_conflicts l = lk_conflicts l0) as Ecf by (subst l; reflexivity).
        destruct (enter_loop_all _ _ _ _ _ _ Ho i) as (c' & l2 & Hc' & Hl2 & Hg2).
        { apply in_rotated; [|rewrite Ecf; apply nth_error_Some; congruence]. rewrite (lo_id _ _ _ (nk_link _ N _ _ Hg)). eapply read_last_ok; eauto. }
        rewrite Ecf in Hc'. assert (c' = c) by congruence. subst c'. destruct (HL _ _ Hl2) as (l20 & Gl2 & b2 & ->). exists l20. split; [exact Gl2|].
        rewrite <- rule_of_queued. apply check_gap_clear in Hg2.
        unfold rv_min_reach_time in Hg2. cbn [rv_offset rv_veh rv_pos] in Hg2. rewrite <- Ev in Hg2. subst l self. exact Hg2.
      - injection H as <- <-. intros k f [Q|Q]; [discriminate Q|auto].
    Qed.
    Lemma sim_stoplines_reasons fuel log log' : reasons log -> sim_stoplines fuel links vs log = Ok log' -> reasons log'.
    Proof.
      unfold sim_stoplines. assert (forall l0, In l0 (sm_values links) -> exists k, sm_get links k = Some l0) as Hv by (intros l0 Q; apply in_values in Q; auto).
      revert log Hv. induction (sm_values links) as [|l ls IH]; intros log Hv R H; cbn [foldM] in H; [injection H as <-; exact R|].
      bok H log1 H1. refine (IH log1 _ _ H); [intros; apply Hv; right; auto|]. destruct (Hv l (or_introl eq_refl)) as (lid & G).
      unfold apply_stoplines in H1. rewrite (lo_id _ _ _ (nk_link _ N _ _ G)) in H1. destruct (HL _ _ G) as (l0 & G0 & b & El).
      refine (process_found (stopline_cb fuel links vs l) reasons links vs lid (run_length s) _ _ (lk_length l) _ fuel lid l 0 (lk_length l) 0 log log1 G (or_introl eq_refl) _ (fun _ => eq_refl) R H1).
      - intros x k lk Px Gk. destruct (HL _ _ Gk) as (lk0 & Gk0 & bk & ->). change (lk_length (set_lk_active lk0 bk)) with (lk_length lk0). split; [eapply run_more; eauto|eapply Add; eauto].
      - intros k v Gk. apply (Ent _ _ Gk).
      - intros s0 r s1 b1 Hs Fr Hcb. eapply stopline_reasons; eauto.
      - subst l. exact (run_one s lid l0 G0).
    Qed.

    Lemma stopline_adds fuel self lid log r log' b : rv_ok vs lid r -> stopline_cb fuel links vs self log r = Ok (log', b) -> adds (fun _ => True) log log'.
    Proof.
      intros _ H. unfold stopline_cb in H. assert (forall x, adds (fun _ : eff => True) log (x :: log)) as Kx by (intros x; apply adds_cons; [apply adds_refl|exact I]).
      destruct (rv_route r 1) as [[id st]|]; [|destruct (v_can_exit _); injection H as <- <-; [apply adds_refl|apply Kx]].
      destruct st; [| |injection H as <- <-; apply adds_refl]; bok H l Hg; destruct (lk_control l).
      - destruct (negb _); injection H as <- <-; [apply Kx|apply adds_refl].
      - injection H as <- <-. apply adds_cons; [|exact I]. destruct (_ && _); [apply Kx|apply adds_refl].
      - injection H as <- <-. apply Kx.
      - destruct (negb _); injection H as <- <-; [apply Kx|apply adds_refl].
      - bok H bl Hbl. assert (adds (fun _ => True) log (snd bl)) as Ab. { unfold can_enter in Hbl. bok Hbl o Ho. destruct o; injection Hbl as <-; [apply Kx|apply adds_refl]. }
        destruct (fst bl); injection H as <- <-; (apply adds_cons; [exact Ab|exact I]).
      - injection H as <- <-. apply Kx.
    Qed.
    Lemma apply_stoplines_adds fuel lid l log log' : sm_get links lid = Some l -> apply_stoplines fuel links vs l log = Ok log' -> adds (fun _ => True) log log'.
    Proof.
      intros G H. unfold apply_stoplines in H. eapply process_adds; [exact N|exact Hl| |exact G|exact H]. intros. eapply stopline_adds; eauto.
    Qed.

    Lemma scan_adds fuel self lid log min_pos ids se : (forall k, In k ids -> exists v, sm_get vs k = Some v) ->
      scan (stopline_cb fuel links vs self) vs (lk_length self) (0, lid) (lk_length self) min_pos ids log = Ok se -> adds (fun _ => True) log (fst se).
    Proof.
      intros Hid H. refine (safe_ok T _ (fun se => adds (fun _ => True) log (fst se)) _ (scan_safe T _ (adds (fun _ => True) log) vs lid _ _ 0 _ _ ids log Hid (adds_refl _ _)) H).
      intros lg r A0 Hr. apply safe_post. intros [lg' b] Hb. simpl. eapply adds_trans; [exact A0|]. eapply stopline_adds; eauto.
    Qed.

    (** The vehicle is the first on its link that has not entered the next one: its stop line is looked at. *)
    Definition at_line (self : link) (min_pos : num) (ahead : list key) (k : key) (v : vehicle) : Prop :=
      (forall kw, In kw ahead -> exists w, sm_get vs kw = Some w /\ v_link w = Some (lk_id self) /\ 2 <= v_entered w /\ nltb (pos_front w) min_pos = false) /\
      sm_get vs k = Some v /\ v_link v = Some (lk_id self) /\ v_entered v = 1 /\ nltb (pos_front v) min_pos = false.
    Lemma scan_front fuel lid self ahead rest k v log se min_pos : lk_id self = lid -> at_line self min_pos ahead k v -> log_ok links vs log ->
      (forall k, In k rest -> exists v, sm_get vs k = Some v) ->
      scan (stopline_cb fuel links vs self) vs (lk_length self) (0, lid) (lk_length self) min_pos (ahead ++ k :: rest) log = Ok se ->
      exists lg b, stopline_cb fuel links vs self log (RV k v 0 (lk_length self)) = Ok (lg, b) /\ adds (fun _ => True) lg (fst se).
    Proof.
      intros <- (Ha & Gv & Hv & E1 & Hp) Lg Hrest. induction ahead as [|kw ahead IH]; intros H; cbn [app scan] in H; bok H w Hw; unfold get_vehicle in Hw; apply of_option_ok in Hw.
      - assert (w = v) by congruence. subst w. rewrite Hp in H. cbn [fst snd] in H. unfold get_route in H. unfold v_link in Hv.
        destruct (v_route v) as [|y rt] eqn:Ert; [discriminate Hv|]. injection Hv as ->. cbn [nth_error option_map] in H. rewrite E1 in H. cbn [Nat.ltb Nat.leb] in H. rewrite key_eqb_refl in H. cbn [negb] in H.
        bok H sb Hsb. destruct sb as [lg b]. exists lg, b. split; [exact Hsb|]. cbn [fst snd] in H. destruct b; [eapply scan_adds; [exact Hrest|exact H]|injection H as <-; apply adds_refl].
      - destruct (Ha kw (or_introl eq_refl)) as (w' & Gw & Lw & Ew & Pw). assert (w' = w) by congruence. subst w'. rewrite Pw in H. cbn [fst snd] in H. pose proof (Ent _ _ Hw) as (_ & Enw). unfold v_link in Lw.
        unfold get_route in H. destruct (v_route w) as [|y rt] eqn:Ert; [discriminate Lw|]. injection Lw as ->. cbn [nth_error option_map] in H. replace (Nat.ltb 0 (v_entered w)) with true in H by (symmetry; apply Nat.ltb_lt; lia).
        rewrite key_eqb_refl in H. cbn [negb] in H. bok H sb Hsb. unfold stopline_cb in Hsb. unfold rv_route, get_route in Hsb. cbn [rv_veh rv_idx Nat.add] in Hsb. rewrite Ert in Hsb. cbn [length] in Enw.
        destruct rt as [|z rt]; [cbn [length] in Enw; lia|]. cbn [nth_error option_map] in Hsb. replace (Nat.ltb 1 (v_entered w)) with true in Hsb by (symmetry; apply Nat.ltb_lt; lia).
        injection Hsb as <-. cbn [fst snd] in H. apply IH; [|exact H]. intros; apply Ha; right; auto.
    Qed.

    Lemma stoplines_front fuel log log' lid self behind ahead k v : log_ok links vs log -> sim_stoplines fuel links vs log = Ok log' ->
      sm_get links lid = Some self -> lk_active self = true -> lk_vehicles self = behind ++ k :: ahead ->
      at_line self (nsub (lk_length self) (nmul MAX_LOOKAHEAD (lk_limit self))) ahead k v ->
      exists log0 lg b, log_ok links vs log0 /\ stopline_cb fuel links vs self log0 (RV k v 0 (lk_length self)) = Ok (lg, b) /\ adds (fun _ => True) lg log'.
    Proof.
      intros L H G Act Ev Hat.
      assert (In self (sm_values links)) as Hin by (apply in_values; eauto). unfold sim_stoplines in H.
      assert (forall l0, In l0 (sm_values links) -> exists k, sm_get links k = Some l0) as Hvs by (intros l0 Q; apply in_values in Q; auto).
      revert log L H. induction (sm_values links) as [|y ls IH]; intros log L H; [contradiction|]. cbn [foldM] in H. bok H log1 H1. 
      assert (log_ok links vs log1) as L1. { destruct (Hvs y (or_introl eq_refl)) as (ky & Gy). exact (safe_ok T _ _ _ (apply_stoplines_safe T links vs N Hl Hc fuel ky y log Gy L) H1). }
      destruct Hin as [->|Hin].
      - assert (adds (fun _ => True) log1 log') as A1.
        { refine (foldM_adds _ _ _ _ _ _ H). intros z a b Hz Hb. destruct (Hvs z) as (kz & Gz); [right; auto|]. eapply apply_stoplines_adds; eauto. }
        clear H. unfold apply_stoplines in H1. pose proof (lo_id _ _ _ (nk_link _ N _ _ G)) as Eid. destruct fuel as [|fuel]; [discriminate H1|]. rewrite Eid in H1. cbn [process_vehicles] in H1. rewrite Act in H1. cbn [negb] in H1.
        bok H1 se Hse. rewrite Ev, rev_app_distr in Hse. cbn [rev] in Hse. rewrite <- app_assoc in Hse. cbn [app skipn] in Hse.
        assert (exists lg b, stopline_cb (S fuel) links vs self log (RV k v 0 (lk_length self)) = Ok (lg, b) /\ adds (fun _ => True) lg (fst se)) as (lg & b & Hcb & A2).
        { eapply scan_front with (2 := conj (fun kw Hk => proj1 Hat kw (proj2 (in_rev _ _) Hk)) (proj2 Hat)) (5 := Hse); [exact Eid|exact L|]. intros k0 Hk0. eapply Hl; [exact G|]. rewrite Ev. apply in_app_iff. left. apply in_rev. exact Hk0. }
        exists log, lg, b. split; [exact L|]. split; [exact Hcb|]. eapply adds_trans; [|exact A1]. eapply adds_trans; [exact A2|].
        destruct (snd se); [injection H1 as <-; apply adds_refl|]. destruct (nleb _ _); [injection H1 as <-; apply adds_refl|].
        refine (foldM_adds (fun _ => True) _ _ _ _ _ H1). intros z a b' Hz Hb. cbn beta in Hb. bok Hb l' Hl'. unfold get_link in Hl'. apply of_option_ok in Hl'.
        cbn [fst snd] in Hb. eapply process_adds; [exact N|exact Hl| |exact Hl'|exact Hb]. intros. eapply stopline_adds; eauto.
      - apply (IH Hin) with (log := log1); auto. intros; apply Hvs; right; auto.
    Qed.

    (** The decision at a give-way line. *)
    Lemma can_enter_exact fuel x l0 b0 lself r since prio log b log' v : log_ok links vs log -> sm_get links x = Some (set_lk_active l0 b0) ->
      rv_veh r = v_reset v -> can_enter fuel links vs (set_lk_active l0 b0) (rv_offset r lself) since prio log = Ok (b, log') ->
      (b = true <-> Forall (sufficient_gap s v (nadd (rv_pos r) lself) l0 prio since) (lk_conflicts l0)).
    Proof.
      intros L Gx Ev H. unfold can_enter in H. bok H o Ho.
      assert (forall i c l2, nth_error (lk_conflicts l0) i = Some c -> sm_get links (cf_link c) = Some l2 -> forall bb,
        check_gap fuel links vs l2 (cf_min c, cf_max c) (nadd (rv_min_reach_time (rv_offset r lself) (cf_own_max c) (lk_limit (set_lk_active l0 b0))) GAP_BUFFER) (conflict_queued (lk_control l2) prio since) (0, cf_link c) n0 = Ok bb ->
        (bb = true <-> sufficient_gap s v (nadd (rv_pos r) lself) l0 prio since c)) as K.
      { intros i c l2 Hc2 Hl2 bb Hg. destruct (HL _ _ Hl2) as (l20 & Gl2 & b2 & ->). unfold rv_min_reach_time in Hg. cbn [rv_offset rv_veh rv_pos] in Hg. rewrite Ev in Hg. unfold sufficient_gap. split.
        - intros ->. exists l20. split; [exact Gl2|]. rewrite <- rule_of_queued. apply check_gap_clear in Hg. exact Hg.
        - intros (l2' & Gl2' & C). assert (l2' = l20) by congruence. subst l2'. rewrite <- rule_of_queued in C. destruct bb; [reflexivity|]. apply check_gap_refuse in Hg. exfalso. exact (Hg C). }
      destruct o as [idx|]; injection H as <- <-; (split; intros Q).
      - discriminate Q.
      - exfalso. assert (exists c l2, nth_error (lk_conflicts l0) idx = Some c /\ sm_get links (cf_link c) = Some l2 /\
          check_gap fuel links vs l2 (cf_min c, cf_max c) (nadd (rv_min_reach_time (rv_offset r lself) (cf_own_max c) (lk_limit (set_lk_active l0 b0))) GAP_BUFFER) (conflict_queued (lk_control l2) prio since) (0, cf_link c) n0 = Ok false) as (c & l2 & Hc2 & Hl2 & Hg).
        { clear K Q. revert Ho. generalize (rotated_range (length (lk_conflicts (set_lk_active l0 b0))) (read_last log (lk_id (set_lk_active l0 b0)) (lk_last (set_lk_active l0 b0)))) as idxs.
          induction idxs as [|j idxs IH]; intros Ho; cbn [enter_loop] in Ho; [discriminate Ho|]. bok Ho c Hc1. bok Ho l2 Hl2. bok Ho g Hg. destruct g; [auto|]. injection Ho as <-.
          exists c, l2. apply of_option_ok in Hc1. unfold get_link in Hl2. apply of_option_ok in Hl2. auto. }
        pose proof (proj2 (K _ _ _ Hc2 Hl2 _ Hg)) as K2. rewrite Forall_forall in Q. specialize (K2 (Q _ (nth_error_In _ _ Hc2))). discriminate K2.
      - apply Forall_forall. intros c Hcin. destruct (In_nth_error _ _ Hcin) as (i & Hi).
        destruct (enter_loop_all _ _ _ _ _ _ Ho i) as (c' & l2 & Hc' & Hl2 & Hg2).
        { apply in_rotated; [|apply nth_error_Some; cbn [lk_conflicts set_lk_active]; congruence]. rewrite (lo_id _ _ _ (nk_link _ N _ _ Gx)). eapply read_last_ok; eauto. }
        cbn [lk_conflicts set_lk_active] in Hc'. assert (c' = c) by congruence. subst c'. exact (proj1 (K _ _ _ Hi Hl2 _ Hg2) eq_refl).
      - reflexivity.
    Qed.
  End Gap.
End EnterProofs.
