(** * Junctions: who waits has a reason, and somebody may always go *)
From Coq Require Import List Bool ZArith NArith Arith Lia.
From Verif Require Import Arith Base BaseProofs SlotMap Util Geom Light Accel Net Path Vehicle LinkOps Sim SpecSim SlotMapProofs Safe NetInv SimInv AccSafe SimSafe StepSafe OpSafe Evo StepEvo SimProofs StepProofs LogProofs SpecMotion Motion SpecEnter EnterProofs P_Sim P_Motion P_Step P_Enter SpecJunction.
Import ListNotations.

Section Junction.
  Context {A : Arith}.

  Section Gap.
    Variable s : sim.
    Variables (links : linkset) (vs : vehset).
    Hypothesis HL : forall k l, sm_get links k = Some l -> exists l0, link_at s k = Some l0 /\ exists b, l = set_lk_active l0 b.
    Hypothesis HV : forall k, sm_get vs k = option_map v_reset (vehicle_at s k).

    (** A search that ends with a refusal has found somebody. *)
    Lemma check_gap_who c l2 time q tgt fuel : forall l0 b p0 p1 idx vm vmax, vmax = nmax vm (lk_limit l0) -> back s c l2 idx l0 p0 p1 vmax ->
      check_gap fuel links vs (set_lk_active l0 b) (p0, p1) time q (idx, tgt) vm = Ok false ->
      exists i lw q0 q1 vmw past rest kw w, back s c l2 i lw q0 q1 vmw /\ past_and_rest s lw q1 past rest /\ In kw rest /\ vehicle_at s kw = Some w /\ heads_to w i tgt /\
        ~ gives_way (rule_of q) w i /\ nltb time (min_reach_time w q0 vmw) = false.
    Proof.
      induction fuel as [|fuel IH]; intros l0 b p0 p1 idx vm vmax Ev B H; cbn [check_gap] in H; [discriminate H|].
      cbn [fst snd] in H. change (lk_limit (set_lk_active l0 b)) with (lk_limit l0) in H. change (lk_vehicles (set_lk_active l0 b)) with (lk_vehicles l0) in H. change (lk_in (set_lk_active l0 b)) with (lk_in l0) in H.
      rewrite <- Ev in H. bok H rest Hr. destruct (skip_past_spec s vs HV _ _ _ Hr) as (past & Ep). change (past_and_rest s l0 p1 past rest) in Ep. bok H o Ho. destruct o as [d|].
      - injection H as ->. destruct (gap_loop_false s vs HV _ _ _ _ _ _ _ Ho) as (others & k & behind & w & Er & F & G & Hh & D).
        exists idx, l0, p0, p1, vmax, past, rest, k, w. split; [exact B|]. split; [exact Ep|]. split; [rewrite Er; apply in_app_iff; simpl; auto|]. split; [exact G|]. split; [exact Hh|].
        split; [intros Q; apply D; auto|]. destruct (nltb time (min_reach_time w p0 vmax)); [exfalso; apply D; auto|reflexivity].
      - destruct (nltb time (ndiv p0 vmax)) eqn:D; [discriminate H|].
        destruct (allM_false _ _ H) as (k1 & Hk1 & Hb). bok Hb l' Hl'. unfold get_link in Hl'. apply of_option_ok in Hl'. destruct (HL _ _ Hl') as (l1 & G1 & b1 & ->).
        change (lk_length (set_lk_active l1 b1)) with (lk_length l1) in Hb.
        refine (IH l1 b1 _ _ _ _ _ eq_refl _ Hb). eapply back_more; eauto.
    Qed.
    Lemma enter_loop_who fuel l r q p idxs i : enter_loop fuel links vs l r q p idxs = Ok (Some i) -> exists c l2, In c (lk_conflicts l) /\ sm_get links (cf_link c) = Some l2 /\
      check_gap fuel links vs l2 (cf_min c, cf_max c) (nadd (rv_min_reach_time r (cf_own_max c) (lk_limit l)) GAP_BUFFER) (conflict_queued (lk_control l2) p q) (0, cf_link c) n0 = Ok false.
    Proof.
      induction idxs as [|j idxs IH]; intros H; cbn [enter_loop] in H; [discriminate H|]. bok H c Hc. bok H l2 Hl2. bok H g Hg. destruct g; [exact (IH H)|].
      exists c, l2. apply of_option_ok in Hc. unfold get_link in Hl2. apply of_option_ok in Hl2. split; [eapply nth_error_In; eauto|auto].
    Qed.
  End Gap.

  (** The decision at the line, with the one who is the cause. *)
  Lemma line_who e s1 s2 links vs log1 log lid l k v x lx d m p since : St (s_links s1) (s_vehicles s1) (s_seq s1) -> parts e s1 s2 links vs log1 log ->
    link_at s1 lid = Some l -> first_at_line s1 l k v -> next_link v = Some x -> link_at s1 x = Some lx -> lk_control lx = CYield d m p -> v_queued v = Some since ->
    In (EFlag k 2) log1 \/ exists kw, held_up_by s1 v l lx p since kw.
  Proof.
    intros St1 P Gl (behind & ahead & Ev & Ha & Gv & E1 & Np) Nx Gx Co Eq. destruct (parts_ctx _ _ _ _ _ _ _ St1 P) as (HL & HV & Ent & Ad).
    assert (exists b, sm_get links lid = Some (set_lk_active l b)) as (b0 & Gl').
    { assert (valid links lid) as V by (apply (same_net_valid _ _ _ (pt_same _ _ _ _ _ _ _ P)); apply sm_mem_get; eauto). unfold valid in V. apply sm_mem_get in V. destruct V as (l' & Gl'). destruct (HL _ _ Gl') as (l0 & G0 & b & ->). unfold link_at in *. exists b. congruence. }
    assert (forall kw w, In kw (lk_vehicles l) -> vehicle_at s1 kw = Some w -> v_link w = Some lid) as Hon.
    { intros kw w Hi Gw. destruct (st_occ _ _ _ St1 _ _ Gl) as (_ & Oc). apply Oc in Hi. unfold at_of in Hi. unfold vehicle_at in Gw. rewrite Gw in Hi. exact Hi. }
    assert (v_link v = Some lid) as Lv. { apply (Hon k); auto. rewrite Ev. apply in_app_iff. simpl. auto. }
    assert (sm_get vs k = Some (v_reset v)) as Gv' by (rewrite HV, Gv; reflexivity).
    assert (lk_id l = lid) as Eid by exact (lo_id _ _ _ (nk_link _ (pt_net _ _ _ _ _ _ _ P) _ _ Gl')).
    destruct (stoplines_front links vs (pt_net _ _ _ _ _ _ _ P) (pt_listed _ _ _ _ _ _ _ P) (pt_chain _ _ _ _ _ _ _ P) Ent _ _ _ lid (set_lk_active l b0) behind ahead k (v_reset v) ltac:(constructor) (pt_stop _ _ _ _ _ _ _ P) Gl')
      as (log0 & lg & bb & L0 & Hcb & A1).
    { exact (pt_cur _ _ _ _ _ _ _ P k (v_reset v) lid _ Gv' Lv Gl'). }
    { exact Ev. }
    { split; [|split; [exact Gv'|split; [change (v_link v = Some (lk_id l)); congruence|split; [exact E1|exact Np]]]].
      intros kw Hk. destruct (Ha kw Hk) as (w & Gw & Ew & Pw). exists (v_reset w). rewrite HV, Gw. split; [reflexivity|]. split; [|split; [exact Ew|exact Pw]].
      change (v_link w = Some (lk_id l)). rewrite Eid. apply (Hon kw); auto. rewrite Ev. apply in_app_iff. simpl. auto. }
    unfold stopline_cb in Hcb. unfold next_link in Nx. rewrite E1 in Nx. unfold rv_route, get_route in Hcb. cbn [rv_veh rv_idx Nat.add] in Hcb.
    change (v_route (v_reset v)) with (v_route v) in Hcb. change (v_entered (v_reset v)) with (v_entered v) in Hcb. change (v_queued (v_reset v)) with (v_queued v) in Hcb.
    rewrite Nx, E1, Eq in Hcb. cbn [option_map Nat.ltb Nat.leb Nat.eqb] in Hcb.
    assert (exists b, sm_get links x = Some (set_lk_active lx b)) as (bx & Gx').
    { assert (valid links x) as V by (apply (same_net_valid _ _ _ (pt_same _ _ _ _ _ _ _ P)); apply sm_mem_get; eauto). unfold valid in V. apply sm_mem_get in V. destruct V as (l' & G1). destruct (HL _ _ G1) as (l0 & G0 & b & ->). unfold link_at in *. exists b. congruence. }
    assert (forall z, In z lg -> In z log1) as K1 by (intros z; apply (adds_in _ _ _ _ A1)).
    unfold get_link in Hcb. rewrite Gx' in Hcb. cbn [of_option bind] in Hcb. change (lk_control (set_lk_active lx bx)) with (lk_control lx) in Hcb. rewrite Co in Hcb.
    bok Hcb bl Hbl. destruct bl as [bq lq]. cbn [fst snd] in Hcb. destruct bq; [left; injection Hcb as <- _; apply K1; left; reflexivity|right].
    unfold can_enter in Hbl. bok Hbl o Ho. destruct o as [i|]; [|discriminate Hbl]. destruct (enter_loop_who links vs _ _ _ _ _ _ _ Ho) as (c & l2 & Hc & Hl2 & Hg).
    destruct (HL _ _ Hl2) as (l20 & Gl2 & b2 & ->). change (lk_control (set_lk_active l20 b2)) with (lk_control l20) in Hg.
    destruct (check_gap_who s1 links vs HL HV c l20 _ _ _ _ _ _ _ _ _ _ _ eq_refl (back_here s1 c l20) Hg) as (iw & lw & q0 & q1 & vmw & past & rest & kw & w & Bk & Pr & Hin & Gw & Hh & Ng & Ft).
    exists kw, c, l20, w, iw, lw, q0, q1, vmw, past, rest. rewrite rule_of_queued in Ng. repeat (split; [assumption|]). exact Ft.
  Qed.

  (** A vehicle with a next link is still there after the step. *)
  Lemma still_there e s dt s1 s' k v x : reachable s -> step e s dt = Ok s' -> calculate_lane_changes e s = Ok s1 -> vehicle_at s1 k = Some v -> v_entered v = 1 -> next_link v = Some x ->
    exists v', vehicle_at s' k = Some v'.
  Proof.
    intros R H H1 G1 E1 Nx. pose proof (reachable_Inv _ R) as I. destruct (vehicle_at s' k) as [v'|] eqn:G'; [eauto|exfalso].
    destruct (lane_changes_evo _ _ _ (i_st _ I) H1 _ _ G1) as (v0 & G0 & _).
    destruct (C17_step _ _ _ _ _ R H) as (_ & s4' & H4 & K). destruct (K k) as (K1 & _); [unfold vehicle_at; congruence|]. destruct (K1 G') as (v4 & lid & l & G4 & R4 & _). clear K K1.
    destruct (step_phases _ _ _ _ I H) as (t1 & s2 & s3 & s4 & s5 & P). assert (s4' = s4) by (pose proof (ph_pre _ _ _ _ _ _ _ _ _ P); congruence). subst s4'.
    assert (t1 = s1) by (pose proof (ph1 _ _ _ _ _ _ _ _ _ P); congruence). subst t1.
    destruct (integrate_evo _ _ _ (ph4 _ _ _ _ _ _ _ _ _ P)) as (_ & Ev & _). destruct (Ev _ _ G4) as (v2 & q & q' & G2 & Hi & _). rewrite (pv3 _ _ _ _ _ _ _ _ _ P) in G2.
    destruct (pk2 _ _ _ _ _ _ _ _ _ P _ _ G2) as (v1 & G1' & Kp). unfold vehicle_at in G1. assert (v1 = v) by congruence. subst v1.
    destruct (integrate_ok _ _ _ _ _ Hi) as (_ & _ & _ & _ & _ & _ & D6 & _). unfold next_link in Nx. rewrite E1 in Nx.
    assert (v_route v = [lid]) as Er by (destruct Kp as (a & f & Ek); rewrite Ek in D6; cbn in D6; congruence). rewrite Er in Nx. discriminate Nx.
  Qed.

  (** ** A reason to wait *)
  Lemma reason_to_wait e s dt s1 s' lid l k v x lx d m p since : reachable s -> lengths_add_up s -> step e s dt = Ok s' -> nltb (s_acc_update s) ACCELERATION_UPDATE_SEC = false ->
    calculate_lane_changes e s = Ok s1 -> link_at s1 lid = Some l -> first_at_line s1 l k v -> next_link v = Some x -> link_at s1 x = Some lx -> lk_control lx = CYield d m p -> v_queued v = Some since ->
    (exists v', vehicle_at s' k = Some v' /\ In x (entered_links v')) \/ exists kw, held_up_by s1 v l lx p since kw.
  Proof.
    intros R Add H D' H1 Gl Fl Nx Gx Co Q. pose proof (reachable_Inv _ R) as I. pose proof Fl as (_ & _ & _ & _ & Gv & E1 & _).
    destruct (still_there _ _ _ _ _ _ _ _ R H H1 Gv E1 Nx) as (v' & G').
    destruct (step_enter _ _ _ _ _ _ I H G') as (t1 & s2 & v0 & v1 & v4 & f & G & H1' & G1 & St1 & Sn & Q1 & Re & E4 & C4 & C5 & Q5 & F).
    assert (t1 = s1) by congruence. subst t1. assert (v1 = v) by congruence. subst v1.
    destruct F as [(F & _)|(_ & links & vs & log1 & log & P & F)]; [congruence|].
    destruct (line_who _ _ _ _ _ _ _ _ _ _ _ _ _ _ _ _ _ St1 P Gl Fl Nx Gx Co Q) as [K|K]; [left|right; exact K]. exists v'. split; [exact G'|].
    assert (f = 2) as ->.
    { rewrite F. apply flag_2; [exact K|]. intros g Hg. destruct (parts_reasons _ _ _ _ _ _ _ St1 (add_up_same _ _ Sn Add) P) as (_ & Rs).
      destruct (Rs _ _ Hg) as (w & y & Gw & Ny & [(_ & M)|(E & _)]); [|exact E]. exfalso. assert (w = v) by congruence. subst w. destruct M as (Qn & _). congruence. }
    destruct C4 as [(C & _)|[(C & _)|(_ & En & _)]]; try discriminate C. unfold next_link in Nx. rewrite E1 in Nx, En. rewrite <- E4 in Nx.
    unfold entered_links. eapply in_entered_after; eauto.
  Qed.

  (** ** The one whose turn it is *)
  Definition before (a b : Z * nat) : Prop := (fst b < fst a)%Z \/ fst a = fst b /\ snd a < snd b.
  Lemma best {X} (f : X -> option (Z * nat)) (ks : list X) : (exists k a, In k ks /\ f k = Some a) ->
    exists k a, In k ks /\ f k = Some a /\ forall k' a', In k' ks -> f k' = Some a' -> ~ before a' a.
  Proof.
    intros (k & a & Hk & E). revert k a Hk E. induction ks as [|j ks IH]; intros k a Hk E; [destruct Hk|].
    destruct (f j) as [b|] eqn:Ej.
    - assert ((exists k a, In k ks /\ f k = Some a) \/ forall k a, In k ks -> f k <> Some a) as [(k1 & a1 & Hk1 & E1)|Hn].
      { clear. induction ks as [|j ks IH]; [right; intros k a []|]. destruct (f j) as [a|] eqn:E; [left; exists j, a; simpl; auto|].
        destruct IH as [(k & a & Hk & E')|Hn]; [left; exists k, a; simpl; auto|right]. intros k a [->|Hk]; [congruence|auto]. }
      + destruct (IH _ _ Hk1 E1) as (k2 & a2 & Hk2 & E2 & M). assert (before b a2 \/ ~ before b a2) as [Bf|Nb].
        { unfold before. destruct (Z.lt_trichotomy (fst a2) (fst b)) as [L|[L|L]]; [left; auto| |right; lia]. destruct (Nat.lt_ge_cases (snd b) (snd a2)); [left; right; lia|right; lia]. }
        * exists j, b. split; [left; reflexivity|]. split; [exact Ej|]. intros k' a' [<-|Hk'] E'; [assert (a' = b) as -> by congruence; unfold before; lia|].
          specialize (M _ _ Hk' E'). unfold before in *. lia.
        * exists k2, a2. split; [right; exact Hk2|]. split; [exact E2|]. intros k' a' [<-|Hk'] E'; [assert (a' = b) as -> by congruence; exact Nb|]. exact (M _ _ Hk' E').
      + exists j, b. split; [left; reflexivity|]. split; [exact Ej|]. intros k' a' [<-|Hk'] E'; [assert (a' = b) as -> by congruence; unfold before; lia|]. exfalso. exact (Hn _ _ Hk' E').
    - destruct Hk as [->|Hk]; [congruence|]. destruct (IH _ _ Hk E) as (k2 & a2 & Hk2 & E2 & M). exists k2, a2. split; [right; exact Hk2|]. split; [exact E2|].
      intros k' a' [<-|Hk'] E'; [congruence|]. exact (M _ _ Hk' E').
  Qed.
  Definition rank (s : sim) (J : list key) (k : key) : option (Z * nat) :=
    match vehicle_at s k with
    | Some v => match next_link v, v_queued v with
                | Some x, Some since => if key_mem x J then match link_at s x with Some l => match lk_control l with CYield _ _ p => Some (p, since) | _ => None end | None => None end else None
                | _, _ => None end
    | None => None end.
  Lemma rank_spec s J k p n : rank s J k = Some (p, n) <-> exists x, In x J /\ waits_for s k x p n.
  Proof.
    unfold rank, waits_for, sign_at. split.
    - destruct (vehicle_at s k) as [v|]; [|discriminate]. destruct (next_link v) as [x|] eqn:Nx; [|discriminate]. destruct (v_queued v) as [q|] eqn:Q; [|discriminate].
      destruct (key_mem x J) eqn:M; [|discriminate]. destruct (link_at s x) as [l|] eqn:G; [|discriminate]. destruct (lk_control l) as [|d m p'|] eqn:Co; try discriminate. intros E. injection E as <- <-.
      exists x. split; [apply key_mem_in; exact M|]. exists v. repeat (split; [congruence|]). exists l, d, m. auto.
    - intros (x & Hx & v & G & Nx & Q & l & d & m & Gl & Co). rewrite G, Nx, Q. replace (key_mem x J) with true by (symmetry; apply key_mem_in; exact Hx). rewrite Gl, Co. reflexivity.
  Qed.

  Lemma somebody_goes e s dt s1 s' J : reachable s -> lengths_add_up s -> step e s dt = Ok s' -> nltb (s_acc_update s) ACCELERATION_UPDATE_SEC = false ->
    calculate_lane_changes e s = Ok s1 -> junction s1 J -> nobody_in s1 J -> all_first s1 J -> none_with_priority_comes s1 J ->
    (exists k x p n, In x J /\ waits_for s1 k x p n) ->
    exists k x p n v', In x J /\ waits_for s1 k x p n /\ (forall k2 x2 p2 n2, In x2 J -> waits_for s1 k2 x2 p2 n2 -> k2 = k \/ (p2 < p)%Z \/ p2 = p /\ n < n2) /\
      vehicle_at s' k = Some v' /\ In x (entered_links v').
  Proof.
    intros R Add H D H1 Ju No Fi Np (k0 & x0 & p0 & n0' & Hx0 & W0). pose proof (reachable_Inv _ R) as I.
    assert (forall k q, waits_with s1 k q -> waits_with s k q) as Kw.
    { intros k q (v & G & Q). destruct (lane_changes_evo _ _ _ (i_st _ I) H1 _ _ G) as (v0 & G0 & Rl). exists v0. split; [exact G0|]. apply Rlc_body in Rl. rewrite <- (body_queued _ _ Rl). exact Q. }
    destruct (C22_numbers _ s R) as (Pos & Uni).
    destruct (best (rank s1 J) (sm_keys (s_vehicles s1))) as (k & (p & n) & Hk & Er & M).
    { exists k0, (p0, n0'). split; [|apply rank_spec; eauto]. destruct W0 as (v & G & _). apply in_keys, sm_mem_get; eauto. }
    apply rank_spec in Er. destruct Er as (x & Hx & W).
    assert (forall k2 x2 p2 n2, In x2 J -> waits_for s1 k2 x2 p2 n2 -> k2 = k \/ (p2 < p)%Z \/ p2 = p /\ n < n2) as Best.
    { intros k2 x2 p2 n2 Hx2 W2. assert (rank s1 J k2 = Some (p2, n2)) as E2 by (apply rank_spec; eauto).
      assert (~ before (p2, n2) (p, n)) as Nb. { apply (M k2 _); [|exact E2]. destruct W2 as (v & G & _). apply in_keys, sm_mem_get; eauto. }
      unfold before in Nb. cbn in Nb. destruct (Nat.eq_dec n2 n) as [->|Nn]; [left|right; lia].
      destruct W as (v & G & _ & Q & _), W2 as (w & Gw & _ & Qw & _). apply (Uni _ _ n); apply Kw; [exists w|exists v]; auto. }
    destruct (Fi _ _ _ _ Hx W) as (v & lid & l & Lv & Gl & Fl). pose proof W as (v0 & G & Nx & Q & lx & d & m & Gx & Co). pose proof Fl as (_ & _ & _ & _ & Gv & _). assert (v0 = v) by congruence. subst v0.
    destruct (reason_to_wait _ _ _ _ _ _ _ _ _ _ _ _ _ _ _ R Add H D H1 Gl Fl Nx Gx Co Q) as [(v' & G' & He)|(kw & c & l2 & w & i & lw & q0 & q1 & vm & past & rest & Hc & Gl2 & Bk & Pr & Hin & Gw & Hh & Ng & _)].
    { exists k, x, p, n, v'. auto. }
    exfalso. destruct (Ju _ Hx) as (_ & Jc). destruct (Jc (cf_link c) c) as (Hy & Ny); [exists lx; auto|]. destruct (Ju _ Hy) as ((p2 & l2' & d2 & m2 & Gl2' & Co2) & _). assert (l2' = l2) by congruence. subst l2'. rewrite Co2 in Ng.
    destruct (Nat.lt_ge_cases i (v_entered w)) as [Li|Li].
    - destruct (No _ _ _ _ Gw Hy Hh Li) as (-> & Pa). inversion Bk; subst. destruct Pr as (Ev & _ & Mr). destruct rest as [|kr rest]; [destruct Hin|]. destruct Mr as (r & Gr & Lr).
      assert (nltb (cf_max c) (pos_rear r) = true) as Far; [|congruence].
      assert (St (s_links s1) (s_vehicles s1) (s_seq s1)) as St1. { destruct (step_phases _ _ _ _ I H) as (t1 & s2 & s3 & s4 & s5 & P). assert (t1 = s1) by (pose proof (ph1 _ _ _ _ _ _ _ _ _ P); congruence). subst t1. exact (ps1 _ _ _ _ _ _ _ _ _ P). }
      assert (v_link r = Some (cf_link c)) as Lr'.
      { destruct (st_occ _ _ _ St1 _ _ Gl2) as (_ & Oc). assert (In kr (lk_vehicles lw)) as Hi. { apply in_rev. rewrite Ev. apply in_app_iff. simpl. auto. } apply Oc in Hi. unfold at_of in Hi. unfold vehicle_at in Gr. rewrite Gr in Hi. exact Hi. }
      pose proof (vb_ent _ _ _ _ (st_veh _ _ _ St1 _ _ Gr)) as Er.
      destruct (No kr r 0 (cf_link c) Gr Hy) as (_ & Pr); [unfold heads_to; unfold v_link in Lr'; destruct (v_route r); cbn in *; congruence|lia|]. apply (Pr x); [exact Hx|]. exists lx. auto.
    - assert (not_there_yet w i \/ exists a, waits_since w i a) as [Nt|(a & Ea & Qa)].
      { unfold not_there_yet, waits_since. destruct (Nat.eq_dec (v_entered w) i) as [E|E]; [|left; left; lia]. destruct (v_queued w) as [a|]; [right; exists a; auto|left; right; auto]. }
      + apply Ng. pose proof (Np _ _ _ _ Hx W _ _ _ _ p2 Gw Hy Hh Nt ltac:(exists l2, d2, m2; auto)) as Lp. unfold precedence.
        replace (p <? p2)%Z with false by (symmetry; apply Z.ltb_ge; exact Lp). destruct (p =? p2)%Z; eexists; (split; [reflexivity|]); left; exact Nt.
      + assert (waits_for s1 kw (cf_link c) p2 a) as Ww. { exists w. split; [exact Gw|]. unfold next_link. rewrite Ea. split; [exact Hh|]. split; [exact Qa|]. exists l2, d2, m2. auto. }
        apply Ng. unfold precedence. destruct (Best _ _ _ _ Hy Ww) as [->|[L|(-> & L)]].
        * exfalso. apply Ny. assert (w = v) by congruence. subst w. unfold next_link in Nx. rewrite Ea in Nx. unfold heads_to in Hh. congruence.
        * replace (p <? p2)%Z with false by (symmetry; apply Z.ltb_ge; lia). replace (p =? p2)%Z with false by (symmetry; apply Z.eqb_neq; lia).
          exists 0. split; [reflexivity|]. right. exists a. split; [split; auto|]. apply (Pos kw a). apply Kw. exists w. auto.
        * rewrite Z.ltb_irrefl, Z.eqb_refl. exists n. split; [reflexivity|]. right. exists a. split; [split; auto|exact L].
  Qed.
End Junction.
