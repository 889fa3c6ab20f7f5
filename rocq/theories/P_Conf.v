(** * C48 and C52: conflicts between links *)
From Coq Require Import List Bool ZArith NArith Arith Lia Reals Lra.
From Flocq Require Import Core IEEE754.BinarySingleNaN.
From Verif Require Import Arith F64 RealArith Base BaseProofs SlotMap Util Geom Light Accel Net Path Vehicle LinkOps Sim SpecLight SpecSim SlotMapProofs Safe NetInv SimInv AccSafe SimSafe StepSafe OpSafe Evo StepEvo SimProofs SimExample StepProofs Ord LogProofs SpecMotion Motion RFacts P_Motion NetEvo SpecEnter EnterProofs P_Enter SpecAhead P_Lane SpecConf ConfProofs.
Import ListNotations.

Section Zone.
  Context {A : Arith}.

  Lemma probe_det c1 c2 i o : probe c1 c2 i o -> forall o', probe c1 c2 i o' -> o' = o.
  Proof.
    intros P. induction P as [|i o o1 P IH E]; intros o' P'; inversion P' as [|i' p p' Pp Ep]; subst; [reflexivity|].
    apply IH in Pp. subst p. congruence.
  Qed.
  (** The range found so far. *)
  Definition found (c1 c2 : link_curve) (i : nat) (mn mx : option num) : Prop :=
    mn = None /\ mx = None /\ (forall j, j < i -> ~ close_at c1 c2 j) \/
    exists p q, p <= q /\ q < i /\ close_at c1 c2 p /\ close_at c1 c2 q /\ (forall j, j < i -> close_at c1 c2 j -> p <= j <= q) /\
      mn = Some (nsub (quarters p) (lit 1 4)) /\ mx = Some (nadd (quarters q) (lit 1 4)).
  Lemma cpl_loop_found c1 c2 : forall fuel i o mn mx mm, cpl_loop fuel c1 c2 (quarters i) o mn mx = Ok mm ->
    probe c1 c2 i o -> (forall j, j < i -> nltb (quarters j) (lc_length c1) = true) -> found c1 c2 i mn mx ->
    exists n, (forall j, on_link c1 j <-> j < n) /\ found c1 c2 n (fst mm) (snd mm).
  Proof.
    induction fuel as [|fuel IH]; intros i o mn mx mm H P L F; [discriminate H|]. cbn [cpl_loop] in H.
    destruct (nltb (quarters i) (lc_length c1)) eqn:E.
    - fold (place c1 i) in H. bok H o' Ho. change (nadd (quarters i) STEP) with (quarters (S i)) in H.
      assert (probe c1 c2 (S i) o') as P' by (econstructor; [exact P|exact Ho]).
      assert (forall j, j < S i -> nltb (quarters j) (lc_length c1) = true) as L'.
      { intros j Hj. destruct (Nat.eq_dec j i) as [->|Nj]; [exact E|apply L; lia]. }
      set (hit := match o' with None => false | Some p => _ end) in H.
      assert (hit = true <-> close_at c1 c2 i) as Hc.
      { unfold close_at. subst hit. split.
        - destruct o' as [p|]; [|discriminate]. intros Q. exists p. split; [exact P'|exact Q].
        - intros (p & Pp & Q). pose proof (probe_det _ _ _ _ Pp _ P') as ->. exact Q. }
      destruct hit.
      + refine (IH _ _ _ _ _ H P' L' _). right. assert (close_at c1 c2 i) as Hi by (apply Hc; reflexivity). destruct F as [(-> & -> & Nf)|(p & q & Hpq & Hq & Cp & Cq & Al & -> & ->)].
        * exists i, i. split; [lia|]. split; [lia|]. split; [exact Hi|]. split; [exact Hi|]. split; [|split; reflexivity].
          intros j Hj Cj. destruct (Nat.eq_dec j i); [lia|]. exfalso. apply (Nf j); [lia|exact Cj].
        * exists p, i. split; [lia|]. split; [lia|]. split; [exact Cp|]. split; [exact Hi|]. split; [|split; reflexivity].
          intros j Hj Cj. destruct (Nat.eq_dec j i); [lia|]. assert (p <= j <= q) by (apply Al; [lia|exact Cj]). lia.
      + refine (IH _ _ _ _ _ H P' L' _). assert (~ close_at c1 c2 i) as Ni by (intros Q; apply Hc in Q; discriminate Q). destruct F as [(-> & -> & Nf)|(p & q & Hpq & Hq & Cp & Cq & Al & -> & ->)].
        * left. split; [reflexivity|]. split; [reflexivity|]. intros j Hj. destruct (Nat.eq_dec j i) as [->|]; [exact Ni|apply Nf; lia].
        * right. exists p, q. split; [lia|]. split; [lia|]. split; [exact Cp|]. split; [exact Cq|]. split; [|split; reflexivity].
          intros j Hj Cj. destruct (Nat.eq_dec j i) as [->|]; [contradiction|]. apply Al; [lia|exact Cj].
    - injection H as <-. exists i. split; [|exact F]. intros j. split.
      + intros Oj. destruct (le_lt_dec i j) as [Q|Q]; [|exact Q]. rewrite (Oj i Q) in E. discriminate E.
      + intros Hj j' Hj'. apply L. lia.
  Qed.
  Lemma cpl_new_zone fuel l other r : cpl_new fuel l other = Ok r ->
    match r with
    | Some c => cpl_link c = lk_id l /\ zone (lk_curve l) (lk_curve other) (cpl_min c) (cpl_max c)
    | None => ~ meets (lk_curve l) (lk_curve other)
    end.
  Proof.
    unfold cpl_new. intros H. bok H mm Hmm. change n0 with (quarters 0) in Hmm.
    destruct (cpl_loop_found _ _ _ _ _ _ _ _ Hmm) as (n & On & F); [constructor|intros; lia|left; split; [reflexivity|split; [reflexivity|intros; lia]]|].
    destruct mm as [mn mx]. cbn [fst snd] in F. destruct F as [(-> & -> & Nf)|(p & q & Hpq & Hq & Cp & Cq & Al & -> & ->)]; injection H as <-.
    - intros (i & Oi & Ci). apply (Nf i); [apply On; exact Oi|exact Ci].
    - cbn [cpl_link cpl_min cpl_max]. split; [reflexivity|]. exists p, q. split; [exact Hpq|]. split; [split; [apply On; lia|exact Cp]|]. split; [split; [apply On; lia|exact Cq]|].
      split; [|split; reflexivity]. intros i Oi Ci. apply Al; [apply On; exact Oi|exact Ci].
  Qed.
  Lemma zone_meets c1 c2 lo hi : zone c1 c2 lo hi -> meets c1 c2.
  Proof. intros (p & q & _ & Hp & _). exists p. exact Hp. Qed.

  (** A pair of records of one conflict point. *)
  Definition twins (cp : cpoint) (a b : key) (c c' : link_conflict) : Prop :=
    c = LConf b (cf_max c') (cf_min c) (cf_max c) /\ c' = LConf a (cf_max c) (cf_min c') (cf_max c') /\
    (cp_a cp = CPL a (cf_min c') (cf_max c') /\ cp_b cp = CPL b (cf_min c) (cf_max c) \/
     cp_a cp = CPL b (cf_min c) (cf_max c) /\ cp_b cp = CPL a (cf_min c') (cf_max c')).
  Lemma filter_entries cp a b : cpl_link (cp_a cp) <> cpl_link (cp_b cp) ->
    filter (fun c => key_eqb (cf_link c) b) (entries_of cp a) = [] /\ filter (fun c => key_eqb (cf_link c) a) (entries_of cp b) = [] \/
    exists c c', filter (fun c => key_eqb (cf_link c) b) (entries_of cp a) = [c] /\ filter (fun c => key_eqb (cf_link c) a) (entries_of cp b) = [c'] /\ twins cp a b c c'.
  Proof.
    intros N. unfold entries_of, link_conflicts. destruct cp as [[ka mna mxa] [kb mnb mxb] sd]. cbn [cp_a cp_b cpl_link cpl_min cpl_max] in *. cbn [filter fst].
    destruct (key_eqb_spec ka a) as [E1|N1], (key_eqb_spec kb a) as [E2|N2], (key_eqb_spec ka b) as [E3|N3], (key_eqb_spec kb b) as [E4|N4]; try congruence; subst; cbn [map snd filter cf_link];
      rewrite ?key_eqb_refl;
      repeat match goal with |- context [key_eqb ?x ?y] => destruct (key_eqb_spec x y); try congruence end; auto.
    - right. do 2 eexists. split; [reflexivity|]. split; [reflexivity|]. unfold twins. cbn [cf_max cf_min cp_a cp_b]. auto.
    - right. do 2 eexists. split; [reflexivity|]. split; [reflexivity|]. unfold twins. cbn [cf_max cf_min cp_a cp_b]. auto.
  Qed.
  Lemma paired s a b la lb : CI s -> link_at s a = Some la -> link_at s b = Some lb ->
    Forall2 (fun c c' => exists cp, In cp (s_conflicts s) /\ twins cp a b c c') (conflicts_with la b) (conflicts_with lb a).
  Proof.
    intros (C1 & C2) Ga Gb. unfold conflicts_with. rewrite (C1 _ _ Ga), (C1 _ _ Gb).
    assert (forall cps, Forall (made_from (s_links s)) cps -> (forall cp, In cp cps -> In cp (s_conflicts s)) ->
      Forall2 (fun c c' => exists cp, In cp (s_conflicts s) /\ twins cp a b c c')
        (filter (fun c => key_eqb (cf_link c) b) (flat_map (fun cp => entries_of cp a) cps)) (filter (fun c => key_eqb (cf_link c) a) (flat_map (fun cp => entries_of cp b) cps))) as K.
    { intros cps F. induction F as [|cp cps (N & _) _ IH]; intros Hin; [constructor|]. cbn [flat_map]. rewrite !filter_app. apply Forall2_app; [|apply IH; intros; apply Hin; right; assumption].
      destruct (filter_entries cp a b N) as [(-> & ->)|(c & c' & -> & -> & T)]; [constructor|]. constructor; [|constructor]. exists cp. split; [apply Hin; left; reflexivity|exact T]. }
    apply K; [exact C2|auto].
  Qed.
  Lemma Forall2_weaken {X Y} (P Q : X -> Y -> Prop) l l' : (forall x y, P x y -> Q x y) -> Forall2 P l l' -> Forall2 Q l l'.
  Proof. intros H F. induction F; constructor; auto. Qed.
  Lemma Forall2_in_r {X Y} (P : X -> Y -> Prop) l l' y : Forall2 P l l' -> In y l' -> exists x, In x l /\ P x y.
  Proof. intros F. induction F as [|x0 y0 l l' H F IH]; [intros []|]. intros [<-|Hy]; [exists x0; cbn; auto|]. destruct (IH Hy) as (x & Hx & Hxy). exists x. cbn; auto. Qed.
  Lemma Forall2_in_l {X Y} (P : X -> Y -> Prop) l l' x : Forall2 P l l' -> In x l -> exists y, In y l' /\ P x y.
  Proof. intros F. induction F as [|x0 y0 l l' H F IH]; [intros []|]. intros [<-|Hx]; [exists y0; cbn; auto|]. destruct (IH Hx) as (y & Hy & Hxy). exists y. cbn; auto. Qed.
  Lemma Forall2_nth {X Y} (P : X -> Y -> Prop) l l' i x y : Forall2 P l l' -> nth_error l i = Some x -> nth_error l' i = Some y -> P x y.
  Proof.
    intros F. revert i. induction F as [|x0 y0 l l' H F IH]; intros i Hx Hy; [destruct i; discriminate Hx|].
    destruct i as [|i]; [injection Hx as <-; injection Hy as <-; exact H|exact (IH i Hx Hy)].
  Qed.
  Lemma twins_zone s a b la lb cp c c' : CI s -> net_ok (s_links s) -> link_at s a = Some la -> link_at s b = Some lb -> In cp (s_conflicts s) -> twins cp a b c c' ->
    a <> b /\ zone (lk_curve la) (lk_curve lb) (cf_min c') (cf_max c') /\ zone (lk_curve lb) (lk_curve la) (cf_min c) (cf_max c) /\
    (cp_a cp = CPL a (cf_min c') (cf_max c') /\ cp_b cp = CPL b (cf_min c) (cf_max c) /\ cp_same_dir cp = same_direction la lb (cf_min c') (cf_max c') (cf_min c) (cf_max c) \/
     cp_a cp = CPL b (cf_min c) (cf_max c) /\ cp_b cp = CPL a (cf_min c') (cf_max c') /\ cp_same_dir cp = same_direction lb la (cf_min c) (cf_max c) (cf_min c') (cf_max c')).
  Proof.
    intros (_ & C2) Nk Ga Gb Hin (_ & _ & T). rewrite Forall_forall in C2. destruct (C2 _ Hin) as (N & fuel & l1 & l2 & G1 & G2 & E).
    unfold cpoint_new in E. bok E ca Ha. destruct ca as [ca|]; [|discriminate E]. bok E cb Hb. destruct cb as [cb|]; [|discriminate E]. injection E as <-. cbn [cp_a cp_b cp_same_dir] in *.
    apply cpl_new_zone in Ha, Hb. destruct Ha as (Ia & Za), Hb as (Ib & Zb).
    unfold link_at in Ga, Gb.
    destruct T as [(-> & ->)|(-> & ->)]; cbn [cpl_link cpl_min cpl_max] in *.
    - assert (l1 = la) by congruence. assert (l2 = lb) by congruence. subst. split; [exact N|]. split; [exact Za|]. split; [exact Zb|]. left. auto.
    - assert (l1 = lb) by congruence. assert (l2 = la) by congruence. subst. split; [congruence|]. split; [exact Zb|]. split; [exact Za|]. right. auto.
  Qed.
End Zone.

(** ** C48: a call of add_link_convergance *)
(** Distinct links which are close to each other, seen from either: each gets one record, which
    names the other and the zone on it.  Otherwise, or with equal or unknown IDs, nothing happens. *)
Theorem C48_call {A : Arith} : forall e s a b s', reachable s -> exec e s (OAddConvergence a b) = Ok s' ->
  (a <> b /\ exists la lb la' lb' c c', link_at s a = Some la /\ link_at s b = Some lb /\ link_at s' a = Some la' /\ link_at s' b = Some lb' /\
     meets (lk_curve la) (lk_curve lb) /\ meets (lk_curve lb) (lk_curve la) /\
     cf_link c = b /\ zone (lk_curve lb) (lk_curve la) (cf_min c) (cf_max c) /\
     cf_link c' = a /\ zone (lk_curve la) (lk_curve lb) (cf_min c') (cf_max c') /\ mirrored c c' /\
     lk_conflicts la' = lk_conflicts la ++ [c] /\ lk_conflicts lb' = lk_conflicts lb ++ [c'] /\
     geo la' = geo la /\ lk_vehicles la' = lk_vehicles la /\ lk_control la' = lk_control la /\
     geo lb' = geo lb /\ lk_vehicles lb' = lk_vehicles lb /\ lk_control lb' = lk_control lb /\
     (forall x, x <> a -> x <> b -> link_at s' x = link_at s x) /\ (forall k, vehicle_at s' k = vehicle_at s k)) \/
  (s' = s /\ (a = b \/ link_at s a = None \/ link_at s b = None \/
     exists la lb, link_at s a = Some la /\ link_at s b = Some lb /\ (~ meets (lk_curve la) (lk_curve lb) \/ ~ meets (lk_curve lb) (lk_curve la)))).
Proof.
  intros e s a b s' R H. pose proof (reachable_Inv _ R) as I. cbn [exec] in H. unfold add_link_convergance in H. unfold link_at.
  destruct (key_eqb_spec a b) as [->|N]; [injection H as <-; auto|].
  destruct (sm_get (s_links s) a) as [la|] eqn:Ga; [|injection H as <-; right; auto 8]. destruct (sm_get (s_links s) b) as [lb|] eqn:Gb; [|injection H as <-; right; auto 8].
  bok H x Hx. unfold cpoint_new in Hx. bok Hx ca Ha. pose proof (cpl_new_zone _ _ _ _ Ha) as Za.
  destruct ca as [ca|]; [|injection Hx as <-; injection H as <-; right; split; [reflexivity|]; eauto 10].
  bok Hx cb Hb. pose proof (cpl_new_zone _ _ _ _ Hb) as Zb. destruct cb as [cb|]; [|injection Hx as <-; injection H as <-; right; split; [reflexivity|]; eauto 10].
  injection Hx as <-. destruct Za as (Ia & Za), Zb as (Ib & Zb). pose proof (nk_link _ (st_net _ _ _ (i_st _ I))) as Nk.
  rewrite (lo_id _ _ _ (Nk _ _ Ga)) in Ia. rewrite (lo_id _ _ _ (Nk _ _ Gb)) in Ib.
  bok H links Hl. injection H as <-. cbn [s_links]. unfold link_conflicts in Hl. cbn [cp_a cp_b] in Hl. rewrite Ia, Ib in Hl.
  left. split; [exact N|].
  assert (forall x, sm_mem (s_links s) x = sm_mem links x) as Sh by (intros x; apply shape_mem; eapply foldM_upd_shape; exact Hl).
  destruct (proj1 (sm_mem_get links a)) as (la' & Ga'). { rewrite <- Sh. apply sm_mem_get. eauto. }
  destruct (proj1 (sm_mem_get links b)) as (lb' & Gb'). { rewrite <- Sh. apply sm_mem_get. eauto. }
  destruct (add_two _ _ _ _ _ _ N Hl _ _ Ga') as (l1 & G1 & E1). destruct (add_two _ _ _ _ _ _ N Hl _ _ Gb') as (l2 & G2 & E2).
  rewrite key_eqb_refl in E1, E2. destruct (key_eqb_spec a b); [contradiction|]. assert (l1 = la) by congruence. assert (l2 = lb) by congruence. subst l1 l2.
  exists la, lb, la', lb'. do 2 eexists. do 4 (split; [first [assumption|reflexivity]|]). split; [eapply zone_meets; exact Za|]. split; [eapply zone_meets; exact Zb|].
  split; [|split; [|split; [|split; [|split; [|split; [rewrite E1; cbn [add_conflict lk_conflicts]; reflexivity|split; [rewrite E2; cbn [add_conflict lk_conflicts]; reflexivity|]]]]]]]; cbn [cf_link cf_min cf_max cf_own_max]; try first [reflexivity|assumption].
  { split; reflexivity. }
  rewrite E1, E2. do 6 (split; [reflexivity|]). split; [|reflexivity].
  intros x Na Nb. destruct (sm_get links x) as [l'|] eqn:Gx.
  - destruct (add_two _ _ _ _ _ _ N Hl _ _ Gx) as (l & G & ->). destruct (key_eqb_spec a x); [congruence|]. destruct (key_eqb_spec b x); [congruence|]. auto.
  - destruct (sm_get (s_links s) x) as [l'|] eqn:Gx'; [|reflexivity]. assert (sm_mem links x = true) as M by (rewrite <- Sh; apply sm_mem_get; eauto). apply sm_mem_get in M. destruct M. congruence.
Qed.
Print Assumptions C48_call.

(** ** C48: in every reachable state the records of two links about each other go in pairs *)
Theorem C48_symmetric {A : Arith} : forall s a b la lb, reachable s -> link_at s a = Some la -> link_at s b = Some lb ->
  Forall2 (fun c c' => a <> b /\ mirrored c c' /\
             zone (lk_curve lb) (lk_curve la) (cf_min c) (cf_max c) /\ zone (lk_curve la) (lk_curve lb) (cf_min c') (cf_max c'))
    (conflicts_with la b) (conflicts_with lb a).
Proof.
  intros s a b la lb R Ga Gb. pose proof (reachable_CI _ R) as C. pose proof (st_net _ _ _ (i_st _ (reachable_Inv _ R))) as N.
  eapply Forall2_weaken; [|exact (paired _ _ _ _ _ C Ga Gb)]. cbv beta. intros c c' (cp & Hin & T).
  destruct (twins_zone _ _ _ _ _ _ _ _ C N Ga Gb Hin T) as (Nab & Za & Zb & _). split; [exact Nab|]. split; [|split; assumption].
  destruct T as (-> & -> & _). split; reflexivity.
Qed.
Print Assumptions C48_symmetric.

(** In exact arithmetic a zone is a proper interval that leaves the link by at most a step. *)
Lemma quarters_R i : (@quarters RA i : R) = (INR i / 4)%R.
Proof.
  induction i as [|i IH]; [simpl; lra|]. rewrite S_INR. cbn [quarters]. change (nadd (@quarters RA i) (lit 1 4)) with ((@quarters RA i : R) + (IZR 1 / IZR 4))%R. rewrite IH. lra.
Qed.
Theorem C48_range : forall (c1 c2 : @link_curve RA) (lo hi : R), zone c1 c2 lo hi ->
  (lo < hi /\ - (1 / 4) <= lo /\ hi < lc_length c1 + 1 / 4)%R.
Proof.
  intros c1 c2 lo hi (p & q & Hpq & _ & (Oq & _) & _ & -> & ->). specialize (Oq q (le_n q)). apply ltb_R in Oq. 
  change (((@quarters RA p : R) - IZR 1 / IZR 4 < (@quarters RA q : R) + IZR 1 / IZR 4 /\ - (1 / 4) <= (@quarters RA p : R) - IZR 1 / IZR 4 /\ (@quarters RA q : R) + IZR 1 / IZR 4 < lc_length c1 + 1 / 4)%R).
  rewrite !quarters_R in *. apply le_INR in Hpq. pose proof (pos_INR p). lra.
Qed.
Print Assumptions C48_range.

Section Brake.
  Context {A : Arith}.

  Lemma CI_lane_changes s s1 : CI s -> same_net (s_links s) (s_links s1) -> s_conflicts s1 = s_conflicts s -> CI s1.
  Proof.
    intros (C1 & C2) Sn E. split.
    - intros x l G. rewrite E. destruct (same_net_get _ _ _ _ Sn G) as (l0 & G0 & Es). rewrite <- (C1 _ _ G0). unfold lk_static in Es. congruence.
    - rewrite E. eapply Forall_impl; [|exact C2]. intros cp (N & fuel & la & lb & Ga & Gb & Ec). split; [exact N|].
      destruct (same_net_get' _ _ _ _ Sn Ga) as (la' & Ga' & Ea). destruct (same_net_get' _ _ _ _ Sn Gb) as (lb' & Gb' & Eb). exists fuel, la', lb'. split; [exact Ga'|]. split; [exact Gb'|].
      rewrite <- Ec. unfold lk_static in Ea, Eb. apply cpoint_geo; unfold geo; congruence.
  Qed.
  Lemma approaching_facts s x idx a pos k v i d : approaching s x idx a pos k v i d -> vehicle_at s k = Some v /\ heads_to v i x.
  Proof. intros H. induction H; auto. Qed.

  Definition matches (q : relveh) (r : arrival) : Prop :=
    rv_key q = ar_key r /\ rv_veh q = v_reset (ar_veh r) /\ rv_pos q = ar_dist r /\ rv_link q 0 = Some (ar_link r).
  Lemma matches_fun s q r r' : matches q r -> matches q r' -> vehicle_at s (ar_key r) = Some (ar_veh r) -> vehicle_at s (ar_key r') = Some (ar_veh r') -> r = r'.
  Proof. intros (K1 & _ & P1 & L1) (K2 & _ & P2 & L2) V V'. destruct r, r'; cbn in *. congruence. Qed.
  Lemma matches_front q r : matches q r -> rv_front q = ar_front r.
  Proof. intros (_ & V & P & _). unfold rv_front, ar_front. rewrite V, P. reflexivity. Qed.
  Lemma matches_rear q r : matches q r -> rv_rear q = ar_rear r.
  Proof. intros (_ & V & P & _). unfold rv_rear, ar_rear. rewrite V, P. reflexivity. Qed.

  Section Ctx.
    Variables (s : sim) (links : linkset) (vs : vehset).
    Hypothesis HL : forall k l, sm_get links k = Some l -> exists l0, link_at s k = Some l0 /\ exists b, l = set_lk_active l0 b.
    Hypothesis HV : forall k, sm_get vs k = option_map v_reset (vehicle_at s k).
    Hypothesis HU : forall a l, sm_get links a = Some l -> (in_use s a <-> lk_active l = true).

    Lemma find_near fuel x mn mx buf buf' : find_vehicles fuel links vs (CPL x mn mx) buf = Ok buf' ->
      exists news, buf' = buf ++ news /\ (forall q, In q news -> exists r, near_zone s x mn mx r /\ matches q r) /\ (forall r, near_zone s x mn mx r -> exists q, In q news /\ matches q r).
    Proof.
      unfold find_vehicles. cbn [cpl_link cpl_min cpl_max]. intros H. bok H l Hl. unfold get_link in Hl. apply of_option_ok in Hl.
      destruct (process_collect s links vs x (fun r => nltb (rv_rear r) (nsub mx mn)) HL HV HU _ _ _ _ _ _ _ Hl H) as (news & E & Sp). exists news. split; [exact E|]. split.
      - intros q Hq. apply Sp in Hq. destruct Hq as (k & v & i & d & -> & Ap & T). exists (Arrival k v x d). destruct (approaching_facts _ _ _ _ _ _ _ _ _ Ap) as (_ & Hh). split.
        + split; [reflexivity|]. split; [exact T|]. exists i. exact Ap.
        + split; [reflexivity|]. split; [reflexivity|]. split; [reflexivity|]. unfold rv_link, rv_route. cbn [rv_veh rv_idx ar_link]. rewrite Nat.add_0_r. unfold get_route, heads_to in *. change (v_route (v_reset v)) with (v_route v). rewrite Hh. reflexivity.
      - intros r (Lr & T & i & Ap). destruct (approaching_facts _ _ _ _ _ _ _ _ _ Ap) as (_ & Hh).
        exists (RV (ar_key r) (v_reset (ar_veh r)) i (ar_dist r)). split.
        + apply Sp. exists (ar_key r), (ar_veh r), i, (ar_dist r). split; [reflexivity|]. split; [exact Ap|exact T].
        + split; [reflexivity|]. split; [reflexivity|]. split; [reflexivity|]. unfold rv_link, rv_route. cbn [rv_veh rv_idx]. rewrite Nat.add_0_r. unfold get_route, heads_to in *. change (v_route (v_reset (ar_veh r))) with (v_route (ar_veh r)). rewrite Hh, Lr. reflexivity.
    Qed.

    Hypothesis Tr : forall x y z : num, nnan x = false -> nnan y = false -> nnan z = false -> nltb x y = true -> nltb x z = false -> nltb y z = false.
    Hypothesis As : forall x y : num, nltb x y = true -> nltb y x = false.

    Lemma sorted_order l : sorted_desc l -> (forall q, In q l -> exists r, vehicle_at s (ar_key r) = Some (ar_veh r) /\ matches q r) ->
      exists order, by_front order /\ Forall2 matches l order /\ Forall (fun r => vehicle_at s (ar_key r) = Some (ar_veh r)) order.
    Proof.
      induction l as [|q l IH]; intros Sl Hl; [exists []; split; [exact Logic.I|]; split; constructor|].
      destruct Sl as (S1 & S2). destruct (IH S2) as (order & B & F & V); [intros; apply Hl; right; assumption|]. destruct (Hl q) as (r & Vr & Mr); [left; reflexivity|].
      exists (r :: order). split; [|split; constructor; assumption]. split; [|exact B]. intros r' Hr'.
      destruct (Forall2_in_r _ _ _ _ F Hr') as (q' & Hq' & Mq'). rewrite <- (matches_front _ _ Mr), <- (matches_front _ _ Mq'). apply S1. exact Hq'.
    Qed.

    Lemma cp_brakes fuel cp xa mna mxa xb mnb mxb log log' ra rb : cp_a cp = CPL xa mna mxa -> cp_b cp = CPL xb mnb mxb ->
      cp_apply fuel links vs cp log = Ok log' -> near_zone s xa mna mxa ra -> near_zone s xb mnb mxb rb ->
      exists order, (forall r, In r order <-> near_zone s xa mna mxa r \/ near_zone s xb mnb mxb r) /\ by_front order /\
        forall p leader follower q, order = p ++ leader :: follower :: q -> ar_link leader <> ar_link follower ->
          In (EAcc (ar_key follower) (yield_to (cp_same_dir cp) leader follower)) log'.
    Proof.
      intros Ea Eb H Na Nb. unfold cp_apply in H. rewrite Ea, Eb in H. bok H bu1 H1. destruct (find_near _ _ _ _ _ _ H1) as (n1 & E1 & A1 & B1). cbn [app] in E1. subst n1.
      destruct (B1 _ Na) as (qa & Ia & _). destruct bu1 as [|q0 bu1]; [destruct Ia|]. bok H bu2 H2. destruct (find_near _ _ _ _ _ _ H2) as (n2 & E2 & A2 & B2).
      destruct (B2 _ Nb) as (qb & Ib & _). destruct (Nat.eqb_spec (length bu2) (length (q0 :: bu1))) as [El|_].
      { exfalso. rewrite E2, app_length in El. destruct n2; [destruct Ib|]. cbn in El. lia. }
      bok H l Hs. injection H as <-. destruct (sort_desc_spec Tr As _ _ Hs) as (Sin & Sd).
      assert (forall z mn mx r, near_zone s z mn mx r -> vehicle_at s (ar_key r) = Some (ar_veh r)) as Vn.
      { intros z mn mx r (_ & _ & i & Ap). apply approaching_facts in Ap. tauto. }
      destruct (sorted_order l Sd) as (order & Bf & F & V).
      { intros q Hq. apply Sin in Hq. rewrite E2 in Hq. apply in_app_iff in Hq. destruct Hq as [Hq|Hq]; [destruct (A1 _ Hq) as (r & Nr & Mr)|destruct (A2 _ Hq) as (r & Nr & Mr)]; exists r; eauto. }
      rewrite Forall_forall in V. exists order. split; [|split; [exact Bf|]].
      - intros r. split.
        + intros Hr. destruct (Forall2_in_r _ _ _ _ F Hr) as (q & Hq & Mq). apply Sin in Hq. rewrite E2 in Hq. apply in_app_iff in Hq.
          destruct Hq as [Hq|Hq]; [destruct (A1 _ Hq) as (r' & Nr & Mr); left|destruct (A2 _ Hq) as (r' & Nr & Mr); right]; rewrite (matches_fun s q r r'); eauto.
        + intros Hr. assert (exists q, In q l /\ matches q r) as (q & Hq & Mq).
          { destruct Hr as [Hr|Hr]; [destruct (B1 _ Hr) as (q & Hq & Mq)|destruct (B2 _ Hr) as (q & Hq & Mq)]; exists q; (split; [|exact Mq]); apply Sin; rewrite E2; apply in_app_iff; auto. }
          destruct (Forall2_in_l _ _ _ _ F Hq) as (r' & Hr' & Mr'). rewrite (matches_fun s q r r'); auto. destruct Hr as [Hr|Hr]; eauto.
      - intros p leader follower t Eo Nl. rewrite Eo in F. apply Forall2_app_inv_r in F. destruct F as (p' & l2 & Fp & Fl & ->).
        inversion Fl as [|ql rl l3 t3 Ml Fl2]; subst. inversion Fl2 as [|qf rf l4 t4 Mf _]; subst.
        assert (rv_link ql 0 <> rv_link qf 0) as Nq. { destruct Ml as (_ & _ & _ & ->), Mf as (_ & _ & _ & ->). congruence. }
        pose proof (pairs_in (cp_same_dir cp) p' ql qf l4 log Nq) as Hin.
        unfold yield_to. rewrite <- (matches_rear _ _ Ml). destruct Ml as (Kl & Vl & Pl & _), Mf as (Kf & Vf & Pf & _).
        destruct (cp_same_dir cp && _).
        + unfold rv_follow_obstacle in Hin. rewrite Kf, Vf, Vl in Hin. exact Hin.
        + unfold rv_stop_at_line in Hin. rewrite Kf, Vf, Pf in Hin. exact Hin.
    Qed.
  End Ctx.
End Brake.

Lemma conf_now {A : Arith} (O : OrdLaws A) (Nd : @nnan A MAX_DECEL = false) (MC : forall x y : @num A, nmul x y = nmul y x) e s dt s1 s' a b la lb i c c' ra rb :
  reachable s -> step e s dt = Ok s' -> nltb (s_acc_update s) ACCELERATION_UPDATE_SEC = false -> calculate_lane_changes e s = Ok s1 ->
  link_at s1 a = Some la -> link_at s1 b = Some lb -> nth_error (conflicts_with la b) i = Some c -> nth_error (conflicts_with lb a) i = Some c' ->
  near_zone s1 a (cf_min c') (cf_max c') ra -> near_zone s1 b (cf_min c) (cf_max c) rb ->
  exists order, (forall r, In r order <-> near_zone s1 a (cf_min c') (cf_max c') r \/ near_zone s1 b (cf_min c) (cf_max c) r) /\ by_front order /\
    forall p leader follower q v', order = p ++ leader :: follower :: q -> ar_link leader <> ar_link follower -> vehicle_at s' (ar_key follower) = Some v' ->
      let y := yield_to (same_direction la lb (cf_min c') (cf_max c') (cf_min c) (cf_max c)) leader follower in
      nnan y = false -> nleb (acceleration v') (nmax y full_braking) = true.
Proof.
  intros R H D' H1 Ga Gb Hc Hc' Na Nb.
  pose proof (reachable_Inv _ R) as I.
  destruct (step_phases _ _ _ _ I H) as (s1' & s2 & s3 & s4 & s5 & P). assert (s1' = s1) by (pose proof (ph1 _ _ _ _ _ _ _ _ _ P); congruence). subst s1'.
  assert (CI s1) as C1. { eapply CI_lane_changes; [exact (reachable_CI _ R)|exact (pn1 _ _ _ _ _ _ _ _ _ P)|]. apply (lc_fields _ _ _ H1). }
  pose proof (ps1 _ _ _ _ _ _ _ _ _ P) as St1.
  destruct (Forall2_nth _ _ _ _ _ _ (paired _ _ _ _ _ C1 Ga Gb) Hc Hc') as (cp & Hin & Tw).
  destruct (twins_zone _ _ _ _ _ _ _ _ C1 (st_net _ _ _ St1) Ga Gb Hin Tw) as (Nab & _ & _ & Cases).
  assert (forall x y z : num, nnan x = false -> nnan y = false -> nnan z = false -> nltb x y = true -> nltb x z = false -> nltb y z = false) as Tr.
  { intros x y z Nx Ny Nz. rewrite !(o_lt O), Nx, Ny, Nz. cbn [orb negb andb]. intros Q1 Q2. destruct (Rlt_bool_spec (val O x) (val O y)); [|discriminate Q1]. destruct (Rlt_bool_spec (val O x) (val O z)); [discriminate Q2|].
    apply Rlt_bool_false. lra. }
  assert (forall x y : num, nltb x y = true -> nltb y x = false) as As.
  { intros x y. rewrite !(o_lt O). intros Q. destruct (Rlt_bool_spec (val O x) (val O y)); [|rewrite andb_false_r in Q; discriminate Q]. rewrite (Rlt_bool_false (val O y)) by lra. apply andb_false_r. }
  assert (forall x y : @pt A, dot x y = dot y x) as Dc. { intros x y. unfold dot. rewrite (MC (px x)), (MC (py x)). reflexivity. }
  assert (same_direction lb la (cf_min c) (cf_max c) (cf_min c') (cf_max c') = same_direction la lb (cf_min c') (cf_max c') (cf_min c) (cf_max c)) as Sd by (unfold same_direction; rewrite Dc; reflexivity).
  assert (forall t2 links vs log1 log, parts e s1 t2 links vs log1 log ->
    exists order, (forall r, In r order <-> near_zone s1 a (cf_min c') (cf_max c') r \/ near_zone s1 b (cf_min c) (cf_max c) r) /\ by_front order /\
      forall p leader follower q, order = p ++ leader :: follower :: q -> ar_link leader <> ar_link follower ->
        In (EAcc (ar_key follower) (yield_to (same_direction la lb (cf_min c') (cf_max c') (cf_min c) (cf_max c)) leader follower)) log) as K.
  { intros t2 links vs log1 log Pt. destruct (parts_ctx _ _ _ _ _ _ _ St1 Pt) as (HL & HV & _).
    assert (forall a l, sm_get links a = Some l -> (in_use s1 a <-> lk_active l = true)) as HU.
    { intros a0 l Gl. split.
      - intros (k0 & v0 & G0 & Hin0). destruct (activate_all_active _ _ _ (pt_act _ _ _ _ _ _ _ Pt)) as (_ & _ & Ac). eapply (Ac k0 (v_reset v0)); [|exact Hin0|exact Gl]. rewrite HV, G0. reflexivity.
      - intros Ea. exact (activate_all_used _ _ _ (pt_act _ _ _ _ _ _ _ Pt) _ _ Gl Ea). }
    pose proof (pt_link _ _ _ _ _ _ _ Pt) as Hl. unfold sim_link_accelerations in Hl. bok Hl lg Hlg. clear Hlg.
    assert (exists lga lgb, cp_apply (e_fuel e) links vs cp lga = Ok lgb /\ adds is_acc lgb log) as (lga & lgb & Hcp & Ad).
    { clear -Hl Hin. revert lg Hl Hin. generalize (s_conflicts s1). intros cps. induction cps as [|c0 cps IH]; intros lg Hl Hin; [destruct Hin|]. cbn [foldM] in Hl. bok Hl lg1 Hl1.
      destruct Hin as [->|Hin]; [|eapply IH; eassumption]. exists lg, lg1. split; [exact Hl1|]. eapply foldM_adds; [|exact Hl]. intros cq x y _ Hq. eapply cp_apply_adds; exact Hq. }
    destruct Cases as [(Ea & Eb & Es)|(Ea & Eb & Es)].
    - destruct (cp_brakes s1 links vs HL HV HU Tr As _ _ _ _ _ _ _ _ _ _ _ _ Ea Eb Hcp Na Nb) as (order & Oi & Ob & Ol). exists order. split; [exact Oi|]. split; [exact Ob|].
      intros p leader follower q Eo Nl. eapply (adds_in is_acc); [exact Ad|]. rewrite <- Es. exact (Ol _ _ _ _ Eo Nl).
    - destruct (cp_brakes s1 links vs HL HV HU Tr As _ _ _ _ _ _ _ _ _ _ _ _ Ea Eb Hcp Nb Na) as (order & Oi & Ob & Ol). exists order. split; [intros r; rewrite Oi; tauto|]. split; [exact Ob|].
      intros p leader follower q Eo Nl. eapply (adds_in is_acc); [exact Ad|]. rewrite <- Sd, <- Es. exact (Ol _ _ _ _ Eo Nl). }
  pose proof (ph2 _ _ _ _ _ _ _ _ _ P) as H2.
  assert (nltb (s_acc_update s1) ACCELERATION_UPDATE_SEC = false) as D1. { destruct (lc_fields _ _ _ H1) as (_ & _ & _ & _ & Et & _). rewrite Et. exact D'. }
  assert (Forall (fun c => valid (s_links s1) (cpl_link (cp_a c)) /\ valid (s_links s1) (cpl_link (cp_b c))) (s_conflicts s1)) as V1.
  { eapply Forall_impl; [|exact (proj2 C1)]. intros cq (_ & fuel & l1 & l2 & G1 & G2 & _). split; apply valid_get; eauto. }
  destruct (acc_parts _ _ _ St1 V1 H2 D1) as (links & vs & log1 & log & Pt).
  destruct (K _ _ _ _ _ Pt) as (order & Oi & Ob & Ol). exists order. split; [exact Oi|]. split; [exact Ob|]. intros p leader follower q v' Eo Nl G' y Ny.
  destruct (step_motion _ _ _ _ _ _ I H G') as (v0 & _ & _ & _ & _ & G0 & _).
  refine (refresh_bound O Nd e s dt s' (ar_key follower) v0 v' y I H G0 G' D' Ny _).
  intros t1 t2 links' vs' log1' log' E1 Pt'. assert (t1 = s1) by congruence. subst t1.
  assert (log' = log) as ->.
  { pose proof (pt_act _ _ _ _ _ _ _ Pt) as X1. pose proof (pt_act _ _ _ _ _ _ _ Pt') as X1'. pose proof (pt_stop _ _ _ _ _ _ _ Pt) as X2. pose proof (pt_stop _ _ _ _ _ _ _ Pt') as X2'.
    pose proof (pt_link _ _ _ _ _ _ _ Pt) as X3. pose proof (pt_link _ _ _ _ _ _ _ Pt') as X3'. rewrite X1 in X1'. injection X1' as <- <-. rewrite X2 in X2'. injection X2' as <-. rewrite X3 in X3'. injection X3' as <-. reflexivity. }
  exact (Ol _ _ _ _ Eo Nl).
Qed.
Lemma conf_gen {A : Arith} (O : OrdLaws A) (Nd : @nnan A MAX_DECEL = false) (MC : forall x y : @num A, nmul x y = nmul y x) e ops s dt s1 s' a b la lb i c c' ra rb :
  history (@sim_new A) ops s -> step e s dt = Ok s' -> due (lit 1 10) ops = true -> calculate_lane_changes e s = Ok s1 ->
  link_at s1 a = Some la -> link_at s1 b = Some lb -> nth_error (conflicts_with la b) i = Some c -> nth_error (conflicts_with lb a) i = Some c' ->
  near_zone s1 a (cf_min c') (cf_max c') ra -> near_zone s1 b (cf_min c) (cf_max c) rb ->
  exists order, (forall r, In r order <-> near_zone s1 a (cf_min c') (cf_max c') r \/ near_zone s1 b (cf_min c) (cf_max c) r) /\ by_front order /\
    forall p leader follower q v', order = p ++ leader :: follower :: q -> ar_link leader <> ar_link follower -> vehicle_at s' (ar_key follower) = Some v' ->
      let y := yield_to (same_direction la lb (cf_min c') (cf_max c') (cf_min c) (cf_max c)) leader follower in
      nnan y = false -> nleb (acceleration v') (nmax y full_braking) = true.
Proof.
  intros Hh H D. pose proof (history_timers _ _ Hh) as (T & _). exact (conf_now O Nd MC e s dt s1 s' a b la lb i c c' ra rb (history_reachable _ _ _ Hh (@reach_new A)) H (due_true _ _ _ T D)).
Qed.
Lemma F64_mul_comm : forall x y : f64, Bmult mode_NE x y = Bmult mode_NE y x.
Proof.
  intros [sx|sx| |sx mx ex Hx] [sy|sy| |sy my ey Hy]; cbn [Bmult]; try reflexivity; try (rewrite xorb_comm; reflexivity).
  apply B2SF_inj. rewrite !B2SF_SF2B, xorb_comm, Pos.mul_comm, Z.add_comm. reflexivity.
Qed.

(** ** C52: vehicles near a conflict give way to whoever is further ahead *)
(** [s1] is the simulation after the lane changes at the start of the step; [c] and [c'] are the
    records of one conflict of the links [a] and [b], and there is a vehicle near it on either. *)
Theorem C52_gives_way :
  forall e ops s dt s1 s' a b la lb i c c' ra rb, history (@sim_new F64) ops s -> step e s dt = Ok s' -> due (lit 1 10) ops = true -> calculate_lane_changes e s = Ok s1 ->
    link_at s1 a = Some la -> link_at s1 b = Some lb -> nth_error (conflicts_with la b) i = Some c -> nth_error (conflicts_with lb a) i = Some c' ->
    near_zone s1 a (cf_min c') (cf_max c') ra -> near_zone s1 b (cf_min c) (cf_max c) rb ->
    exists order, (forall r, In r order <-> near_zone s1 a (cf_min c') (cf_max c') r \/ near_zone s1 b (cf_min c) (cf_max c) r) /\ by_front order /\
      forall p leader follower q v', order = p ++ leader :: follower :: q -> ar_link leader <> ar_link follower -> vehicle_at s' (ar_key follower) = Some v' ->
        let y := yield_to (same_direction la lb (cf_min c') (cf_max c') (cf_min c) (cf_max c)) leader follower in
        nnan y = false -> nleb (acceleration v') (nmax y full_braking) = true.
Proof. intros. eapply (conf_gen F64_ord decel_nan F64_mul_comm); eassumption. Qed.
Print Assumptions C52_gives_way.

Theorem C52_gives_way_exact :
  forall e ops s dt s1 s' a b la lb i c c' ra rb, history (@sim_new RA) ops s -> step e s dt = Ok s' -> due (lit 1 10) ops = true -> calculate_lane_changes e s = Ok s1 ->
    link_at s1 a = Some la -> link_at s1 b = Some lb -> nth_error (conflicts_with la b) i = Some c -> nth_error (conflicts_with lb a) i = Some c' ->
    near_zone s1 a (cf_min c') (cf_max c') ra -> near_zone s1 b (cf_min c) (cf_max c) rb ->
    exists order, (forall r, In r order <-> near_zone s1 a (cf_min c') (cf_max c') r \/ near_zone s1 b (cf_min c) (cf_max c) r) /\ by_front order /\
      forall p leader follower q v', order = p ++ leader :: follower :: q -> ar_link leader <> ar_link follower -> vehicle_at s' (ar_key follower) = Some v' ->
        let y := yield_to (same_direction la lb (cf_min c') (cf_max c') (cf_min c) (cf_max c)) leader follower in
        (acceleration v' <= Rmax y (IZR (-6)))%R.
Proof.
  intros e ops s dt s1 s' a b la lb i c c' ra rb. intros.
  destruct (conf_gen RA_ord decel_nan_R Rmult_comm e ops s dt s1 s' a b la lb i c c' ra rb) as (order & Oi & Ob & Ol); try assumption. exists order. split; [exact Oi|]. split; [exact Ob|].
  intros p leader follower q v' Eo Nl G' y. pose proof (Ol _ _ _ _ _ Eo Nl G' eq_refl) as Q. apply leb_R in Q. rewrite max_R in Q. exact Q.
Qed.
Print Assumptions C52_gives_way_exact.


(** ** An example *)
(** Two roads that cross, and a car on each; the second car was added a step later. *)
Notation cross1 := (nth_id 0).
Notation cross2 := (nth_id 1).
Definition ex_cross : list (@op F64) :=
  [ OAddLink (ex_line 0 0 40 0) (fz 15); OAddLink (ex_line 20 (-20) 20 20) (fz 15); OAddConvergence cross1 cross2;
    OAddVehicle ex_car cross1; OStep (fz 1); OAddVehicle ex_car cross2; OStep (fz 1); OStep (fz 1); OStep (fz 1) ].
Definition near_b (s : @sim F64) (x k : key) (zmin zmax : @num F64) (f : arrival -> bool) : bool :=
  link_b s x (fun l => veh_b s k (fun v => match lk_vehicles l with [k'] => key_eqb k' k | _ => false end && existsb (fun k' => key_eqb k' x) (entered_links v) &&
    match v_route v with y :: _ => key_eqb y x | [] => false end && Nat.ltb 0 (v_entered v) && negb (nltb (pos_front v) (nsub zmin (nmul (nofZ 5) (lk_limit l)))) &&
    nltb (nsub (pos_rear v) zmin) (nsub zmax zmin) && f (Arrival k v x zmin))).
Lemma near_b_ok s x k zmin zmax f : near_b s x k zmin zmax f = true -> exists r, ar_key r = k /\ near_zone s x zmin zmax r /\ f r = true.
Proof.
  intros H. apply link_b_ok in H. destruct H as (l & G & H). apply veh_b_ok in H. destruct H as (v & Gv & H). do 6 (apply andb_true_iff in H; destruct H as (H & ?)).
  exists (Arrival k v x zmin). split; [reflexivity|]. split; [|assumption]. split; [reflexivity|]. split; [assumption|]. exists O.
  apply appr_here with (la := l) (behind := []) (ahead := []); cbn [ar_key ar_veh]; auto.
  - exists k, v. split; [exact Gv|]. match goal with Q : existsb _ (entered_links v) = true |- _ => apply existsb_exists in Q; destruct Q as (y & Hy & E); apply key_eqb_eq in E; subst; exact Hy end.
  - destruct (lk_vehicles l) as [|y [|]]; try discriminate. apply key_eqb_eq in H. subst. reflexivity.
  - intros k' [].
  - unfold heads_to. destruct (v_route v) as [|y ?]; [discriminate|]. cbn [nth_error]. f_equal. apply key_eqb_eq. assumption.
  - split; [apply negb_true_iff; assumption|]. intros _. left. apply Nat.ltb_lt. assumption.
Qed.
Definition cross_b (s : @sim F64) (f : @link F64 -> @link F64 -> @link_conflict F64 -> @link_conflict F64 -> bool) : bool :=
  link_b s cross1 (fun la => link_b s cross2 (fun lb =>
    match conflicts_with la cross2, conflicts_with lb cross1 with [c], [c'] => f la lb c c' | _, _ => false end)).
Lemma ex_cross_ok :
  okb (run ex_env sim_new ex_cross) (fun s => due (@lit F64 1 10) ex_cross && okb (calculate_lane_changes ex_env s) (fun s1 =>
    okb (step ex_env s (fz 1)) (fun s' => cross_b s1 (fun la lb c c' =>
      near_b s1 cross1 car1 (cf_min c') (cf_max c') (fun r1 => near_b s1 cross2 car2 (cf_min c) (cf_max c) (fun r2 => nltb (ar_front r2) (ar_front r1) &&
        veh_b s' car2 (fun v' => negb (nnan (yield_to (same_direction la lb (cf_min c') (cf_max c') (cf_min c) (cf_max c)) r1 r2)) &&
           nltb (acceleration v') n0))))))) = true.
Proof. vm_compute. reflexivity. Qed.
(** The car on the second road brakes for the one that is further on the first. *)
Example C52_example : exists s s1 s' la lb c c' r1 r2 v',
  history (@sim_new F64) ex_cross s /\ due (lit 1 10) ex_cross = true /\ calculate_lane_changes ex_env s = Ok s1 /\ step ex_env s (fz 1) = Ok s' /\
  link_at s1 cross1 = Some la /\ link_at s1 cross2 = Some lb /\ conflicts_with la cross2 = [c] /\ conflicts_with lb cross1 = [c'] /\
  near_zone s1 cross1 (cf_min c') (cf_max c') r1 /\ near_zone s1 cross2 (cf_min c) (cf_max c) r2 /\ nltb (ar_front r2) (ar_front r1) = true /\
  vehicle_at s' (ar_key r2) = Some v' /\ nnan (yield_to (same_direction la lb (cf_min c') (cf_max c') (cf_min c) (cf_max c)) r1 r2) = false /\ nltb (acceleration v') n0 = true.
Proof.
  pose proof ex_cross_ok as H. apply okb_ok in H. destruct H as (s & H0 & H). apply andb_true_iff in H. destruct H as (D & H). apply okb_ok in H. destruct H as (s1 & H1 & H). apply okb_ok in H. destruct H as (s' & H2 & H).
  apply link_b_ok in H. destruct H as (la & Ga & H). apply link_b_ok in H. destruct H as (lb & Gb & H).
  destruct (conflicts_with la cross2) as [|c [|]] eqn:Ec; [discriminate H| |discriminate H]. destruct (conflicts_with lb cross1) as [|c' [|]] eqn:Ec'; [discriminate H| |discriminate H].
  apply near_b_ok in H. destruct H as (r1 & K1 & N1 & H). apply near_b_ok in H. destruct H as (r2 & K2 & N2 & H). apply andb_true_iff in H. destruct H as (Hf & H). apply veh_b_ok in H. destruct H as (v' & G' & H).
  apply andb_true_iff in H. destruct H as (Ny & Ha). exists s, s1, s', la, lb, c, c', r1, r2, v'. split; [eapply run_history; exact H0|]. do 10 (split; [assumption|]). split; [rewrite K2; exact G'|]. split; [apply negb_true_iff; exact Ny|exact Ha].
Qed.
(** The two records of the crossing. *)
Lemma ex_cross_zone : okb (run ex_env sim_new ex_cross) (fun s => cross_b s (fun la lb c c' => nltb (cf_min c) (cf_max c) && nltb (fz 17) (cf_min c'))) = true.
Proof. vm_compute. reflexivity. Qed.
Example C48_example : exists s la lb c c', reachable s /\ link_at s cross1 = Some la /\ link_at s cross2 = Some lb /\ conflicts_with la cross2 = [c] /\ conflicts_with lb cross1 = [c'] /\
  mirrored c c' /\ zone (lk_curve la) (lk_curve lb) (cf_min c') (cf_max c') /\ zone (lk_curve lb) (lk_curve la) (cf_min c) (cf_max c) /\ nltb (cf_min c) (cf_max c) = true /\ nltb (fz 17) (cf_min c') = true.
Proof.
  pose proof ex_cross_zone as H. apply okb_ok in H. destruct H as (s & H0 & H). apply link_b_ok in H. destruct H as (la & Ga & H). apply link_b_ok in H. destruct H as (lb & Gb & H).
  destruct (conflicts_with la cross2) as [|c [|]] eqn:Ec; [discriminate H| |discriminate H]. destruct (conflicts_with lb cross1) as [|c' [|]] eqn:Ec'; [discriminate H| |discriminate H].
  apply andb_true_iff in H. destruct H as (Q1 & Q2).
  assert (reachable s) as R by (exact (history_reachable _ _ _ (run_history _ _ _ _ H0) (@reach_new F64))).
  pose proof (C48_symmetric s cross1 cross2 la lb R Ga Gb) as F. rewrite Ec, Ec' in F. inversion F as [|? ? ? ? (_ & Mi & Zb & Za) _]; subst.
  exists s, la, lb, c, c'. auto 12.
Qed.
