(** * A vehicle that is alone meets nobody at conflicts *)
From Coq Require Import List Bool ZArith NArith Arith Lia Reals Lra Relation_Operators Operators_Properties.
From Verif Require P_Net SpecNet.
From Verif Require Import Arith RealArith Base BaseProofs SlotMap Util Geom Light Accel Net Path Vehicle LinkOps Sim SpecLight LightProofs SpecSim SlotMapProofs Safe NetInv SimInv AccSafe SimSafe StepSafe OpSafe Evo StepEvo SimProofs StepProofs Ord LogProofs SpecMotion Motion RFacts P_Motion SpecRoute PlanProofs RouteProofs RouteEvo P_Route P_Exit NetEvo P_Lane SpecEnter EnterProofs P_Enter SpecAhead P_Ahead SpecConf ConfProofs P_Conf SpecSide SpecReason P_Reason P_Alone QueueProofs ArriveKin SpecArrive ArriveProofs.
Import ListNotations.

Section Cross.
  Context {A : Arith}.

  (** ** Links before a link *)
  Lemma in_succ ops s x l b : history sim_new ops s -> link_at s x = Some l -> In b (lk_in l) -> succ_of (s_links s) b x.
  Proof.
    intros Hh Gx Hb. pose proof (history_Inv _ _ _ Hh Inv_new) as I. pose proof (lo_in _ _ _ (nk_link _ (st_net _ _ _ (i_st _ I)) _ _ Gx)) as V. rewrite Forall_forall in V. specialize (V _ Hb). apply sm_mem_get in V. destruct V as (lb & Gb).
    exists lb. split; [exact Gb|]. destruct (P_Net.C55_connections A ops s x l Hh Gx) as (_ & E1). destruct (P_Net.C55_connections A ops s b lb Hh Gb) as (E2 & _). rewrite E1 in Hb. rewrite E2.
    unfold SpecNet.connected_from in Hb. unfold SpecNet.connected_to. apply in_flat_map in Hb. destruct Hb as (o & Ho & Hb). apply in_flat_map. exists o. split; [exact Ho|]. destruct o; try destruct Hb.
    destruct (key_eqb_spec to x) as [->|]; [|destruct Hb]. destruct Hb as [->|[]]. rewrite key_eqb_refl. left. reflexivity.
  Qed.
  Lemma pred_ind (N0 : linkset) (P : key -> Prop) : no_way_back N0 -> (forall a, (forall b, succ_of N0 b a -> P b) -> P a) -> forall a, P a.
  Proof.
    intros Acyc Ih a0. set (keys := a0 :: map fst (sm_entries N0)).
    assert (forall n trail a, NoDup (a :: trail) -> incl (a :: trail) keys -> (forall x, In x trail -> clos_trans key (succ_of N0) a x) -> (length keys - length trail <= n)%nat -> P a) as K.
    { induction n as [|n IH]; intros trail a Nd In1 Tr Ln; apply Ih; intros b Sb.
      - exfalso. pose proof (NoDup_incl_length Nd In1) as Q. cbn [length] in Q. lia.
      - assert (forall x, In x (a :: trail) -> clos_trans key (succ_of N0) b x) as Tb. { intros x [<-|Hx]; [apply t_step; exact Sb|eapply t_trans; [apply t_step; exact Sb|apply Tr; exact Hx]]. }
        apply (IH (a :: trail)); [| |exact Tb|pose proof (NoDup_incl_length Nd In1) as Q; cbn [length] in *; lia].
        + constructor; [|exact Nd]. intros Hb. apply (Acyc b). apply Tb. exact Hb.
        + intros x [<-|Hx]; [|apply In1; exact Hx]. right. destruct Sb as (l & G & _). apply in_map_iff. exists (b, l). split; [reflexivity|apply in_entries; exact G]. }
    apply (K (length keys) [] a0); [repeat constructor; intros []|intros x [<-|[]]; left; reflexivity|intros x []|cbn [length]; lia].
  Qed.

  (** ** If nobody is on the way, the way is clear *)
  Lemma split_past s ks p : (forall k, In k ks -> exists v, vehicle_at s k = Some v) -> exists past rest, ks = past ++ rest /\
    Forall (fun k => exists v, vehicle_at s k = Some v /\ nltb p (pos_rear v) = true) past /\
    match rest with [] => True | k :: _ => exists v, vehicle_at s k = Some v /\ nltb p (pos_rear v) = false end.
  Proof.
    induction ks as [|k ks IH]; intros Hk; [exists [], []; split; [reflexivity|split; [constructor|exact Logic.I]]|].
    destruct (Hk k (or_introl eq_refl)) as (v & G). destruct (nltb p (pos_rear v)) eqn:E.
    - destruct IH as (past & rest & -> & F & M); [intros; apply Hk; right; assumption|]. exists (k :: past), rest. split; [reflexivity|]. split; [constructor; eauto|exact M].
    - exists [], (k :: ks). split; [reflexivity|]. split; [constructor|eauto].
  Qed.
  Lemma clear_nobody ops s0 s time r tgt : history sim_new ops s0 -> no_way_back (s_links s0) -> same_net (s_links s0) (s_links s) -> St (s_links s) (s_vehicles s) (s_seq s) ->
    (forall k v i, vehicle_at s k = Some v -> ~ heads_to v i tgt) ->
    forall x idx l p0 p1 vmax, link_at s x = Some l -> clear s time r tgt idx l p0 p1 vmax.
  Proof.
    intros Hh Ac Sn St1 No. apply (pred_ind (s_links s0) (fun x => forall idx l p0 p1 vmax, link_at s x = Some l -> clear s time r tgt idx l p0 p1 vmax) Ac).
    intros x IH idx l p0 p1 vmax Gx.
    assert (forall k, In k (rev (lk_vehicles l)) -> exists v, vehicle_at s k = Some v) as Hv.
    { intros k Hk. apply in_rev in Hk. destruct (st_occ _ _ _ St1 _ _ Gx) as (_ & Oc). apply Oc in Hk. unfold at_of in Hk. unfold vehicle_at. destruct (sm_get (s_vehicles s) k) as [v|]; [eauto|discriminate Hk]. }
    destruct (split_past s _ p1 Hv) as (past & others & E & F & M).
    apply (clear_before _ _ _ _ _ _ _ _ _ past others).
    - split; [exact E|]. auto.
    - unfold none_heads. rewrite Forall_forall. intros k Hk. destruct (Hv k) as (v & G); [rewrite E; apply in_or_app; right; exact Hk|]. exists v. split; [exact G|exact (No _ _ _ G)].
    - intros k' Hk'. destruct (same_net_get _ _ _ _ Sn Gx) as (l0 & G0 & Es).
      assert (lk_in l = lk_in l0) as Ei by (unfold lk_static in Es; injection Es as F1 F2 F3 F4 F5 F6 F7 F8 F9; congruence). rewrite Ei in Hk'. pose proof (in_succ _ _ _ _ _ Hh G0 Hk') as Sk.
      pose proof Sk as (l1 & G1 & _). destruct (same_net_get' _ _ _ _ Sn G1) as (l' & G' & _). exists l'. split; [exact G'|]. apply (IH k' Sk). exact G'.
  Qed.

  (** ** Two links of a route are on one way *)
  Lemma chain_reach links r : chain links r -> forall i j x y, (i <= j)%nat -> nth_error r i = Some x -> nth_error r j = Some y -> clos_refl_trans key (succ_of links) x y.
  Proof.
    induction r as [|a r IH]; intros Ch i j x y Le Ex Ey; [destruct i; discriminate Ex|]. cbn [chain] in Ch. destruct Ch as (_ & Sa & Ch).
    destruct i as [|i].
    - cbn in Ex. injection Ex as ->. destruct j as [|j]; [cbn in Ey; injection Ey as ->; apply rt_refl|]. cbn in Ey. destruct r as [|b r]; [destruct j; discriminate Ey|].
      eapply rt_trans; [apply rt_step; exact Sa|]. apply (IH Ch 0%nat j); [lia|reflexivity|exact Ey].
    - destruct j as [|j]; [lia|]. cbn in Ex, Ey. apply (IH Ch i j); [lia|exact Ex|exact Ey].
  Qed.
  Lemma approaching_heads s x idx a pos k v i d : approaching s x idx a pos k v i d -> vehicle_at s k = Some v /\ heads_to v i x.
  Proof. induction 1; auto. Qed.
  Lemma along_net s s' : no_conflict_along s -> same_net (s_links s) (s_links s') -> no_conflict_along s'.
  Proof.
    intros Nc Sn x l c Gx Hc. destruct (same_net_get _ _ _ _ Sn Gx) as (l0 & G0 & Es). assert (lk_conflicts l = lk_conflicts l0) as Ei by (unfold lk_static in Es; injection Es as F1 F2 F3 F4 F5 F6 F7 F8 F9; congruence). rewrite Ei in Hc.
    destruct (Nc x l0 c G0 Hc) as (N1 & N2). assert (forall p q, clos_refl_trans key (succ_of (s_links s')) p q -> clos_refl_trans key (succ_of (s_links s)) p q) as K.
    { intros p q H. induction H as [p q H|p|p y q _ IH1 _ IH2]; [apply rt_step; eapply same_succ; eauto|apply rt_refl|eapply rt_trans; eauto]. }
    split; intros Q; [apply N1|apply N2]; apply K; exact Q.
  Qed.
  Lemma alone_cross ops s0 s k v : history sim_new ops s0 -> no_way_back (s_links s0) -> same_net (s_links s0) (s_links s) -> St (s_links s) (s_vehicles s) (s_seq s) ->
    vehicle_at s k = Some v -> alone s k -> no_conflict_along s -> no_cross s v.
  Proof.
    intros Hh Ac Sn St1 Gv Al Nc. pose proof (vb_chain _ _ _ _ (st_veh _ _ _ St1 _ _ Gv)) as Ch.
    assert (forall k2 w, vehicle_at s k2 = Some w -> w = v) as One by (intros k2 w Gw; pose proof (Al _ _ Gw); subst k2; congruence).
    assert (forall x lx c i j, link_at s x = Some lx -> In c (lk_conflicts lx) -> heads_to v i x -> heads_to v j (cf_link c) -> False) as Two.
    { intros x lx c i j Gx Hc Hi Hj. destruct (Nc x lx c Gx Hc) as (N1 & N2). destruct (le_ge_dec i j) as [Q|Q]; [apply N1|apply N2]; eapply chain_reach; eauto. }
    split.
    - intros x lx c lo hi lo2 hi2 r r2 Gx Hc (_ & _ & i & A1) (_ & _ & j & A2). apply approaching_heads in A1. apply approaching_heads in A2. destruct A1 as (B1 & B2), A2 as (C1 & C2). rewrite (One _ _ B1) in B2. rewrite (One _ _ C1) in C2. exact (Two x lx c i j Gx Hc B2 C2).
    - intros y ly dist must prio since pos Ny Gy _ _. rewrite Forall_forall. intros c Hc.
      pose proof (lo_conf _ _ _ (nk_link _ (st_net _ _ _ St1) _ _ Gy)) as V. rewrite Forall_forall in V. specialize (V _ Hc). apply sm_mem_get in V. destruct V as (l2 & G2). exists l2. split; [exact G2|].
      eapply (clear_nobody ops s0 s); eauto. intros k2 w i Gw Hd. rewrite (One _ _ Gw) in Hd. exact (Two y ly c 1%nat i Gy Hc Ny Hd).
  Qed.
End Cross.

(** Nobody is ahead of a vehicle that is alone. *)
Lemma alone_all (k d : key) (N0 : @linkset RA) m : no_way_back N0 -> forall (e : @env RA) (s : @sim RA) dt s' v, alone s k -> no_conflict_along s -> trip k d N0 m s v -> step e s dt = Ok s' -> no_one_ahead k e s.
Proof.
  intros Ac e s dt s' v Al Nc J H s1 v1 H1 G1. split; [exact (alone_free _ _ _ _ Ac e s dt s' v Al J H s1 v1 H1 G1)|].
  pose proof (trip_Inv _ _ _ _ _ _ J) as I. destruct (step_phases _ _ _ _ I H) as (t1 & s2 & s3 & s4 & s5 & P). assert (t1 = s1) by (pose proof (ph1 _ _ _ _ _ _ _ _ _ P); congruence). subst t1.
  destruct (j_hist _ _ _ _ _ _ J) as (ops & Hh & _).
  apply (alone_cross ops s s1 k v1 Hh); [|exact (pn1 _ _ _ _ _ _ _ _ _ P)|exact (ps1 _ _ _ _ _ _ _ _ _ P)|exact G1| |exact (along_net _ _ Nc (pn1 _ _ _ _ _ _ _ _ _ P))].
  - intros x Q. apply (Ac x). pose proof (j_net _ _ _ _ _ _ J) as Sn. revert Q. generalize x at 1 3. intros x2 Q. clear - Q Sn. induction Q as [p q Q|p y q _ IH1 _ IH2]; [apply t_step; exact (same_succ _ _ _ _ Sn Q)|exact (t_trans _ _ _ _ _ IH1 IH2)].
  - intros k2 v2 G2. destruct (lane_changes_exact _ _ _ _ _ (i_st _ I) H1 G2) as (v0 & G0 & _). exact (Al _ _ G0).
Qed.
Lemma along_kept (e : @env RA) (s : @sim RA) dt s' : Inv s -> step e s dt = Ok s' -> no_conflict_along s -> no_conflict_along s'.
Proof. intros I H Nc. eapply along_net; [exact Nc|]. eapply step_same_net; eauto. Qed.
Lemma plain_along {A : Arith} (s : sim) : plain_roads s -> no_conflict_along s.
Proof. intros Op x l c G Hc. destruct (Op x l G) as (Q & _). rewrite Q in Hc. destruct Hc. Qed.
