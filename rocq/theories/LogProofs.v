(** * What the acceleration update does to each vehicle *)
From Coq Require Import List Bool ZArith NArith Arith Lia.
From Verif Require Import Arith Base BaseProofs SlotMap Util Geom Light Accel Net Path Vehicle LinkOps Sim SpecSim SlotMapProofs Safe NetInv SimInv AccSafe SimSafe StepSafe OpSafe Evo StepEvo SimProofs Ord.
Import ListNotations.

Definition T : panic -> Prop := fun _ => True.
Lemma safe_post {X} (r : res X) (Q : X -> Prop) : (forall x, r = Ok x -> Q x) -> safe T r Q.
Proof. destruct r; simpl; unfold T; auto. Qed.

Section LogProofs.
  Context {A : Arith}.

  (** The acceleration of vehicle [k] after the writes, starting from [a]; its flag. *)
  Fixpoint log_acc (k : key) (a : num) (log : list eff) : num :=
    match log with
    | [] => a
    | EAcc k' x :: log => if key_eqb k' k then nmin (log_acc k a log) x else log_acc k a log
    | _ :: log => log_acc k a log
    end.
  Fixpoint log_flag (k : key) (f : nat) (log : list eff) : nat :=
    match log with
    | [] => f
    | EFlag k' f' :: log => if key_eqb k' k then f' else log_flag k f log
    | _ :: log => log_flag k f log
    end.
  Lemma apply_log_get links vs log k v : sm_get vs k = Some v ->
    sm_get (snd (apply_log (links, vs) log)) k =
    Some (set_flag (set_acc v (am_set_acc (v_acc v) (log_acc k (am_acc (v_acc v)) log))) (log_flag k (v_flag v) log)).
  Proof.
    intros G. induction log as [|e log IH].
    - simpl. rewrite G. destruct v as [? ? ? ? []]; reflexivity.
    - rewrite apply_log_cons. destruct e as [id x|id f|id i]; cbn [apply_eff snd log_acc log_flag]; auto; rewrite sm_get_upd, IH; destruct (key_eqb id k); reflexivity.
  Qed.
  Lemma log_flag_in k f log : log_flag k f log = f \/ In (EFlag k (log_flag k f log)) log.
  Proof.
    induction log as [|e log IH]; simpl; auto. destruct e as [| id g |]; try (destruct IH; auto; fail).
    destruct (key_eqb_spec id k); [subst; auto|]. destruct IH; auto.
  Qed.
  Lemma log_acc_in k a log : log_acc k a log = a \/ In (EAcc k (log_acc k a log)) log.
  Proof.
    induction log as [|e log IH]; simpl; auto. destruct e as [id x| |]; try (destruct IH; auto; fail).
    destruct (key_eqb_spec id k); [subst|destruct IH; auto].
    unfold nmin. destruct (nnan (log_acc k a log)); auto. destruct (nnan x).
    - destruct IH; auto.
    - destruct (nltb x (log_acc k a log)); auto. destruct IH; auto.
  Qed.

  Section Bounds.
    Variable O : OrdLaws A.
    Lemma log_acc_le_in k a x log : In (EAcc k x) log -> nnan x = false -> nleb (log_acc k a log) x = true.
    Proof.
      intros H Nx. induction log as [|e log IH]; simpl in H; [contradiction|]. destruct H as [->|H].
      - simpl. rewrite key_eqb_refl. apply (min_le_r O); auto.
      - specialize (IH H). destruct e as [id y| |]; simpl; auto. destruct (key_eqb id k); auto. apply (min_le O). auto.
    Qed.
    Lemma log_acc_le k a log : nnan a = false -> nleb (log_acc k a log) a = true.
    Proof.
      intros Na. induction log as [|e log IH]; simpl; [apply (le_refl O); auto|]. destruct e as [id y| |]; simpl; auto.
      destruct (key_eqb id k); auto. apply (min_le O). auto.
    Qed.
  End Bounds.

  (** ** The phase in parts *)
  Record parts (e : env) (s s' : sim) (links : linkset) (vs : vehset) (log1 log : list eff) : Prop := {
    pt_act : activate_all (with_acc_update s n0) = Ok (links, vs);
    pt_net : net_ok links;
    pt_same : same_net (s_links s) links;
    pt_lists : forall k l, sm_get links k = Some l -> exists l0, sm_get (s_links s) k = Some l0 /\ exists b, l = set_lk_active l0 b;
    pt_listed : listed links vs;
    pt_chain : forall k v, sm_get vs k = Some v -> chain links (v_route v);
    pt_cur : forall k v lid l, sm_get vs k = Some v -> v_link v = Some lid -> sm_get links lid = Some l -> lk_active l = true;
    pt_stop : sim_stoplines (e_fuel e) links vs [] = Ok log1;
    pt_link : sim_link_accelerations (e_fuel e) links vs (s_conflicts s) log1 = Ok log;
    pt_log : log_ok links vs log;
    pt_veh : forall k, sm_get vs k = option_map v_reset (sm_get (s_vehicles s) k);
    pt_out : forall k v, sm_get (s_vehicles s) k = Some v ->
      sm_get (s_vehicles s') k = Some (set_flag (set_acc v (am_set_acc (v_acc v)
        (if key_mem k (s_frozen s) then MAX_DECEL else log_acc k (am_max (v_acc v)) log))) (log_flag k (v_flag v) log)) }.

  Lemma activate_links_active v links links' : activate_links v links = Ok links' ->
    (forall k l, sm_get links' k = Some l -> exists l0 b, sm_get links k = Some l0 /\ l = set_lk_active l0 b /\ (lk_active l0 = true -> b = true)) /\
    (forall k l, In k (firstn (v_entered v) (v_route v)) -> sm_get links' k = Some l -> lk_active l = true).
  Proof.
    unfold activate_links. generalize (firstn (v_entered v) (v_route v)). intros ids. revert links.
    induction ids as [|i ids IH]; intros links H; simpl in H.
    - injection H as <-. split; [|intros ? ? []]. intros k l G. exists l, (lk_active l). split; auto. split; [destruct l; reflexivity|auto].
    - bok H ls Hls. bok Hls l0 Hl0. injection Hls as <-. unfold get_link in Hl0. apply of_option_ok in Hl0. destruct (IH _ H) as (I1 & I2).
      assert (forall k l, sm_get links' k = Some l -> exists l0 b, sm_get links k = Some l0 /\ l = set_lk_active l0 b /\ (lk_active l0 = true \/ i = k -> b = true)) as K.
      { intros k l G. destruct (I1 _ _ G) as (l1 & b & G1 & -> & Hb). rewrite sm_get_set in G1.
        replace (sm_mem links i) with true in G1 by (symmetry; apply sm_mem_get; eauto). simpl in G1. destruct (key_eqb_spec i k).
        - subst. injection G1 as <-. exists l0, b. split; auto. 
        - exists l1, b. split; [exact G1|]. split; [reflexivity|]. intros [Q|Q]; [exact (Hb Q)|contradiction]. }
      split.
      + intros k l G. destruct (K _ _ G) as (l1 & b & G1 & E & Hb). exists l1, b. auto.
      + intros k l [->|Hin] G; [|eauto]. destruct (K _ _ G) as (l1 & b & G1 & -> & Hb). simpl. auto.
  Qed.

  Lemma activate_all_active s links vs : activate_all s = Ok (links, vs) ->
    (forall k l, sm_get links k = Some l -> exists l0 b, sm_get (s_links s) k = Some l0 /\ l = set_lk_active l0 b) /\
    (forall k, sm_get vs k = option_map v_reset (sm_get (s_vehicles s) k)) /\
    (forall k v lid l, sm_get vs k = Some v -> In lid (firstn (v_entered v) (v_route v)) -> sm_get links lid = Some l -> lk_active l = true).
  Proof.
    unfold activate_all. intros H. bok H x Hx. destruct x as [ls vs']. injection H as <- <-. cbn [fst snd].
    match type of Hx with sm_mapS ?fn _ _ = _ => pose proof (fun H => sm_mapS_ind fn (fun done todo ls =>
      (forall k v, In (k, v) todo -> sm_get (s_vehicles s) k = Some v) /\
      (forall k l, sm_get ls k = Some l -> exists l0 b, sm_get (s_links s) k = Some l0 /\ l = set_lk_active l0 b) /\
      (forall k v', In (k, v') done -> exists v, sm_get (s_vehicles s) k = Some v /\ v' = v_reset v) /\
      (forall k v, sm_get (s_vehicles s) k = Some v -> In (k, v) todo \/ In (k, v_reset v) done) /\
      (forall k v lid l, In (k, v) done -> In lid (firstn (v_entered v) (v_route v)) -> sm_get ls lid = Some l -> lk_active l = true)) _ _ _ _ H Hx) as K end.
    destruct K as (_ & K2 & K3 & K4 & K5).
    - intros done k v todo ls0 ls1 v' (P0 & P1 & P2 & P3 & P4) Hf. bok Hf ls2 Ha. injection Hf as <- <-.
      destruct (activate_links_active _ _ _ Ha) as (A1 & A2).
      split; [intros; apply P0; simpl; auto|]. split.
      { intros k1 l1 G1. destruct (A1 _ _ G1) as (l0 & b & G0 & -> & _). destruct (P1 _ _ G0) as (l00 & b0 & G00 & ->). exists l00, b. auto. }
      split.
      { intros k1 v1 Hin. apply in_app_iff in Hin. destruct Hin as [Hin|[Hin|[]]]; auto. injection Hin as <- <-. exists v. split; auto. apply P0. simpl. auto. }
      split.
      { intros k1 v1 G1. destruct (P3 _ _ G1) as [[E|Hin]|Hin]; [injection E as <- <-; right; apply in_app_iff; simpl; auto|auto|right; apply in_app_iff; auto]. }
      intros k1 v1 lid l Hin Hl G. apply in_app_iff in Hin. destruct Hin as [Hin|[Hin|[]]].
      + destruct (A1 _ _ G) as (l0 & b & G0 & -> & Hb). simpl. apply Hb. eapply P4; eauto.
      + injection Hin as <- <-. eapply A2; eauto.
    - split; [intros; apply in_entries; auto|]. split.
      { intros k l G. rewrite sm_get_map in G. destruct (sm_get (s_links s) k) as [l0|]; [|discriminate]. injection G as <-. exists l0, false. auto. }
      split; [intros ? ? []|]. split; [|intros ? ? ? ? []]. intros k v G. left. apply in_entries. auto.
    - split; [exact K2|]. split.
      + intros k. destruct (sm_get vs' k) as [v'|] eqn:G.
        * apply in_entries in G. destruct (K3 _ _ G) as (v & -> & ->). auto.
        * destruct (sm_get (s_vehicles s) k) as [v|] eqn:Gv; auto. destruct (K4 _ _ Gv) as [[]|Hin]. apply in_entries in Hin. congruence.
      + intros k v lid l G. apply K5 with (k := k), in_entries. auto.
  Qed.

  Lemma acc_parts e s s' : St (s_links s) (s_vehicles s) (s_seq s) ->
    Forall (fun c => valid (s_links s) (cpl_link (cp_a c)) /\ valid (s_links s) (cpl_link (cp_b c))) (s_conflicts s) ->
    sim_apply_accelerations e s = Ok s' -> nltb (s_acc_update s) ACCELERATION_UPDATE_SEC = false ->
    exists links vs log1 log, parts e s s' links vs log1 log.
  Proof.
    intros St0 Hcp H D. unfold sim_apply_accelerations in H. rewrite D in H. bok H x Ha. destruct x as [links vs]. bok H log1 H1. bok H log H2.
    exists links, vs, log1, log. destruct (activate_all_active _ _ _ Ha) as (A1 & A2 & A3).
    pose proof St0 as [N W V O].
    pose proof (safe_ok T _ _ _ (activate_all_safe T (with_acc_update s n0) (fun k v Hk => vb_chain _ _ _ _ (V k v Hk))) Ha) as (S & L & Sh & V1 & V2). simpl in S, L, Sh, V1, V2.
    assert (net_ok links) as N1 by (eapply same_net_ok; eauto).
    assert (Occ links (at_of vs)) as O1.
    { eapply Occ_same; [exact L|]. eapply Occ_ext; [|exact O]. intros k. unfold at_of.
      destruct (sm_get vs k) as [v'|] eqn:G.
      - destruct (V2 _ _ G) as (v & Hv & ->). rewrite Hv. auto.
      - destruct (sm_get (s_vehicles s) k) as [v|] eqn:G2; auto. destruct (V1 _ _ G2) as (v' & Hv' & _). congruence. }
    assert (listed links vs) as Hl by (apply Occ_listed; auto).
    assert (forall k v, sm_get vs k = Some v -> chain links (v_route v)) as Hc.
    { intros k v' Hk. destruct (V2 _ _ Hk) as (v & Hv & ->). simpl. eapply chain_mono; [apply same_net_le; eauto|]. apply (V _ _ Hv). }
    assert (log_ok links vs log) as Lg.
    { assert (log_ok links vs log1) as L1 by exact (safe_ok T _ _ _ (sim_stoplines_safe T links vs N1 Hl Hc (e_fuel e) [] (Forall_nil _)) H1).
      refine (safe_ok T _ _ _ (sim_link_accelerations_safe T links vs N1 Hl (fun _ _ _ => I) (e_fuel e) (s_conflicts s) log1 _ L1 (fun _ _ _ => I)) H2).
      eapply Forall_impl; [|exact Hcp]. simpl. intros c (Q1 & Q2). split; apply (same_net_valid _ _ _ S); auto. }
    split; auto.
    - intros k l G. destruct (A1 _ _ G) as (l0 & b & G0 & E). eauto.
    - intros k v lid l G Hlk Gl. eapply A3; eauto. rewrite A2 in G. cbn [s_vehicles with_acc_update] in G; destruct (sm_get (s_vehicles s) k) as [v0|] eqn:G0; [|discriminate G]. injection G as <-.
      pose proof (V _ _ G0) as Vb. unfold v_link in Hlk. simpl in *. pose proof (vb_ent _ _ _ _ Vb) as En.
      destruct (v_route v0) as [|r0 rt]; [discriminate Hlk|]. injection Hlk as ->. destruct (v_entered v0); [lia|]. simpl. auto.
    - intros k v G. destruct (apply_log (links, vs) log) as [ls2 vs2] eqn:Ea. change (s_frozen (with_acc_update s n0)) with (s_frozen s) in H. destruct (apply_frozen vs2 (s_frozen s)) as [vs3 fr] eqn:Ef. injection H as <-. simpl.
      pose proof (apply_frozen_get vs2 (s_frozen s) k) as Fg. rewrite Ef in Fg. simpl in Fg |- *. rewrite Fg.
      assert (sm_get vs k = Some (v_reset v)) as Gr by (rewrite A2; cbn [s_vehicles with_acc_update]; rewrite G; auto).
      pose proof (apply_log_get links vs log k _ Gr) as Gl. replace vs2 with (snd (apply_log (links, vs) log)) by (rewrite Ea; reflexivity). unfold linkset, vehset in *. rewrite Gl.
      destruct (key_mem k (s_frozen s)); reflexivity.
  Qed.

  (** ** The later parts of the phase only add accelerations *)
  Definition is_acc (e : eff) : Prop := match e with EAcc _ _ => True | _ => False end.
  Definition adds (P : eff -> Prop) (log log' : list eff) : Prop := exists n, log' = n ++ log /\ Forall P n.
  Lemma adds_refl P log : adds P log log.
  Proof. exists []. auto. Qed.
  Lemma adds_trans P a b c : adds P a b -> adds P b c -> adds P a c.
  Proof. intros (n & -> & F) (m & -> & F'). exists (m ++ n). rewrite app_assoc. split; auto. apply Forall_app; auto. Qed.
  Lemma adds_cons (P : eff -> Prop) a b x : adds P a b -> P x -> adds P a (x :: b).
  Proof. intros (n & -> & F) Hx. exists (x :: n). split; auto. Qed.
  Lemma adds_in P a b x : adds P a b -> In x a -> In x b.
  Proof. intros (n & -> & _) H. apply in_app_iff. auto. Qed.
  Lemma adds_in_inv P a b x : adds P a b -> In x b -> P x \/ In x a.
  Proof. intros (n & -> & F) H. apply in_app_iff in H. rewrite Forall_forall in F. destruct H; auto. Qed.
  Lemma adds_impl (P Q : eff -> Prop) a b : (forall x, P x -> Q x) -> adds P a b -> adds Q a b.
  Proof. intros H (n & -> & F). exists n. split; auto. eapply Forall_impl; eauto. Qed.
  Lemma foldM_adds {X} P (f : list eff -> X -> res (list eff)) l log log' :
    (forall x log log', In x l -> f log x = Ok log' -> adds P log log') -> foldM f l log = Ok log' -> adds P log log'.
  Proof.
    revert log. induction l as [|x l IH]; intros log Hf H; simpl in H; [injection H as <-; apply adds_refl|].
    bok H log1 H1. eapply adds_trans; [eapply Hf; [|exact H1]; simpl; auto|]. apply IH; auto. intros. eapply Hf; eauto. simpl; auto.
  Qed.

  Section Phase.
    Variables (links : linkset) (vs : vehset).
    Hypothesis N : net_ok links.
    Hypothesis Hl : listed links vs.

    Lemma process_adds P func fuel lid l ridx tgt pos skip log log' :
      (forall log r log' b, rv_ok vs tgt r -> func log r = Ok (log', b) -> adds P log log') ->
      sm_get links lid = Some l -> process_vehicles func fuel links vs l (ridx, tgt) pos skip log = Ok log' -> adds P log log'.
    Proof.
      intros Hf G H. refine (safe_ok T _ (adds P log) _ (process_safe T func (adds P log) links vs tgt _ N Hl fuel lid l ridx pos skip log G (adds_refl _ _)) H).
      intros lg r A0 Hr. apply safe_post. intros [lg' b] Hb. simpl. eapply adds_trans; eauto.
    Qed.

    Lemma follow_on_link_adds limit ids log log' : follow_on_link vs limit ids log = Ok log' -> adds is_acc log log'.
    Proof.
      revert log. induction ids as [|id ids IH]; intros log H; simpl in H; [injection H as <-; apply adds_refl|]. destruct ids as [|id2 ids].
      - bok H v Hv. injection H as <-. apply adds_cons; [apply adds_refl|exact I].
      - bok H v Hv. bok H v2 Hv2. apply IH in H. eapply adds_trans; [|exact H]. apply adds_cons; [|exact I]. apply adds_cons; [apply adds_refl|exact I].
    Qed.
    Lemma entering_adds l tgt log r log' b : rv_ok vs tgt r -> entering_cb vs l log r = Ok (log', b) -> adds is_acc log log'.
    Proof.
      intros _ H. unfold entering_cb in H.
      assert (adds is_acc log (rv_speed_limit r (lk_limit l) n0 ++ log)) as A1.
      { unfold rv_speed_limit. destruct (vx_speed_limit _ _ _); simpl; [|apply adds_refl]. apply adds_cons; [apply adds_refl|exact I]. }
      destruct (hd_error (lk_vehicles l)); [|injection H as <- <-; auto]. bok H v Hv. injection H as <- <-. apply adds_cons; auto. exact I.
    Qed.
    Lemma obstacle_adds fuel self o tgt log r log' b : rv_ok vs tgt r -> obstacle_cb fuel self o log r = Ok (log', b) -> adds is_acc log log'.
    Proof.
      intros _ H. unfold obstacle_cb in H. bok H p Hp. destruct p; injection H as <- <-; [apply adds_refl|]. apply adds_cons; [apply adds_refl|exact I].
    Qed.
    Lemma follow_obstacles_adds fuel lid self p ids skip log log' : sm_get links lid = Some self ->
      follow_obstacles fuel links vs self p ids skip log = Ok log' -> adds is_acc log log'.
    Proof.
      intros G. revert skip log. induction ids as [|id ids IH]; intros skip log H; simpl in H; [injection H as <-; apply adds_refl|].
      bok H v Hv. bok H o Ho. bok H c Hc. bok H lg Hp. eapply adds_trans; [|eapply IH; exact H]. eapply process_adds; [|exact G|exact Hp].
      intros. eapply obstacle_adds; eauto.
    Qed.
    Lemma apply_accelerations_adds fuel lid l log log' : sm_get links lid = Some l -> apply_accelerations fuel links vs l log = Ok log' ->
      exists log1, follow_on_link vs (lk_limit l) (lk_vehicles l) log = Ok log1 /\ adds is_acc log log1 /\ adds is_acc log1 log'.
    Proof.
      intros G H. unfold apply_accelerations in H. bok H lg1 H1. exists lg1. split; auto. split; [eapply follow_on_link_adds; eauto|].
      bok H lg2 H2. assert (adds is_acc lg1 lg2) as A2. { eapply process_adds; [|exact G|exact H2]. intros. eapply entering_adds; eauto. }
      eapply adds_trans; [exact A2|]. destruct (lk_group l); [|injection H as <-; apply adds_refl]. bok H ps Hps.
      eapply foldM_adds; [|exact H]. intros p lga lgb _ Hp. simpl in Hp. bok Hp l2 Hl2. unfold get_link in Hl2. apply of_option_ok in Hl2.
      eapply follow_obstacles_adds; eauto.
    Qed.
    Lemma conflict_pairs_adds same l log : adds is_acc log (conflict_pairs same l log).
    Proof.
      revert log. induction l as [|x l IH]; intros log; simpl; [apply adds_refl|]. destruct l as [|y l]; [apply adds_refl|].
      eapply adds_trans; [|apply IH]. destruct (negb _); [|apply adds_refl]. destruct (_ && _); apply adds_cons; try apply adds_refl; exact I.
    Qed.
    Lemma cp_apply_adds fuel c log log' : cp_apply fuel links vs c log = Ok log' -> adds is_acc log log'.
    Proof.
      unfold cp_apply. intros H. apply bind_ok in H; destruct H as (bs & H1 & H). destruct bs as [|r bs]; [injection H as <-; apply adds_refl|]. apply bind_ok in H; destruct H as (bs2 & H2 & H).
      destruct (Nat.eqb _ _); [injection H as <-; apply adds_refl|]. bok H l Hs. injection H as <-. apply conflict_pairs_adds.
    Qed.
    Lemma link_accelerations_adds fuel cps log log' : sim_link_accelerations fuel links vs cps log = Ok log' -> adds is_acc log log'.
    Proof.
      unfold sim_link_accelerations. intros H. bok H lg H1. apply adds_trans with lg.
      - refine (foldM_adds _ _ _ _ _ _ H1). intros l a b Hin Ha. apply in_values in Hin. destruct Hin as (k & G).
        destruct (apply_accelerations_adds _ _ _ _ _ G Ha) as (? & _ & A1 & A2). eapply adds_trans; eauto.
      - refine (foldM_adds _ _ _ _ _ _ H). intros c a b _ Hc. eapply cp_apply_adds; eauto.
    Qed.

    (** Each link's following and speed-limit accelerations are in the log. *)
    Lemma follow_on_link_in limit ids log log' : follow_on_link vs limit ids log = Ok log' ->
      (forall k v, In k ids -> sm_get vs k = Some v -> In (EAcc k (vx_current_speed_limit v limit)) log') /\
      (forall pre k k2 post v v2, ids = pre ++ k :: k2 :: post -> sm_get vs k = Some v -> sm_get vs k2 = Some v2 ->
         In (EAcc k (vx_follow_vehicle v (pos_rear v2) (v_vel v2))) log').
    Proof.
      revert log. induction ids as [|id ids IH]; intros log H; simpl in H.
      { split; [intros ? ? []|]. intros pre ? ? ? ? ? E. destruct pre; discriminate. }
      destruct ids as [|id2 ids].
      - bok H v Hv. injection H as <-. unfold get_vehicle in Hv. apply of_option_ok in Hv. split.
        + intros k w [<-|[]] G. left. congruence.
        + intros pre ? ? ? ? ? E. destruct pre as [|? [|]]; discriminate.
      - bok H v Hv. bok H v2 Hv2. unfold get_vehicle in Hv, Hv2. apply of_option_ok in Hv, Hv2.
        pose proof (follow_on_link_adds _ _ _ _ H) as A1. destruct (IH _ H) as (I1 & I2). split.
        + intros k w [<-|Hin] G; [|apply I1; auto]. eapply adds_in; [exact A1|]. left. congruence.
        + intros pre k k2 post w w2 E G G2. destruct pre as [|p pre]; [|injection E as <- E; eapply I2; eauto].
          injection E as <- <- <-. eapply adds_in; [exact A1|]. right. left. congruence.
    Qed.
    Lemma link_accelerations_in fuel cps log log' lid l : sim_link_accelerations fuel links vs cps log = Ok log' -> sm_get links lid = Some l ->
      (forall k v, In k (lk_vehicles l) -> sm_get vs k = Some v -> In (EAcc k (vx_current_speed_limit v (lk_limit l))) log') /\
      (forall pre k k2 post v v2, lk_vehicles l = pre ++ k :: k2 :: post -> sm_get vs k = Some v -> sm_get vs k2 = Some v2 ->
         In (EAcc k (vx_follow_vehicle v (pos_rear v2) (v_vel v2))) log').
    Proof.
      unfold sim_link_accelerations. intros H G. bok H lg H1.
      assert (adds is_acc lg log') as A2. { refine (foldM_adds _ _ _ _ _ _ H). intros c a b _ Hc. eapply cp_apply_adds; eauto. }
      assert (exists log0 log1, follow_on_link vs (lk_limit l) (lk_vehicles l) log0 = Ok log1 /\ adds is_acc log1 lg) as (log0 & log1 & Hf & A1).
      { assert (In l (sm_values links)) as Hin by (apply in_values; eauto).
        assert (forall l0, In l0 (sm_values links) -> exists k, sm_get links k = Some l0) as Hv by (intros l0 Q; apply in_values in Q; auto).
        clear H A2. revert log H1. induction (sm_values links) as [|x ls IH]; intros log H1; [contradiction|]. simpl in H1. bok H1 la Ha.
        destruct Hin as [->|Hin].
        - destruct (apply_accelerations_adds _ _ _ _ _ G Ha) as (log1 & Hf & _ & A2). exists log, log1. split; auto.
          eapply adds_trans; [exact A2|]. eapply foldM_adds; [|exact H1]. intros y a b Hy Hb. destruct (Hv y) as (k & Gk); [right; auto|].
          destruct (apply_accelerations_adds _ _ _ _ _ Gk Hb) as (? & _ & B1 & B2). eapply adds_trans; eauto.
        - apply (IH Hin) with (log := la); auto. intros; apply Hv; right; auto. }
      destruct (follow_on_link_in _ _ _ _ Hf) as (F1 & F2). split; intros.
      - eapply adds_in; [exact A2|]. eapply adds_in; [exact A1|]. eauto.
      - eapply adds_in; [exact A2|]. eapply adds_in; [exact A1|]. eauto.
    Qed.
  End Phase.
End LogProofs.
