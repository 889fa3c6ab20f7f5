(** * C73: no collisions on a road of several links *)
From Coq Require Import List Bool ZArith NArith Arith Lia Reals Lra Sorting.Sorted Relation_Operators.
From Verif Require Import Arith RealArith Base BaseProofs SlotMap Util Geom Light Accel Net Path Vehicle LinkOps Sim SpecSim SpecMotion SlotMapProofs Safe NetInv SimInv AccSafe SimSafe StepSafe OpSafe Evo StepEvo SimProofs StepProofs Ord LogProofs Motion RFacts NetEvo P_Motion P_Limit SpecNet SpecEnter SpecRoute SpecAhead P_Ahead P_Net P_Order P_Enter P_Exit P_Coord SpecGap GapKin GapProofs P_Gap StopProofs SpecQueue QueueProofs RouteProofs PlanProofs RouteEvo P_Route SpecCheap ArriveProofs WhereProofs SpecRoad RoadLists RoadProofs RoadKnow.
Import ListNotations.
Local Open Scope R_scope.

(** ** Where the theorem starts *)
Lemma road_leads (links : @linkset RA) road a : (forall x y, next_on road x y -> succ_of links x y) -> In a road -> leads links a (last road null_key).
Proof.
  revert a. induction road as [|b road IH]; intros a Hs Ha; [destruct Ha|]. destruct road as [|c road].
  - destruct Ha as [<-|[]]. apply rt_refl.
  - assert (leads links c (last (c :: road) null_key)) as Lc. { apply IH; [|left; reflexivity]. intros x y (pre & post & E). apply Hs. exists (b :: pre), post. rewrite E. reflexivity. }
    change (last (b :: c :: road) null_key) with (last (c :: road) null_key). destruct Ha as [<-|Ha].
    + apply rt_trans with c; [|exact Lc]. apply rt_step. left. apply Hs. exists [], road. reflexivity.
    + apply IH; [|exact Ha]. intros x y (pre & post & E). apply Hs. exists (b :: pre), post. rewrite E. reflexivity.
Qed.
Lemma apart_app (ops1 ops2 : list (@op RA)) : groups_apart (ops1 ++ ops2) -> groups_apart ops1.
Proof. unfold groups_apart. rewrite flat_map_app. generalize (flat_map (fun o : @op RA => match o with OAddGroup ids _ => ids | _ => [] end) ops1). intros l H. induction l as [|a l IH]; [constructor|]. cbn [app] in H. inversion H as [|? ? Ni Nd]; subst. constructor; [|auto]. intros Ha. apply Ni. apply in_or_app. auto. Qed.
Lemma apart_more (ops1 ops2 : list (@op RA)) : groups_apart ops1 -> (forall o, In o ops2 -> builds o = false) -> groups_apart (ops1 ++ ops2).
Proof.
  unfold groups_apart. intros H Hb. rewrite flat_map_app. assert (flat_map (fun o => match o with OAddGroup ids _ => ids | _ => [] end) ops2 = []) as ->; [|rewrite app_nil_r; exact H].
  induction ops2 as [|o ops2 IH]; [reflexivity|]. cbn [flat_map]. rewrite IH by (intros; apply Hb; right; assumption). specialize (Hb o (or_introl eq_refl)). destruct o; try reflexivity. discriminate Hb.
Qed.

Lemma leads_same (links links' : @linkset RA) : same_net links links' -> forall a b, leads links a b -> leads links' a b.
Proof. intros Sn a b H. induction H as [x y [Hs|Hs]|x|x y z _ IH1 _ IH2]; [apply rt_step; left; apply (same_succ2 _ _ _ _ Sn); exact Hs|apply rt_step; right; apply (same_chg2 _ _ _ _ Sn); exact Hs|apply rt_refl|eapply rt_trans; eauto]. Qed.

Section Begin.
  Variables L d m h : R.
  Variables road ks : list key.
  Hypothesis HL : 0 < L.
  Hypothesis Hd : 0 <= d.

  Lemma sent_know ops s k v : history sim_new ops s -> groups_apart ops -> no_lanes s -> single_road (s_links s) road -> sent_along ops s road k -> vehicle_at s k = Some v ->
    pf_dst (v_pathfind v) = last road null_key /\ planned_all (s_links s) (v_pathfind v) /\ exists mt, closed (s_links s) (last road null_key) mt /\ on_track mt v /\ forall x, inM mt x -> leads (s_links s) x (last road null_key).
  Proof.
    intros Hist Ap Nl Sr (ops1 & e & s0 & s1 & ops2 & v0 & a & Eo & H1 & H & H2 & G0 & R0 & Ha & Ho) G. set (z := last road null_key) in *.
    pose proof (history_Inv _ _ _ H1 Inv_new) as I0. pose proof (exec_Inv _ _ _ _ I0 H) as I1. assert (groups_apart ops1) as Ap1 by (rewrite Eo in Ap; exact (apart_app _ _ Ap)).
    assert (v_link v0 = Some a) as L0 by (unfold v_link; rewrite R0; reflexivity). destruct (dest_there _ _ _ _ _ H) as (v0' & v1 & _ & G1).
    destruct (dest_bound _ _ _ _ _ _ _ _ H1 Ap1 RA_cast H G0 G1) as (El & Er & Es & Ed & Fo & Pl & Sou & _). destruct (link_src _ _ _ _ I0 G0 L0) as (Sa & _).
    assert (same_net (s_links s1) (s_links s)) as Sn by (apply (history_static s1 ops2 s H2 I1); intros o Hi; apply (Ho o Hi)).
    assert (leads (s_links s0) a z) as Ld. { rewrite <- El. apply road_leads; [|exact Ha]. intros x y Ny. apply (same_succ2 _ _ _ _ Sn). apply (proj2 (proj2 Sr)); [left; apply (next_in _ _ _ Ny)|exact Ny]. }
    assert (forall x l, link_at s0 x = Some l -> lk_group l = None) as Gr.
    { intros x l Gx. unfold link_at in Gx. rewrite <- El in Gx. destruct (same_net_get' _ _ _ _ Sn Gx) as (l' & Gx' & E). destruct (Nl x l' Gx') as (Q & _). unfold lk_static in E. injection E as F1 F2 F3 F4 F5 F6 F7 F8 F9. congruence. }
    assert (closed (s_links s0) z (pf_matrix (v_pathfind v1))) as Clo. { apply (dest_closed ops1 e s0 k z s1 v0 v1 H1 Ap1 RA_cast H G0 G1 Gr). rewrite Sa. exact Ld. }
    assert (on_track (pf_matrix (v_pathfind v1)) v1) as T1.
    { split; auto. split; [|intros p y Hp Hy; eapply planned_in; eauto]. intros y Hy. rewrite Er, R0 in Hy. destruct Hy as [<-|[]]. unfold RouteEvo.found in Fo. rewrite Es, Ed, Sa in Fo. auto. }
    assert (history sim_new (ops1 ++ [OSetDestination k z]) s1) as H1'. { eapply history_app; [exact H1|econstructor; [exact H|constructor]]. }
    assert ((ops1 ++ [OSetDestination k z]) ++ ops2 = ops) as Eo' by (rewrite <- app_assoc; symmetry; exact Eo).
    destruct (history_bound (ops1 ++ [OSetDestination k z]) s1 ops2 s k z H1' H2) as (_ & Bd); [rewrite Eo'; exact Ap|exact RA_cast|intros o Hi; apply (Ho o Hi)|].
    destruct Bd as (_ & Bd); [intros o Hi; apply (Ho o Hi)|]. destruct Bd as (_ & Bd).
    { split; [exact (issued_mem _ _ _ G1)|]. intros w Gw. unfold vehicle_at in G1. assert (w = v1) by congruence. subst w. split; [exact Ed|rewrite El; exact Pl]. }
    destruct (Bd _ G) as (Dd & Pp). split; [exact Dd|]. split; [exact Pp|]. exists (pf_matrix (v_pathfind v1)). split; [apply (closed_same road _ _ _ Sn); rewrite El; exact Clo|].
    split; [|intros x Mx; rewrite Sa in Sou; specialize (Sou Ld); unfold sound in Sou; rewrite Ed in Sou; apply (leads_same _ _ Sn); rewrite El; exact (Sou x Mx)].
    apply (history_track s1 ops2 s (pf_matrix (v_pathfind v1)) k H2 I1); [intros o Hi; destruct (Ho o Hi) as (Q1 & Q2 & _); auto|exact (issued_mem _ _ _ G1)| |exact G].
    intros w Gw. unfold vehicle_at in G1. rewrite G1 in Gw. injection Gw as <-. exact T1.
  Qed.

  Lemma begin ops s : history sim_new ops s -> Forall (one_limit L d) ops -> groups_apart ops -> no_lanes s -> single_road (s_links s) road -> good_traffic L d m h road ks ops s ->
    flow L d m h road s /\ all_know L road ks s.
  Proof.
    intros Hist Fo Ap Nl Sr (Gl & Gv & Gr).
    assert (0 <= s_acc_update s) as Tn. { apply (timer_nonneg ops); [exact Hist|]. eapply Forall_impl; [|exact Fo]. intros o. destruct o; cbn [one_limit forward]; tauto. }
    split.
    - constructor.
      + eauto.
      + exact Sr.
      + intros x y Hx. split; intros (l & G & Hc); destruct (Nl _ l G) as (_ & E); rewrite E in Hc; destruct Hc.
      + intros x l Hx G. apply (Gl x l Hx G).
      + intros k v O. destruct (Gv k v O) as (_ & _ & W & _ & x & Lx & Px & _). split; [exact W|]. intros y Ly. assert (y = x) by congruence. subst y. exact Px.
      + intros x l Hx G. apply ordered_ord. apply (Gl x l Hx G).
      + intros k k2 v v2 O1 O2 Nk Le. right. exists (refresh_time d). split; [unfold refresh_time; lra|]. split; [lra|]. apply room_K. apply (Gr k k2); auto.
    - intros k v O. destruct (Gv k v O) as (Hk & Se & W & Ln & x & Lx & Px & Wp). destruct (sent_know ops s k v Hist Ap Nl Sr Se (proj1 O)) as (Dd & Pp & mt & Cl & Tr & _).
      constructor; eauto. intros x' y Lx' Ny. assert (x' = x) by congruence. subst x'. destruct Sr as (Nd & _ & Sc). destruct Wp as [->|[(y' & Hy)|Ep]].
      + exfalso. exact (last_not_next road y Nd Ny).
      + left. assert (y' = y) as <-; [|exact Hy]. apply (next_unique road x); [exact Nd| |exact Ny]. apply Sc; [left; apply (next_in _ _ _ Ny)|].
        pose proof (history_Inv _ _ _ Hist Inv_new) as I. destruct O as (G & _). pose proof (vb_chain _ _ _ _ (st_veh _ _ _ (i_st _ I) _ _ G)) as Ch. unfold heads_to in Hy. unfold v_link in Lx. destruct (v_route v) as [|a [|b r]]; try discriminate Hy; try discriminate Lx. cbn in Lx, Hy. injection Lx as ->. injection Hy as ->. apply Ch.
      + right. rewrite Ep. pose proof (lc_nonneg L d ops s Hist Fo). apply Rmult_le_pos; lra.
  Qed.

  (** ** All calls *)
  Lemma always s ops s' : history s ops s' -> Forall (road_call L d road ks) ops -> forall ops0, history sim_new ops0 s -> groups_apart ops0 -> flow L d m h road s -> all_know L road ks s ->
    flow L d m h road s' /\ all_know L road ks s'.
  Proof.
    induction 1 as [|e s o s1 ops s' H Hh IH]; intros Fc ops0 H0 Ap F Ak; [auto|]. inversion Fc as [|? ? Q Fc']; subst.
    assert (history sim_new (ops0 ++ [o]) s1) as H1 by (eapply history_app; [exact H0|econstructor; [exact H|constructor]]).
    assert (groups_apart (ops0 ++ [o])) as Ap1. { apply apart_more; [exact Ap|]. intros o' [<-|[]]. exact (road_call_builds L d road ks o Q). }
    assert (flow L d m h road s1 /\ all_know L road ks s1) as (F1 & A1); [|exact (IH Fc' _ H1 Ap1 F1 A1)].
    destruct (is_step o) eqn:Es; [|exact (know_call L d m h road ks ops0 e s o s1 H0 Ap F Ak Q H Es)]. destruct o; try discriminate Es. exact (know_step L d m h road ks HL Hd ops0 e s dt s1 H0 Ap F Ak Q H).
  Qed.
  (** Vehicles on the road were there before, in the same order. *)
  Definition order_kept (s s' : @sim RA) : Prop :=
    (forall k v', on_road s' road k v' -> exists v, on_road s road k v) /\
    forall k k2 v v2 v' v2', on_road s road k v -> on_road s road k2 v2 -> k <> k2 -> road_pos s road v <= road_pos s road v2 -> on_road s' road k v' -> on_road s' road k2 v2' -> road_pos s' road v' <= road_pos s' road v2'.
  Lemma kept_call ops0 e s o s1 : history sim_new ops0 s -> flow L d m h road s -> all_know L road ks s -> road_call L d road ks o -> exec e s o = Ok s1 -> order_kept s s1.
  Proof.
    intros H0 F Ak Q H. pose proof (fl_reach L d m h road s F) as Rc. pose proof (reachable_Inv _ Rc) as I.
    pose proof (exec_static _ _ _ _ I H (road_call_builds L d road ks o Q)) as Sn.
    assert (forall v, road_pos s1 road v = rp road (length_of s) v) as Rp. { intros v. unfold road_pos, rp. destruct (v_link v); [|reflexivity]. rewrite (start_ext (length_of s1) (length_of s)); [reflexivity|]. intros y _. exact (same_len _ _ _ Sn). }
    destruct (is_step o) eqn:Es.
    - destruct o; try discriminate Es. cbn [exec road_call] in *. destruct (step_phases _ _ _ _ I H) as (t1 & t2 & t3 & t4 & t5 & P). pose proof (know_informed L d m h road ks HL _ _ _ _ _ _ _ _ _ F Ak P) as Inf. split.
      + intros k v' O'. destruct (survivor L d m h road HL Hd e s dt s1 t1 t2 t3 t4 t5 F Q H P k v' O') as (v & x & _ & G & Lv & Hx & _). exists v. split; [exact G|eauto].
      + intros k k2 v v2 v' v2' O1 O2 Nk Le O1' O2'. rewrite !Rp. exact (order_step L d m h road HL Hd e s dt s1 t1 t2 t3 t4 t5 F Q H P Inf k k2 v v2 v' v2' O1 O2 Nk Le O1' O2').
    - split.
      + intros k v' O'. destruct (call_same L d road ks e s o s1 k v' Rc Q H Es O') as (v & O & _). eauto.
      + intros k k2 v v2 v' v2' O1 O2 Nk Le O1' O2'. rewrite !Rp. destruct (call_same L d road ks e s o s1 k v' Rc Q H Es O1') as (w & (Gw & _) & _ & _ & _ & P1 & L1 & _). destruct (call_same L d road ks e s o s1 k2 v2' Rc Q H Es O2') as (w2 & (Gw2 & _) & _ & _ & _ & P2 & L2 & _).
        destruct O1 as (G1 & _). destruct O2 as (G2 & _). unfold vehicle_at in *. assert (w = v) by congruence. assert (w2 = v2) by congruence. subst w w2. unfold rp. rewrite P1, P2, L1, L2. exact Le.
  Qed.
  Lemma always_kept s ops s' : history s ops s' -> Forall (road_call L d road ks) ops -> forall ops0, history sim_new ops0 s -> groups_apart ops0 -> flow L d m h road s -> all_know L road ks s -> order_kept s s'.
  Proof.
    induction 1 as [|e s o s1 ops s' H Hh IH]; intros Fc ops0 H0 Ap F Ak.
    - split; [eauto|]. intros k k2 v v2 v' v2' (G1 & _) (G2 & _) Nk Le (G1' & _) (G2' & _). assert (v' = v) by congruence. assert (v2' = v2) by congruence. subst. exact Le.
    - inversion Fc as [|? ? Q Fc']; subst.
      assert (history sim_new (ops0 ++ [o]) s1) as H1 by (eapply history_app; [exact H0|econstructor; [exact H|constructor]]).
      assert (groups_apart (ops0 ++ [o])) as Ap1. { apply apart_more; [exact Ap|]. intros o' [<-|[]]. exact (road_call_builds L d road ks o Q). }
      destruct (always s [o] s1 (hist_call _ _ _ _ _ _ H (hist_nil _)) (Forall_cons _ Q (Forall_nil _)) ops0 H0 Ap F Ak) as (F1 & A1).
      destruct (IH Fc' _ H1 Ap1 F1 A1) as (K1 & K2). destruct (kept_call ops0 e s o s1 H0 F Ak Q H) as (C1 & C2). split.
      + intros k v' O'. destruct (K1 k v' O') as (v1 & O1). exact (C1 k v1 O1).
      + intros k k2 v v2 v' v2' O1 O2 Nk Le O1' O2'. destruct (K1 k v' O1') as (w & Ow). destruct (K1 k2 v2' O2') as (w2 & Ow2). apply (K2 k k2 w w2); auto. apply (C2 k k2 v v2); auto.
  Qed.
End Begin.

(** No two vehicles overlap. *)
Lemma flow_apart L d m h road : 0 < L -> 0 <= d -> forall s', flow L d m h road s' -> forall k k2 v v2, on_road s' road k v -> on_road s' road k2 v2 -> k <> k2 ->
  v_half_len v + v_half_len v2 <= Rabs (road_pos s' road v2 - road_pos s' road v).
Proof.
  intros HL Hd s' F' k k2 v v2 O1 O2 Nk.
  assert (forall a b va vb, on_road s' road a va -> on_road s' road b vb -> a <> b -> road_pos s' road va <= road_pos s' road vb -> v_half_len va + v_half_len vb <= road_pos s' road vb - road_pos s' road va) as X.
  { intros a b va vb Oa Ob Nab Le. pose proof (fl_room _ _ _ _ _ _ F' a b va vb Oa Ob Nab Le) as Jr. destruct (fl_well _ _ _ _ _ _ F' a va Oa) as ((Cf & _) & _).
    destruct (K_end d _ _ _ _ Hd (proj1 (fl_vel L d m h road HL Hd s' F' a va (proj1 Oa))) ltac:(destruct Cf; lra) Jr) as (Y & _). unfold road_gap in Y. lra. }
  destruct (Rle_or_lt (road_pos s' road v) (road_pos s' road v2)) as [Le|Lt].
  - rewrite Rabs_right by lra. exact (X k k2 v v2 O1 O2 Nk Le).
  - rewrite Rabs_left by lra. pose proof (X k2 k v2 v O2 O1 ltac:(congruence) ltac:(lra)). lra.
Qed.

(** ** C73 *)
Theorem C73_no_collisions :
  forall L d m h road ks ops0 s ops s' k k2 v v2, 0 < L -> 0 <= d ->
    history (@sim_new RA) ops0 s -> Forall (one_limit L d) ops0 -> groups_apart ops0 -> no_lanes s -> single_road (s_links s) road ->
    good_traffic L d m h road ks ops0 s ->
    history s ops s' -> Forall (road_call L d road ks) ops ->
    on_road s' road k v -> on_road s' road k2 v2 -> k <> k2 ->
    v_half_len v + v_half_len v2 <= Rabs (road_pos s' road v2 - road_pos s' road v).
Proof.
  intros L d m h road ks ops0 s ops s' k k2 v v2 HL Hd H0 Fo Ap Nl Sr Gt H Fc O1 O2 Nk.
  destruct (begin L d m h road ks HL Hd ops0 s H0 Fo Ap Nl Sr Gt) as (F & Ak). destruct (always L d m h road ks HL Hd s ops s' H Fc ops0 H0 Ap F Ak) as (F' & _).
  exact (flow_apart L d m h road HL Hd s' F' k k2 v v2 O1 O2 Nk).
Qed.
Print Assumptions C73_no_collisions.

(** Nobody overtakes. *)
Theorem C73_no_overtaking :
  forall L d m h road ks ops0 s ops s' k k2 v v2 v' v2', 0 < L -> 0 <= d ->
    history (@sim_new RA) ops0 s -> Forall (one_limit L d) ops0 -> groups_apart ops0 -> no_lanes s -> single_road (s_links s) road ->
    good_traffic L d m h road ks ops0 s ->
    history s ops s' -> Forall (road_call L d road ks) ops ->
    on_road s road k v -> on_road s road k2 v2 -> on_road s' road k v' -> on_road s' road k2 v2' ->
    road_pos s road v < road_pos s road v2 -> road_pos s' road v' < road_pos s' road v2'.
Proof.
  intros L d m h road ks ops0 s ops s' k k2 v v2 v' v2' HL Hd H0 Fo Ap Nl Sr Gt H Fc O1 O2 O1' O2' Lt.
  assert (k <> k2) as Nk. { intros ->. assert (v2 = v) by (destruct O1 as (G1 & _), O2 as (G2 & _); congruence). subst. lra. }
  destruct (begin L d m h road ks HL Hd ops0 s H0 Fo Ap Nl Sr Gt) as (F & Ak). destruct (always_kept L d m h road ks HL Hd s ops s' H Fc ops0 H0 Ap F Ak) as (_ & Ko).
  pose proof (Ko k k2 v v2 v' v2' O1 O2 Nk ltac:(lra) O1' O2') as Le.
  pose proof (C73_no_collisions L d m h road ks ops0 s ops s' k k2 v' v2' HL Hd H0 Fo Ap Nl Sr Gt H Fc O1' O2' Nk) as X. rewrite Rabs_right in X by lra.
  destruct (always L d m h road ks HL Hd s ops s' H Fc ops0 H0 Ap F Ak) as (F' & _). destruct (fl_well _ _ _ _ _ _ F' k v' O1') as ((_ & H1 & _) & _). destruct (fl_well _ _ _ _ _ _ F' k2 v2' O2') as ((_ & H2 & _) & _). lra.
Qed.
Print Assumptions C73_no_overtaking.
