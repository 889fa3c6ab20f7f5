(** * C76: vehicles are let onto a road of several links, and nobody collides *)
From Coq Require Import List Bool ZArith NArith Arith Lia Reals Lra Sorting.Sorted Relations.
From Verif Require Import Arith RealArith Base BaseProofs SlotMap Util Geom Light Accel Net Path Vehicle LinkOps Sim SpecSim SpecMotion SlotMapProofs Safe NetInv SimInv AccSafe SimSafe StepSafe OpSafe Evo StepEvo SimProofs StepProofs Ord LogProofs Motion RFacts NetEvo P_Motion P_Limit SpecNet SpecEnter SpecRoute SpecAhead P_Ahead P_Net P_Order P_Enter P_Exit P_Coord SpecGap GapKin GapProofs P_Gap StopProofs SpecQueue QueueProofs RouteProofs PlanProofs RouteEvo P_Route SpecCheap ArriveProofs WhereProofs SpecRoad RoadLists RoadProofs RoadKnow SpecArrive P_Road SpecClear RoadClear LightTime SpecLamp LampProofs P_Clear SpecTraffic RoadEnter.
Import ListNotations.
Local Open Scope R_scope.

Lemma no_lanes_same (s s' : @sim RA) : same_net (s_links s) (s_links s') -> no_lanes s -> no_lanes s'.
Proof. intros Sn N x l' G. destruct (same_net_get _ _ _ _ Sn G) as (l & G0 & E). destruct (N x l G0) as (N1 & N2). unfold lk_static in E. injection E as F1 F2 F3 F4 F5 F6 F7 F8 F9. split; congruence. Qed.
Lemma know_more L road ks ks' s k v : (In k ks -> In k ks') -> know L road ks s k v -> know L road ks' s k v.
Proof. intros Hi Kn. destruct Kn. constructor; auto. Qed.
Lemma sent_later ops (s : @sim RA) road k e o s1 : sent_ahead ops s road k -> exec e s o = Ok s1 -> redirects k o = false -> moves k o = false -> builds o = false -> sent_ahead (ops ++ [o]) s1 road k.
Proof.
  intros (ops1 & e0 & s0 & s0' & ops2 & v0 & a & -> & H1 & H & H2 & G0 & R0 & Ha & Na & Ho) He Hr Hm Hb. exists ops1, e0, s0, s0', (ops2 ++ [o]), v0, a. split; [rewrite <- app_assoc; reflexivity|]. split; [exact H1|]. split; [exact H|].
  split; [exact (history_app _ _ _ _ _ H2 (hist_call _ _ _ _ _ _ He (hist_nil _)))|]. split; [exact G0|]. split; [exact R0|]. split; [exact Ha|]. split; [exact Na|]. intros o' Hi. apply in_app_or in Hi. destruct Hi as [Hi|[<-|[]]]; auto.
Qed.

Section Traffic.
  Variables L d m h : R.
  Variable road : list key.
  Hypothesis HL : 0 < L.
  Hypothesis Hd : 0 <= d.
  Let z := last road null_key.

  Record going_on (ops : list (@op RA)) (s : @sim RA) : Prop := {
    go_hist : history (@sim_new RA) ops s;
    go_limit : List.Forall (one_limit L d) ops;
    go_apart : groups_apart ops;
    go_lanes : no_lanes s;
    go_flow : flow L d m h road s;
    go_know : exists ks, all_know L road ks s;
    go_sent : forall k v, on_road s road k v -> sent_ahead ops s road k }.

  Lemma passing ks s o : all_know L road ks s -> passing_call L d road s o -> exists ks', all_know L road ks' s /\ road_call L d road ks' o.
  Proof.
    intros Ak Q. destruct o; cbn [passing_call] in Q; try destruct Q; try (exists ks; split; [exact Ak|]; cbn [road_call]; auto; fail).
    exists (filter (fun j => negb (key_eqb j v)) ks). split.
    - intros j w O. apply (know_more L road ks); [|exact (Ak j w O)]. intros Hj. apply filter_In. split; [exact Hj|]. destruct (key_eqb_spec j v) as [->|]; [|reflexivity]. exfalso. exact (Q w O).
    - cbn [road_call]. intros Hi. apply filter_In in Hi. rewrite key_eqb_refl in Hi. destruct Hi as (_ & Hi). discriminate Hi.
  Qed.
  Lemma going_call ops e s o s1 : going_on ops s -> passing_call L d road s o -> exec e s o = Ok s1 -> going_on (ops ++ [o]) s1.
  Proof.
    intros [Hh Fo Ap Nl F (ks0 & Ak0) Se] Q H. destruct (passing ks0 s o Ak0 Q) as (ks & Ak & Qc). clear ks0 Ak0. pose proof (fl_Inv L d m h road s F) as I.
    destruct (always L d m h road ks HL Hd s [o] s1 (hist_call _ _ _ _ _ _ H (hist_nil _)) (List.Forall_cons _ Qc (List.Forall_nil _)) ops Hh Ap F Ak) as (F1 & A1).
    constructor.
    - exact (history_app _ _ _ _ _ Hh (hist_call _ _ _ _ _ _ H (hist_nil _))).
    - apply List.Forall_app. split; [exact Fo|]. constructor; [exact (road_call_limit L d road ks o Qc)|constructor].
    - apply apart_more; [exact Ap|]. intros o' [<-|[]]. exact (road_call_builds L d road ks o Qc).
    - exact (no_lanes_same _ _ (exec_static _ _ _ _ I H (road_call_builds L d road ks o Qc)) Nl).
    - exact F1.
    - eauto.
    - intros k v' O'. destruct (proj1 (kept_call L d m h road ks HL Hd ops e s o s1 Hh F Ak Qc H) k v' O') as (v & O).
      apply (sent_later ops s road k e o s1 (Se k v O) H); [exact (road_call_redirects L d road ks k o (kn_in _ _ _ _ _ _ (Ak k v O)) Qc)|exact (road_call_moves L d road ks k o Qc)|exact (road_call_builds L d road ks o Qc)].
  Qed.
  Lemma going_enter ops e e2 s (a : @attrs RA) x s1 k s2 : going_on ops s -> In x road -> x <> z -> 0 < a_max_acc a /\ 4 * a_max_acc a * (1 / 10 + d) <= L ->
    add_vehicle e s a x = Ok (s1, k) -> fits L d m h s1 road k -> exec e2 s1 (OSetDestination k z) = Ok s2 -> going_on ((ops ++ [OAddVehicle a x]) ++ [OSetDestination k z]) s2.
  Proof.
    intros [Hh Fo Ap Nl F (ks & Ak) Se] Hx Nz Ha H Ft H2. pose proof (fl_Inv L d m h road s F) as I. pose proof (flow_enter L d m h road HL Hd e s a x s1 k F Hx Ha H Ft) as F1. pose proof (fl_Inv L d m h road s1 F1) as I1.
    destruct (added e s a x s1 k I H) as (He & Gk & Vs & _ & _ & v & Gv & Rv & Pv & _ & Lc).
    assert (history sim_new (ops ++ [OAddVehicle a x]) s1) as Hh1 by exact (history_app _ _ _ _ _ Hh (hist_call _ _ _ _ _ _ He (hist_nil _))).
    assert (history sim_new ((ops ++ [OAddVehicle a x]) ++ [OSetDestination k z]) s2) as Hh2 by exact (history_app _ _ _ _ _ Hh1 (hist_call _ _ _ _ _ _ H2 (hist_nil _))).
    assert (groups_apart (ops ++ [OAddVehicle a x])) as Ap1 by (apply apart_more; [exact Ap|]; intros o' [<-|[]]; reflexivity).
    assert (groups_apart ((ops ++ [OAddVehicle a x]) ++ [OSetDestination k z])) as Ap2 by (apply apart_more; [exact Ap1|]; intros o' [<-|[]]; reflexivity).
    assert (flow L d m h road s2) as F2. { apply (flow_call L d m h road [] e2 s1 (OSetDestination k z) s2 F1); [intros []|exact H2|reflexivity]. }
    assert (List.Forall (one_limit L d) ((ops ++ [OAddVehicle a x]) ++ [OSetDestination k z])) as Fo2. { apply List.Forall_app. split; [apply List.Forall_app; split; [exact Fo|constructor; [exact Ha|constructor]]|constructor; [exact Logic.I|constructor]]. }
    assert (no_lanes s2) as Nl2. { apply (no_lanes_same s1); [exact (exec_static _ _ _ _ I1 H2 eq_refl)|]. exact (no_lanes_same _ _ (exec_static _ _ _ _ I He eq_refl) Nl). }
    assert (forall j w2, on_road s2 road j w2 -> exists w1, on_road s1 road j w1 /\ v_route w2 = v_route w1 /\ v_pos w2 = v_pos w1) as Dn.
    { intros j w2 O. destruct (call_same L d road [] e2 s1 (OSetDestination k z) s2 j w2 (fl_reach L d m h road s1 F1)) as (w1 & O1 & _ & _ & _ & Q4 & _ & Q6); [intros []|exact H2|reflexivity|exact O|]. eauto. }
    assert (sent_ahead ((ops ++ [OAddVehicle a x]) ++ [OSetDestination k z]) s2 road k) as Sk.
    { exists (ops ++ [OAddVehicle a x]), e2, s1, s2, [], v, x. split; [reflexivity|]. split; [exact Hh1|]. split; [exact H2|]. split; [constructor|]. split; [exact Gv|]. split; [exact Rv|]. split; [exact Hx|]. split; [exact Nz|]. intros o []. }
    constructor; auto.
    - exists (k :: ks). intros j w2 O2. destruct (Dn j w2 O2) as (w1 & O1 & Er & Ep). destruct (key_eqb_spec j k) as [->|N].
      + assert (w1 = v) by (destruct O1 as (Q & _); congruence). subst w1. destruct (sent_know road _ s2 k w2 Hh2 Ap2 Nl2 (fl_road _ _ _ _ _ _ F2) (sent_both _ _ _ _ Sk) (proj1 O2)) as (Dd & Pp & mt & Cl & Tr & _).
        constructor; eauto.
        * left. reflexivity.
        * destruct (exec_kept e2 s1 _ s2 k w2 I1 H2 eq_refl eq_refl (proj1 O2)) as [(v0 & G0 & _ & _ & E & _)|(a0 & lid & v0 & E & _)]; [|discriminate E]. unfold vehicle_at in Gv. assert (v0 = v) by congruence. subst v0. congruence.
        * intros y y2 _ _. right. rewrite Ep. change (v_pos v = 0) in Pv. rewrite Pv. pose proof (lc_nonneg L d _ s2 Hh2 Fo2). apply Rmult_le_pos; lra.
      + assert (on_road s road j w1) as O. { destruct O1 as (Q1 & Q2). split; [rewrite <- (Vs j N); exact Q1|exact Q2]. }
        apply (know_more L road ks); [right; assumption|]. apply (know_kept L road ks (ops ++ [OAddVehicle a x]) e2 s1 (OSetDestination k z) s2 j w1 w2 Hh1 Ap1); auto; [|cbn [redirects]; apply key_eqb_neq; congruence|discriminate|exact (proj1 O1)|exact (proj1 O2)].
        apply (know_kept L road ks ops e s (OAddVehicle a x) s1 j w1 w1 Hh Ap (Ak j w1 O) He); auto; [discriminate|exact (proj1 O)|exact (proj1 O1)].
    - intros j w2 O2. destruct (key_eqb_spec j k) as [->|N]; [exact Sk|]. destruct (Dn j w2 O2) as (w1 & O1 & _).
      assert (on_road s road j w1) as O. { destruct O1 as (Q1 & Q2). split; [rewrite <- (Vs j N); exact Q1|exact Q2]. }
      apply (sent_later _ s1 road j e2 (OSetDestination k z) s2); auto; [|cbn [redirects]; apply key_eqb_neq; congruence]. apply (sent_later ops s road j e (OAddVehicle a x) s1); auto. exact (Se j w1 O).
  Qed.
  Lemma going s ops s' : traffic L d m h road s ops s' -> forall ops0, going_on ops0 s -> going_on (ops0 ++ ops) s'.
  Proof.
    induction 1 as [s|e s o s1 ops s' Q H T IH|e e2 s a x s1 k s2 ops s' Hx Nz Ha H Ft H2 T IH]; intros ops0 G.
    - rewrite app_nil_r. exact G.
    - change (o :: ops) with ([o] ++ ops). rewrite app_assoc. apply IH. exact (going_call ops0 e s o s1 G Q H).
    - change (OAddVehicle a x :: OSetDestination k (last road null_key) :: ops) with ([OAddVehicle a x] ++ [OSetDestination k (last road null_key)] ++ ops). rewrite app_assoc, app_assoc. apply IH. exact (going_enter ops0 e e2 s a x s1 k s2 G Hx Nz Ha H Ft H2).
  Qed.
  (** An empty road is a good start. *)
  Lemma going_empty ops s : history (@sim_new RA) ops s -> List.Forall (one_limit L d) ops -> groups_apart ops -> no_lanes s -> single_road (s_links s) road ->
    (forall x, In x road -> m <= length_of s x) -> (forall k v, ~ on_road s road k v) -> going_on ops s.
  Proof.
    intros Hh Fo Ap Nl Sr Lm Em. pose proof (history_Inv _ _ _ Hh Inv_new) as I.
    destruct (begin L d m h road [] HL Hd ops s Hh Fo Ap Nl Sr) as (F & Ak).
    - split; [|split]; [|intros k v O; exfalso; exact (Em k v O)|intros k k2 v v2 O; exfalso; exact (Em k v O)].
      intros x l Hx G. split; [specialize (Lm x Hx); unfold length_of in Lm; rewrite G in Lm; exact Lm|]. destruct (lk_vehicles l) as [|k r] eqn:E; [constructor|]. exfalso.
      destruct (in_list_on _ _ _ _ _ k (i_st _ I) G) as (v & Gv & Lv); [rewrite E; left; reflexivity|]. apply (Em k v). split; [exact Gv|eauto].
    - constructor; eauto. intros k v O. exfalso. exact (Em k v O).
  Qed.
End Traffic.

(** ** C76 *)
(** On a road that is empty at first, onto which vehicles are let only where they fit in, no two vehicles ever collide. *)
Theorem C76_no_collisions :
  forall L d m h road ops0 (s : @sim RA) ops s' k k2 v v2, 0 < L -> 0 <= d ->
    history (@sim_new RA) ops0 s -> List.Forall (one_limit L d) ops0 -> groups_apart ops0 -> no_lanes s -> single_road (s_links s) road ->
    (forall x, In x road -> m <= length_of s x) -> (forall j w, ~ on_road s road j w) ->
    traffic L d m h road s ops s' ->
    on_road s' road k v -> on_road s' road k2 v2 -> k <> k2 ->
    v_half_len v + v_half_len v2 <= Rabs (road_pos s' road v2 - road_pos s' road v).
Proof.
  intros L d m h road ops0 s ops s' k k2 v v2 HL Hd H0 Fo Ap Nl Sr Lm Em T O1 O2 Nk.
  pose proof (going L d m h road HL Hd s ops s' T ops0 (going_empty L d m h road HL Hd ops0 s H0 Fo Ap Nl Sr Lm Em)) as Go. pose proof (go_flow _ _ _ _ _ _ _ Go) as F'.
  exact (flow_apart L d m h road HL Hd s' F' k k2 v v2 O1 O2 Nk).
Qed.
Print Assumptions C76_no_collisions.

(** And when no more vehicles are let onto the road, and its links are open or have a traffic light that shows green
    from time to time, it becomes empty within a bounded time. *)
Theorem C76_road_clears :
  forall L d m h road ops0 (s : @sim RA) ops s', 0 < L -> 0 <= d ->
    history (@sim_new RA) ops0 s -> List.Forall (one_limit L d) ops0 -> groups_apart ops0 -> no_lanes s -> single_road (s_links s) road ->
    (forall x, In x road -> m <= length_of s x) -> (forall j w, ~ on_road s road j w) ->
    traffic L d m h road s ops s' ->
    (forall j w, on_road s' road j w -> get_vehicle_frozen s' j = false) ->
    plain_roads s' -> sound_lights s' -> (forall x, In x road -> opens s' x) -> no_way_back (s_links s') -> (forall x l, link_at s' x = Some l -> h + 3 <= lk_length l) ->
    exists T, forall dts s2, List.Forall (fun dt => 0 <= dt <= d) dts -> T <= total dts -> history s' (map (@OStep RA) dts) s2 ->
      forall k v, on_road s' road k v -> vehicle_at s2 k = None.
Proof.
  intros L d m h road ops0 s ops s' HL Hd H0 Fo Ap Nl Sr Lm Em T Fz Op Sn Opn Ac Lg.
  pose proof (going L d m h road HL Hd s ops s' T ops0 (going_empty L d m h road HL Hd ops0 s H0 Fo Ap Nl Sr Lm Em)) as [Hh Fo' Ap' Nl' F (ks & Ak) Se].
  destruct (starts_all L d m h road ks HL Hd (ops0 ++ ops) s' Hh Fo' Ap' (fl_road _ _ _ _ _ _ F) F Ak Op Sn Opn Ac Lg) as (todo & Al & Ls); [intros k v O; split; eauto|].
  exists (time_of d todo). intros dts s2 Fd Tb Hh2 k v O. exact (clears L d m h road ks HL Hd (length todo) todo s' dts s2 (le_n _) Al Ls Fd Tb Hh2 k v O).
Qed.
Print Assumptions C76_road_clears.
