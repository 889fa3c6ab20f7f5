(** * Lemmas about arriving on a road of several links (P_Clear.v) *)
From Coq Require Import List Bool ZArith NArith Arith Lia Reals Lra Sorting.Sorted Relation_Operators Operators_Properties.
From Verif Require Import Arith RealArith Base BaseProofs SlotMap Util Geom Light Accel Net Path Vehicle LinkOps Sim SpecSim SpecMotion SlotMapProofs Safe NetInv SimInv AccSafe SimSafe StepSafe OpSafe Evo StepEvo SimProofs StepProofs Ord LogProofs Motion RFacts NetEvo P_Motion P_Limit SpecNet SpecEnter SpecRoute SpecAhead P_Ahead P_Net P_Order P_Enter P_Exit P_Coord SpecGap GapKin GapProofs P_Gap StopProofs SpecQueue QueueProofs RouteProofs PlanProofs RouteEvo P_Route SpecCheap ArriveProofs WhereProofs SpecRoad RoadLists RoadProofs RoadKnow SpecArrive P_Road SpecClear.
Import ListNotations.
Local Open Scope R_scope.

(** ** Leave to exit *)
Section Leave.
  Context {A : Arith}.
  Definition may_leave (s : sim) (k : key) : Prop := forall v, vehicle_at s k = Some v -> last (v_route v) null_key = v_destination v -> v_can_exit v = true.
  Lemma exec_may_leave e s o s' k : reachable s -> exec e s o = Ok s' -> redirects k o = false -> moves k o = false -> sm_issued (s_vehicles s) k -> may_leave s k -> may_leave s' k.
  Proof.
    intros Rc H Hr Hm Is Ml v' G El. pose proof (reachable_Inv _ Rc) as I. unfold vehicle_at in *. destruct (is_step o) eqn:Hs.
    - destruct o; try discriminate Hs. destruct (step_exit _ _ _ _ _ _ I H G) as (v & v1 & s1 & Gv & _ & _ & C & E1 & E2 & Ne & E3). destruct (reachable_exits _ Rc _ _ Gv) as (P0 & _).
      assert (last (v_route v1) null_key = v_destination v1 -> v_can_exit v1 = true) as X.
      { destruct C as [(_ & ->)|(_ & C)]; [exact (Ml _ Gv)|]. destruct (chosen_exit _ _ _ _ P0 C) as (Ed & [(-> & _)|D]); [exact (Ml _ Gv)|apply D]. }
      rewrite E1. apply X. rewrite <- E2, <- El. destruct E3 as [(-> & _)|E3]; [reflexivity|]. rewrite E3 in *. symmetry. apply last_tl. exact Ne.
    - destruct (call_exit _ _ _ _ _ _ I H Hs G) as [(v & Gv & E1 & E2 & E3)|(_ & [D|[D|(a & l & _ & ->)]])]; [|congruence|congruence|].
      + unfold v_destination in *. rewrite E1, E2 in El. rewrite E3. exact (Ml _ Gv El).
      + exfalso. revert Is. apply next_key_not_issued. apply I.
  Qed.
  Lemma history_may_leave s ops s' k : history s ops s' -> reachable s -> (forall o, In o ops -> redirects k o = false /\ moves k o = false) -> sm_issued (s_vehicles s) k -> may_leave s k -> may_leave s' k.
  Proof.
    induction 1 as [|e s o s1 ops s' H Hh IH]; intros Rc Ho Is Ml; [exact Ml|]. destruct (Ho o (or_introl eq_refl)) as (H1 & H2). apply IH.
    - eapply reach_call; eauto.
    - intros o' Hi. apply Ho. right. exact Hi.
    - eapply exec_issued; eauto. apply reachable_Inv. exact Rc.
    - eapply exec_may_leave; eauto.
  Qed.
End Leave.

(** ** Sums and splits *)
Lemma history_split {A : Arith} (s : sim) ops1 ops2 s' : history s (ops1 ++ ops2) s' -> exists s1, history s ops1 s1 /\ history s1 ops2 s'.
Proof.
  revert s. induction ops1 as [|o ops1 IH]; intros s H; [exists s; split; [constructor|exact H]|]. cbn [app] in H. inversion H as [|e s0 o0 s1 ops s2 Hx Hh]; subst.
  destruct (IH s1 Hh) as (t & H1 & H2). exists t. split; [econstructor; eauto|exact H2].
Qed.
Lemma split_total d dts B : List.Forall (fun dt => 0 <= dt <= d) dts -> 0 <= d -> 0 <= B -> B <= total dts -> exists d1 d2, dts = d1 ++ d2 /\ B <= total d1 <= B + d.
Proof.
  intros F Hd. revert B. induction F as [|x dts Hx F IH]; intros B B0 Hb.
  - exists [], []. split; [reflexivity|]. cbn in *. lra.
  - change (total (x :: dts)) with (x + total dts) in Hb. destruct (Rle_or_lt B x) as [Q|Q].
    + exists [x], dts. split; [reflexivity|]. cbn. lra.
    + destruct (IH (B - x)) as (d1 & d2 & E & Q1); [lra|lra|]. exists (x :: d1), d2. split; [rewrite E; reflexivity|]. change (total (x :: d1)) with (x + total d1). lra.
Qed.
(** A list has a member with the largest value. *)
Lemma has_max {X : Type} (P : X -> Prop) (f : X -> R) (l : list X) : (forall x, In x l -> P x \/ ~ P x) -> (forall x, In x l -> ~ P x) \/ exists x, In x l /\ P x /\ forall y, In y l -> P y -> f y <= f x.
Proof.
  induction l as [|a l IH]; intros D; [left; intros x []|]. destruct IH as [N|(x & Hx & Px & Mx)]; [intros; apply D; right; assumption| |].
  - destruct (D a (or_introl eq_refl)) as [Pa|Na]; [right; exists a; split; [left; reflexivity|]; split; [exact Pa|]; intros y [<-|Hy] Py; [lra|exfalso; exact (N y Hy Py)]|left; intros x [<-|Hx]; auto].
  - right. destruct (D a (or_introl eq_refl)) as [Pa|Na].
    + destruct (Rle_or_lt (f a) (f x)) as [Q|Q]; [exists x|exists a]; (split; [auto with datatypes|]); (split; [assumption|]); intros y [<-|Hy] Py; try lra; [auto|]. specialize (Mx y Hy Py). lra.
    + exists x. split; [right; exact Hx|]. split; [exact Px|]. intros y [<-|Hy] Py; [contradiction|auto].
Qed.

Lemma ord_next (f : key -> option (@num RA)) l pre k k2 post (x y : R) : @ord RA f l -> l = pre ++ k :: k2 :: post -> f k = Some x -> f k2 = Some y -> x <= y.
Proof.
  intros Or ->. induction pre as [|a pre IH]; cbn [app] in Or; inversion Or as [|? ? Fk F']; subst; [|auto]. rewrite List.Forall_forall in Fk. intros Ex Ey. apply ltb_R_false. exact (Fk k2 (or_introl eq_refl) x y Ex Ey).
Qed.

Section Clear.
  Variables L d m h : R.
  Variables road ks : list key.
  Hypothesis HL : 0 < L.
  Hypothesis Hd : 0 <= d.
  Notation flow := (flow L d m h road).
  Notation all_know := (all_know L road ks).

  Definition steady (s : @sim RA) : Prop := flow s /\ all_know s /\ exists ops, history (@sim_new RA) ops s /\ groups_apart ops.
  Lemma steady_step e s dt s' : steady s -> 0 <= dt <= d -> step e s dt = Ok s' -> steady s' /\ order_kept road s s'.
  Proof.
    intros (F & Ak & ops & H0 & Ap) Hdt H. assert (exec e s (@OStep RA dt) = Ok s') as Hx by exact H.
    destruct (know_step L d m h road ks HL Hd ops e s dt s' H0 Ap F Ak Hdt H) as (F' & Ak'). split.
    - split; [exact F'|]. split; [exact Ak'|]. exists (ops ++ [@OStep RA dt]). split; [eapply history_app; [exact H0|econstructor; [exact Hx|constructor]]|]. apply apart_more; [exact Ap|]. intros o' [<-|[]]. reflexivity.
    - exact (kept_call L d m h road ks HL Hd ops e s (@OStep RA dt) s' H0 F Ak Hdt Hx).
  Qed.
  (** A vehicle on the road stays on it as long as it is in the simulation. *)
  Lemma stays e s dt s' k v v' : steady s -> step e s dt = Ok s' -> on_road s road k v -> vehicle_at s' k = Some v' -> on_road s' road k v'.
  Proof.
    intros (F & _) H (G & x & Lx & Hx) G'. split; [exact G'|]. pose proof (fl_Inv L d m h road s F) as I. unfold vehicle_at in *.
    destruct (step_position _ _ _ _ _ _ _ I H G G') as [(a & b & La & C & _)|(p & lid & l & La & Gl & _ & [(_ & E & _)|(_ & _ & b & Lb & Sb)])].
    - exfalso. assert (a = x) by congruence. subst a. exact (proj2 (fl_lanes _ _ _ _ _ _ F x b Hx) C).
    - exists x. split; [congruence|exact Hx].
    - assert (lid = x) by congruence. subst lid. exists b. split; [exact Lb|]. apply (proj2 (proj2 (fl_road _ _ _ _ _ _ F))) in Sb; [|left; exact Hx]. apply (next_in _ _ _ Sb).
  Qed.

  (** ** The vehicle in front *)
  Definition in_front (s : @sim RA) (k : key) : Prop := forall k2 v v2, on_road s road k v -> on_road s road k2 v2 -> road_pos s road v2 <= road_pos s road v.
  Lemma apart s k k2 v v2 : flow s -> on_road s road k v -> on_road s road k2 v2 -> k <> k2 -> road_pos s road v <= road_pos s road v2 -> road_pos s road v < road_pos s road v2.
  Proof.
    intros F O O2 Nk Le. pose proof (fl_room _ _ _ _ _ _ F k k2 v v2 O O2 Nk Le) as Jr. destruct (fl_well _ _ _ _ _ _ F k v O) as ((Cf & H1 & _) & _). destruct (fl_well _ _ _ _ _ _ F k2 v2 O2) as ((_ & H2 & _) & _).
    destruct (K_end d _ _ _ _ Hd (proj1 (fl_vel L d m h road HL Hd s F k v (proj1 O))) ltac:(destruct Cf; lra) Jr) as (Y & _). unfold road_gap in Y. lra.
  Qed.
  Lemma chain_far s links : flow s -> 0 < m -> same_net (s_links s) links -> forall r x i y, In x road -> chain links (x :: r) -> nth_error r i = Some y ->
    In y road /\ start_of (length_of s) road x + length_of s x <= start_of (length_of s) road y.
  Proof.
    intros F M0 Sn. destruct (fl_road _ _ _ _ _ _ F) as (Nd & _ & Sc). induction r as [|b r IH]; intros x i y Hx Ch Hy; [destruct i; discriminate Hy|]. cbn [chain] in Ch. destruct Ch as (_ & Sb & Ch).
    apply (same_succ2 _ _ _ _ Sn) in Sb. apply Sc in Sb; [|left; exact Hx]. destruct (next_in _ _ _ Sb) as (_ & Hb). pose proof (start_next (length_of s) road x b Nd Sb) as Es. destruct i as [|i]; cbn [nth_error] in Hy.
    - injection Hy as <-. split; [exact Hb|]. lra.
    - destruct (IH b i y Hb Ch Hy) as (Hy' & Le). split; [exact Hy'|]. destruct (road_link L d m h road s F b Hb) as (_ & _ & _ & Lb). lra.
  Qed.
  Definition leading (k : key) (s : @sim RA) : Prop := steady s /\ in_front s k /\ exists v, on_road s road k v.
  Lemma leading_step k e s dt s' v' : leading k s -> 0 <= dt <= d -> step e s dt = Ok s' -> vehicle_at s' k = Some v' -> leading k s'.
  Proof.
    intros (Sd & Fr & v & O) Hdt H G'. destruct (steady_step _ _ _ _ Sd Hdt H) as (Sd' & Ko1 & Ko2). pose proof (stays _ _ _ _ _ _ _ Sd H O G') as O'. split; [exact Sd'|]. split; [|eauto].
    intros k2 w v2 Ow O2'. assert (w = v') by (destruct Ow as (Gw & _); congruence). subst w. destruct (key_eqb_spec k2 k) as [->|Nk]; [assert (v2 = v') by (destruct O2' as (G2 & _); congruence); subst; lra|].
    destruct (Ko1 k2 v2 O2') as (w2 & Ow2). exact (Ko2 k2 k w2 v v2 v' Ow2 O Nk (Fr k2 v w2 O Ow2) O2' O').
  Qed.
  Lemma leading_free k e s dt s' : leading k s -> plain_roads s -> step e s dt = Ok s' -> no_one_ahead k e s.
  Proof.
    intros ((F & Ak & _) & Fr & v & O) Op H s1 v1 H1 G1. pose proof (fl_Inv L d m h road s F) as I. pose proof O as (G & x & Lx & Hx).
    destruct (step_phases _ _ _ _ I H) as (t1 & s2 & s3 & s4 & s5 & P). assert (t1 = s1) by (pose proof (ph1 _ _ _ _ _ _ _ _ _ P); congruence). subst t1.
    destruct (know_choice L d m h road ks e s k v s1 v1 x F (Ak k v O) G Lx Hx H1 G1) as (L1 & _). destruct (fl_road _ _ _ _ _ _ F) as (Nd & Va & Sc).
    assert (forall y ly, In y road -> link_at s1 y = Some ly -> link_at s y = Some ly) as Same. { intros y ly Hy Gy. unfold link_at in *. rewrite <- Gy. symmetry. exact (lists1 L d m h road e s dt s' s1 s2 s3 s4 s5 F P y Hy). }
    assert (forall y ly k2, In y road -> link_at s y = Some ly -> In k2 (lk_vehicles ly) -> exists v2, vehicle_at s k2 = Some v2 /\ v_link v2 = Some y) as On.
    { intros y ly k2 Hy Gy Hk. apply (lst_on s y k2 I). unfold lst. unfold link_at in Gy. rewrite Gy. exact Hk. }
    assert (0 < m) as M0. { destruct (fl_well _ _ _ _ _ _ F k v O) as ((_ & H2 & _ & (H3 & _)) & _). lra. }
    split; [|apply plain_cross; exact (plain_net _ _ Op (pn1 _ _ _ _ _ _ _ _ _ P))]. split.
    - intros y ly k2 pre post Gy El.
      assert (y = x) as ->. { destruct (st_occ _ _ _ (ps1 _ _ _ _ _ _ _ _ _ P) _ _ Gy) as (_ & Oc). assert (In k (lk_vehicles ly)) as Hk by (rewrite El; apply in_or_app; right; left; reflexivity). apply Oc in Hk. unfold at_of in Hk. unfold vehicle_at in G1. rewrite G1 in Hk. change (v_link v1 = Some y) in Hk. congruence. }
      pose proof (Same _ _ Hx Gy) as Gy0. destruct (On x ly k2 Hx Gy0) as (v2 & G2 & L2); [rewrite El; apply in_or_app; right; right; left; reflexivity|]. assert (on_road s road k2 v2) as O2 by (split; [exact G2|eauto]).
      assert (k <> k2) as Nk. { intros <-. destruct (st_occ _ _ _ (i_st _ I) _ _ Gy0) as (Ndv & _). rewrite El in Ndv. apply NoDup_remove_2 in Ndv. apply Ndv. apply in_or_app. right. left. reflexivity. }
      pose proof (fl_ord _ _ _ _ _ _ F x ly Hx Gy0) as Or. assert (v_pos v <= v_pos v2) as Le.
      { apply (ord_next _ _ _ _ _ _ _ _ Or El); unfold posf; unfold vehicle_at in *; [rewrite G|rewrite G2]; reflexivity. }
      assert (road_pos s road v <= road_pos s road v2) as Lr by (unfold road_pos; rewrite Lx, L2; lra). pose proof (apart s k k2 v v2 F O O2 Nk Lr) as Lt. specialize (Fr k2 v v2 O O2). lra.
    - intros i y ly Hh Gy. destruct (lk_vehicles ly) as [|k2 ah] eqn:El; [reflexivity|]. exfalso.
      assert (In y road /\ start_of (length_of s) road x + length_of s x <= start_of (length_of s) road y) as (Hy & Far).
      { pose proof (vb_chain _ _ _ _ (st_veh _ _ _ (ps1 _ _ _ _ _ _ _ _ _ P) _ _ G1)) as Ch. unfold v_link in L1. unfold heads_to in Hh. destruct (v_route v1) as [|x' r]; [discriminate L1|]. injection L1 as ->. cbn [nth_error] in Hh.
        exact (chain_far s (s_links s1) F M0 (pn1 _ _ _ _ _ _ _ _ _ P) r x i y Hx Ch Hh). }
      pose proof (Same _ _ Hy Gy) as Gy0. destruct (On y ly k2 Hy Gy0) as (v2 & G2 & L2); [rewrite El; left; reflexivity|]. assert (on_road s road k2 v2) as O2 by (split; [exact G2|eauto]).
      destruct (fl_well _ _ _ _ _ _ F k v O) as (_ & Pv). destruct (Pv x Lx) as (_ & Pv'). destruct (fl_well _ _ _ _ _ _ F k2 v2 O2) as (_ & Pv2). destruct (Pv2 y L2) as (Pv2' & _).
      assert (road_pos s road v <= road_pos s road v2) as Lr by (unfold road_pos; rewrite Lx, L2; lra).
      destruct (key_eqb_spec k k2) as [<-|Nk]; [|pose proof (apart s k k2 v v2 F O O2 Nk Lr) as Lt; specialize (Fr k2 v v2 O O2); lra].
      assert (y = x) as -> by congruence. destruct (road_link L d m h road s F x Hx) as (_ & _ & _ & Lb). lra.
  Qed.

  (** ** One after the other *)
  Notation ok_steps := (List.Forall (fun dt => 0 <= dt <= d)).
  (** [G] stays true while [k] is there, and makes it leave within the time [B] when nobody is in front of it. *)
  Definition leaver (k : key) (B : R) (G : @sim RA -> @vehicle RA -> Prop) : Prop :=
    (forall e s dt s' v v', G s v -> vehicle_at s k = Some v -> 0 <= dt <= d -> step e s dt = Ok s' -> vehicle_at s' k = Some v' -> G s' v') /\
    forall s v dts s', leading k s -> on_road s road k v -> G s v -> history s (map (@OStep RA) dts) s' -> ok_steps dts -> B <= total dts -> vehicle_at s' k = None.
  Definition entry := (key * (R * (@sim RA -> @vehicle RA -> Prop)))%type.
  Definition listed (todo : list entry) (s : @sim RA) : Prop :=
    steady s /\ forall k v, on_road s road k v -> exists B G, In (k, (B, G)) todo /\ G s v.
  Definition all_leave (todo : list entry) : Prop := forall k B G, In (k, (B, G)) todo -> leaver k B G.
  Definition time_of (todo : list entry) : R := fold_right (fun x t => Rmax 0 (fst (snd x)) + d + t) 0 todo.
  Lemma listed_step todo e s dt s' : all_leave todo -> listed todo s -> 0 <= dt <= d -> step e s dt = Ok s' -> listed todo s' /\ order_kept road s s'.
  Proof.
    intros Al (Sd & Ls) Hdt H. destruct (steady_step _ _ _ _ Sd Hdt H) as (Sd' & Ko). split; [|exact Ko]. split; [exact Sd'|].
    intros k v' O'. destruct (proj1 Ko k v' O') as (v & O). destruct (Ls k v O) as (B & G & Hin & Hg). exists B, G. split; [exact Hin|]. destruct (Al k B G Hin) as (Kp & _). exact (Kp e s dt s' v v' Hg (proj1 O) Hdt H (proj1 O')).
  Qed.
  Lemma listed_history todo dts : all_leave todo -> forall s s', listed todo s -> ok_steps dts -> history s (map (@OStep RA) dts) s' ->
    listed todo s' /\ (forall k v', on_road s' road k v' -> exists v, on_road s road k v) /\ forall k v, on_road s road k v -> vehicle_at s' k = None \/ exists v', on_road s' road k v'.
  Proof.
    intros Al. induction dts as [|dt dts IH]; intros s s' Ls Fd Hh; inversion Hh as [|e s0 o s1 ops s2 Hx Ht]; subst.
    - split; [exact Ls|]. split; [eauto|]. eauto.
    - inversion Fd as [|? ? Hdt Fd']; subst. cbn [exec] in Hx. destruct (listed_step todo e s dt s1 Al Ls Hdt Hx) as (Ls1 & Ko). destruct (IH s1 s' Ls1 Fd' Ht) as (L1 & L2 & L3). split; [exact L1|]. split.
      + intros k v' O'. destruct (L2 k v' O') as (v1 & O1). exact (proj1 Ko k v1 O1).
      + intros k v O. destruct (vehicle_at s1 k) as [v1|] eqn:G1; [exact (L3 k v1 (stays _ _ _ _ _ _ _ (proj1 Ls) Hx O G1))|]. left.
        eapply gone_stays; [exact Ht| |exact G1]. destruct Ls1 as ((F1 & _) & _). exact (fl_Inv L d m h road s1 F1).
  Qed.
  Lemma on_road_dec s k : (exists v, on_road s road k v) \/ ~ exists v, on_road s road k v.
  Proof.
    destruct (vehicle_at s k) as [v|] eqn:G; [|right; intros (v & G' & _); congruence]. destruct (v_link v) as [x|] eqn:Lx.
    - destruct (in_dec key_eq_dec x road) as [Hx|Hx]; [left; exists v; split; [exact G|eauto]|right]. intros (v' & G' & y & Ly & Hy). assert (v' = v) by congruence. subst. assert (y = x) by congruence. subst. contradiction.
    - right. intros (v' & G' & y & Ly & _). congruence.
  Qed.
  Lemma time_pos todo : 0 <= time_of todo.
  Proof. induction todo as [|x todo IH]; cbn [time_of fold_right]; [lra|]. unfold time_of in IH. pose proof (Rmax_l 0 (fst (snd x))). lra. Qed.
  Fixpoint without (k : key) (todo : list entry) : list entry :=
    match todo with [] => [] | x :: todo => if key_eqb (fst x) k then without k todo else x :: without k todo end.
  Lemma without_in k todo x : In x (without k todo) <-> In x todo /\ fst x <> k.
  Proof.
    induction todo as [|y todo IH]; cbn [without]; [cbn; tauto|]. destruct (key_eqb_spec (fst y) k) as [E|N]; cbn [In]; rewrite IH; [|split; [intros [<-|(Q & Q2)]; auto|intros ([<-|Q] & Q2); auto]].
    split; [intros (Q & Q2); auto|intros ([<-|Q] & Q2); [contradiction|auto]].
  Qed.
  Lemma time_less k todo : time_of (without k todo) <= time_of todo.
  Proof.
    induction todo as [|x todo IH]; [cbn; lra|]. change (time_of (x :: todo)) with (Rmax 0 (fst (snd x)) + d + time_of todo). pose proof (Rmax_l 0 (fst (snd x))). cbn [without]. destruct (key_eqb (fst x) k); [lra|].
    change (time_of (x :: without k todo)) with (Rmax 0 (fst (snd x)) + d + time_of (without k todo)). lra.
  Qed.
  Lemma time_without todo k B G : In (k, (B, G)) todo -> Rmax 0 B + d + time_of (without k todo) <= time_of todo.
  Proof.
    induction todo as [|x todo IH]; intros Hin; [destruct Hin|]. change (time_of (x :: todo)) with (Rmax 0 (fst (snd x)) + d + time_of todo). cbn [without]. destruct Hin as [->|Hin].
    - cbn [fst snd]. rewrite key_eqb_refl. apply Rplus_le_compat_l. apply time_less.
    - specialize (IH Hin). pose proof (Rmax_l 0 (fst (snd x))). destruct (key_eqb (fst x) k); [lra|]. change (time_of (x :: without k todo)) with (Rmax 0 (fst (snd x)) + d + time_of (without k todo)). lra.
  Qed.
  Lemma fewer todo k B G : In (k, (B, G)) todo -> (length (without k todo) < length todo)%nat.
  Proof.
    assert (forall todo, (length (without k todo) <= length todo)%nat) as X by (clear; induction todo as [|x todo IH]; cbn [without length]; [lia|]; destruct (key_eqb _ _); cbn [length]; lia).
    induction todo as [|x todo IH]; intros Hin; [destruct Hin|]. cbn [without length]. destruct Hin as [->|Hin].
    - cbn [fst]. rewrite key_eqb_refl. apply Nat.lt_succ_r. exact (X todo).
    - specialize (IH Hin). destruct (key_eqb _ _); [apply Nat.lt_lt_succ_r; exact IH|exact (proj1 (Nat.succ_lt_mono _ _) IH)].
  Qed.

  Lemma clears n : forall todo s dts s', (length todo <= n)%nat -> all_leave todo -> listed todo s -> ok_steps dts -> time_of todo <= total dts -> history s (map (@OStep RA) dts) s' ->
    forall k v, on_road s road k v -> vehicle_at s' k = None.
  Proof.
    induction n as [|n IH]; intros todo s dts s' Hn Al Ls Fd Ht Hh k v O.
    { exfalso. destruct (proj2 Ls k v O) as (B & G & Hin & _). destruct todo; [destruct Hin|cbn in Hn; lia]. }
    destruct (has_max (fun x : entry => exists v, on_road s road (fst x) v) (fun x => match vehicle_at s (fst x) with Some v => road_pos s road v | None => 0 end) todo) as [N|(x & Hx & (w & Ow) & Mx)].
    { intros x _. apply on_road_dec. }
    { exfalso. destruct (proj2 Ls k v O) as (B & G & Hin & _). apply (N _ Hin). eauto. }
    destruct x as (kf & (B0 & G0)). cbn [fst] in *. destruct (proj2 Ls kf w Ow) as (B & G & Hin & Hg).
    assert (leading kf s) as Ld.
    { split; [apply Ls|]. split; [|eauto]. intros k2 w' v2 Ow' O2. destruct (proj2 Ls k2 v2 O2) as (B2 & G2 & Hin2 & _). specialize (Mx _ Hin2 (ex_intro _ v2 O2)). cbn [fst] in Mx. rewrite (proj1 O2), (proj1 Ow') in Mx. exact Mx. }
    pose proof (time_without todo kf B G Hin) as Tw. pose proof (time_pos (without kf todo)) as Tp.
    destruct (split_total d dts (Rmax 0 B) Fd Hd (Rmax_l 0 B)) as (d1 & d2 & E & T1); [lra|]. rewrite E in *. rewrite map_app in Hh. apply history_split in Hh. destruct Hh as (s1 & H1 & H2). apply Forall_app in Fd. destruct Fd as (F1 & F2). rewrite total_app in Ht.
    destruct (listed_history todo d1 Al s s1 Ls F1 H1) as ((Sd1 & Ls1) & Bk & Fw).
    assert (vehicle_at s1 kf = None) as Gone. { destruct (Al kf B G Hin) as (_ & Lv). apply (Lv s w d1 s1 Ld Ow Hg H1 F1). pose proof (Rmax_r 0 B). lra. }
    destruct (Fw k v O) as [Q|(v1 & O1)].
    - eapply gone_stays; [exact H2| |exact Q]. destruct Sd1 as (Fl & _). exact (fl_Inv L d m h road s1 Fl).
    - apply (IH (without kf todo) s1 d2 s') with (k := k) (v := v1); auto.
      + exact (proj1 (Nat.lt_succ_r _ _) (Nat.lt_le_trans _ _ _ (fewer _ _ _ _ Hin) Hn)).
      + intros k2 B2 G2 Hi. apply without_in in Hi. apply Al. apply Hi.
      + split; [exact Sd1|]. intros k2 v2 O2. destruct (Ls1 k2 v2 O2) as (B2 & G2 & Hi & Hg2). exists B2, G2. split; [|exact Hg2]. apply without_in. split; [exact Hi|]. cbn [fst]. intros ->. destruct O2 as (Q & _). congruence.
      + lra.
  Qed.
End Clear.
