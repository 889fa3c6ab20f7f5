(** * Lemmas about the vehicles on a road of several links (P_Road.v) *)
From Coq Require Import List Bool ZArith NArith Arith Lia Reals Lra Sorting.Sorted Relations Relations_1.
From Verif Require Import Arith RealArith Base BaseProofs SlotMap Util Geom Light Accel Net Path Vehicle LinkOps Sim SpecSim SpecMotion SlotMapProofs Safe NetInv SimInv AccSafe SimSafe StepSafe OpSafe Evo StepEvo SimProofs StepProofs Ord LogProofs Motion RFacts NetEvo P_Motion P_Limit SpecNet SpecEnter SpecAhead P_Ahead P_Net P_Order P_Enter P_Exit SpecGap GapKin GapProofs P_Gap StopProofs SpecQueue QueueProofs SpecRoad RoadLists.
Import ListNotations.

Section In.
  Context {A : Arith}.
  (** Connections are known at both ends. *)
  Lemma succ_in ops s a b l : history sim_new ops s -> succ_of (s_links s) a b -> link_at s b = Some l -> In a (lk_in l).
  Proof.
    intros Hh (la & Ga & Hb) Gb. destruct (C55_connections A ops s a la Hh Ga) as (E1 & _). destruct (C55_connections A ops s b l Hh Gb) as (_ & E2). rewrite E1 in Hb. rewrite E2.
    unfold connected_to in Hb. unfold connected_from. apply in_flat_map in Hb. destruct Hb as (o & Ho & Hin). apply in_flat_map. exists o. split; [exact Ho|].
    destruct o; try destruct Hin. destruct (key_eqb_spec from a) as [->|]; [|destruct Hin]. destruct Hin as [->|[]]. rewrite key_eqb_refl. left. reflexivity.
  Qed.
End In.

Local Open Scope R_scope.

(** Room to react to something [g] metres ahead that moves at [u]. *)
Definition J (d tm : R) (v : @vehicle RA) (u g : R) : Prop :=
  acceleration v = -6 /\ K (max_acc v) (d / 2) 0 (v_vel v) u g \/ exists r, 0 <= r /\ refresh_time d <= r + tm /\ K (max_acc v) (d / 2) r (v_vel v) u g.
Lemma K_further a c r v u g u2 g2 : 0 <= g2 -> g + u * u / 12 <= g2 + u2 * u2 / 12 -> K a c r v u g -> K a c r v u2 g2.
Proof. unfold K. intros G H (_ & K2). split; [exact G|lra]. Qed.
Lemma J_further d tm v u g u2 g2 : 0 <= g2 -> g + u * u / 12 <= g2 + u2 * u2 / 12 -> J d tm v u g -> J d tm v u2 g2.
Proof. intros G H [(E & Kv)|(r & R1 & R2 & Kv)]; [left; split; [exact E|]|right; exists r; split; [exact R1|]; split; [exact R2|]]; eapply K_further; eauto. Qed.
(** Enough room at the highest speed is enough at any speed. *)
Lemma room_any a d L v u g g' : 0 <= a -> 0 <= d -> 0 <= v <= L -> g <= g' -> room_to_react a d L 0 g -> K a (d / 2) (refresh_time d) v u g'.
Proof.
  intros Ha Hd Hv Hg (R1 & R2). apply room_K. unfold room_to_react, refresh_time in *. split; [lra|]. cbv zeta in *. set (t := 1 / 10 + d) in *. assert (0 < t) by (unfold t; lra).
  assert (v * t <= L * t) by (apply Rmult_le_compat_r; lra). assert (0 <= a * t) by (apply Rmult_le_pos; lra).
  assert ((v + a * t) * (v + a * t) <= (L + a * t) * (L + a * t)) by (apply Rmult_le_compat; lra).
  assert ((v + a * t) * d <= (L + a * t) * d) by (apply Rmult_le_compat_r; lra). assert (0 <= u * u) by apply Rle_0_sqr. lra.
Qed.

Section Road.
  Variables L d m h : R.
  Variable road : list key.
  Hypothesis HL : 0 < L.
  Hypothesis Hd : 0 <= d.

  Definition rp (len : key -> R) (v : @vehicle RA) : R := match v_link v with Some x => start_of len road x + v_pos v | None => 0 end.
  Definition rgap (len : key -> R) (v v2 : @vehicle RA) : R := (rp len v2 - v_half_len v2) - (rp len v + v_half_len v).

  Record flow (s : @sim RA) : Prop := {
    fl_hist : exists ops, history (@sim_new RA) ops s /\ Forall (one_limit L d) ops;
    fl_road : single_road (s_links s) road;
    fl_lanes : forall x y, In x road -> ~ chg_of (s_links s) y x /\ ~ chg_of (s_links s) x y;
    fl_len : forall x l, In x road -> link_at s x = Some l -> m <= lk_length l;
    fl_well : forall k v, on_road s road k v -> drives_well L d m h v /\ forall x, v_link v = Some x -> 0 <= v_pos v <= length_of s x;
    fl_ord : forall x l, In x road -> link_at s x = Some l -> ord (posf (s_vehicles s)) (lk_vehicles l);
    fl_room : forall k k2 v v2, on_road s road k v -> on_road s road k2 v2 -> k <> k2 -> road_pos s road v <= road_pos s road v2 ->
      J d (s_acc_update s) v (v_vel v2) (road_gap s road v v2) }.

  (** How every vehicle that is not on the last link goes on, unless it is at the beginning of its link. *)
  Definition informed (s1 : @sim RA) : Prop :=
    forall k v x y, vehicle_at s1 k = Some v -> v_link v = Some x -> next_on road x y -> heads_to v 1 y \/ v_pos v <= 3 / 10 * L.

  Lemma same_len s s' x : same_net (s_links s) (s_links s') -> length_of s' x = length_of s x.
  Proof.
    intros S. unfold length_of, link_at. destruct (sm_get (s_links s') x) as [l'|] eqn:G'.
    - destruct (same_net_get _ _ _ _ S G') as (l & G & E). rewrite G. unfold lk_static in E. inversion E. unfold lk_length. congruence.
    - destruct (sm_get (s_links s) x) as [l|] eqn:G; [|reflexivity]. destruct (same_net_get' _ _ _ _ S G) as (l' & G2 & _). congruence.
  Qed.
  Lemma same_succ2 (links links' : @linkset RA) a b : same_net links links' -> (succ_of links' a b <-> succ_of links a b).
  Proof.
    intros S. split.
    - intros (l & G & Hb). destruct (same_net_get _ _ _ _ S G) as (l0 & G0 & E). exists l0. split; [exact G0|]. unfold lk_static in E. inversion E. congruence.
    - intros (l & G & Hb). destruct (same_net_get' _ _ _ _ S G) as (l0 & G0 & E). exists l0. split; [exact G0|]. unfold lk_static in E. inversion E. congruence.
  Qed.
  Lemma same_chg2 (links links' : @linkset RA) a b : same_net links links' -> (chg_of links' a b <-> chg_of links a b).
  Proof.
    intros S. split.
    - intros (l & G & Hb). destruct (same_net_get _ _ _ _ S G) as (l0 & G0 & E). exists l0. split; [exact G0|]. unfold lk_static in E. inversion E. congruence.
    - intros (l & G & Hb). destruct (same_net_get' _ _ _ _ S G) as (l0 & G0 & E). exists l0. split; [exact G0|]. unfold lk_static in E. inversion E. congruence.
  Qed.
  Lemma same_single links links' : same_net links links' -> single_road links road -> single_road links' road.
  Proof.
    intros S (Nd & V & C). split; [exact Nd|]. split; [intros x Hx; apply (same_net_valid _ _ _ S); auto|]. intros x y Hxy. rewrite (same_succ2 _ _ _ _ S). auto.
  Qed.

  Definition lst (s : @sim RA) (x : key) : list key := match sm_get (s_links s) x with Some l => lk_vehicles l | None => [] end.
  Lemma lst_on (s : @sim RA) x k : Inv s -> In k (lst s x) -> exists v, sm_get (s_vehicles s) k = Some v /\ v_link v = Some x.
  Proof. intros I Hk. unfold lst in Hk. destruct (sm_get (s_links s) x) as [l|] eqn:G; [|destruct Hk]. exact (in_list_on _ _ _ _ _ _ (i_st _ I) G Hk). Qed.
  Lemma on_lst (s : @sim RA) x k v : Inv s -> sm_get (s_vehicles s) k = Some v -> v_link v = Some x -> In k (lst s x).
  Proof.
    intros I G Lv. destruct (vbase_link _ _ _ _ (st_veh _ _ _ (i_st _ I) _ _ G)) as (x' & Lx & (Vx & _)). assert (x' = x) by congruence. subst x'. unfold valid in Vx. apply sm_mem_get in Vx. destruct Vx as (l & Gl).
    unfold lst. rewrite Gl. destruct (st_occ _ _ _ (i_st _ I) _ _ Gl) as (_ & Oc). apply Oc. unfold at_of. rewrite G. exact Lv.
  Qed.

  (** ** One step *)
  Section Step.
    Variables (e : @env RA) (s : @sim RA) (dt : R) (s' s1 s2 s3 s4 s5 : @sim RA).
    Hypothesis F : flow s.
    Hypothesis Hdt : 0 <= dt <= d.
    Hypothesis H : step e s dt = Ok s'.
    Hypothesis P : phases e s dt s1 s2 s3 s4 s5 s'.
    Hypothesis Inf : informed s1.

    Let len := length_of s.
    Lemma fl_reach : @reachable RA s.
    Proof. destruct (fl_hist _ F) as (ops & Hh & _). exact (history_reachable _ _ _ Hh (@reach_new RA)). Qed.
    Lemma fl_Inv : Inv s.
    Proof. exact (reachable_Inv _ fl_reach). Qed.
    Lemma fl_vel k v : sm_get (s_vehicles s) k = Some v -> 0 <= (v_vel v : R) <= L.
    Proof. intros G. destruct (fl_hist _ F) as (ops & Hh & Fo). split; [exact (vel0_R _ _ _ fl_reach G)|]. apply (C10_speed_limit L d ops s k v); auto. Qed.
    Lemma fl_limit x l : sm_get (s_links s) x = Some l -> (lk_limit l : R) = L.
    Proof. intros G. destruct (fl_hist _ F) as (ops & Hh & Fo). destruct (new_tame L d ops s HL Hd Hh Fo) as (_ & Tl & _). exact (Tl _ _ G). Qed.
    Lemma road_link x : In x road -> exists l, sm_get (s_links s) x = Some l /\ len x = lk_length l /\ m <= len x.
    Proof.
      intros Hx. destruct (fl_road _ F) as (_ & V & _). specialize (V x Hx). unfold valid in V. apply sm_mem_get in V. destruct V as (l & G). exists l. split; [exact G|].
      assert (len x = lk_length l) as E by (unfold len, length_of, link_at; rewrite G; reflexivity). split; [exact E|]. rewrite E. apply (fl_len _ F x); auto.
    Qed.
    Lemma lists1 x : In x road -> sm_get (s_links s1) x = sm_get (s_links s) x.
    Proof. intros Hx. apply (lane_changes_other e s s1 x (i_st _ fl_Inv) (ph1 _ _ _ _ _ _ _ _ _ P)). intros y. exact (fl_lanes _ F x y Hx). Qed.

    (** Each vehicle on its own. *)
    Lemma moved k v x : sm_get (s_vehicles s) k = Some v -> v_link v = Some x -> In x road ->
      exists v1 v4, sm_get (s_vehicles s1) k = Some v1 /\ sm_get (s_vehicles s4) k = Some v4 /\ driven e s dt s1 s2 k v v1 v4 /\
        v_link v1 = Some x /\ v_pos v1 = v_pos v /\ v_half_len v1 = v_half_len v /\ v_vel v1 = v_vel v /\ v_acc v1 = v_acc v /\ v_link v4 = Some x /\
        v_half_len v4 = v_half_len v /\ max_acc v4 = max_acc v /\
        (v_vel v4 : R) = Rmax (v_vel v + dt * acceleration v4) 0 /\ (v_pos v4 : R) = v_pos v + (v_vel v + v_vel v4) / 2 * dt.
    Proof.
      intros G Lv Hx. destruct (drive _ _ _ _ _ _ _ _ _ _ _ fl_Inv P G) as (v1 & v4 & G1 & G4 & D). exists v1, v4. split; [exact G1|]. split; [exact G4|]. split; [exact D|].
      destruct (dr_lc _ _ _ _ _ _ _ _ _ D) as (B1 & [(L1 & P1 & _)|(a & b & M1 & M2 & M3 & M4)] & _).
      2: { exfalso. assert (a = x) by congruence. subst a. exact (proj2 (fl_lanes _ F x b Hx) M3). }
      assert (v_link v1 = Some x) as L1' by congruence. split; [exact L1'|]. split; [exact P1|]. pose proof (body_spec _ _ B1) as (Sb & Ba & Bv & _). unfold spec_of in Sb. injection Sb as _ Eh _ _ _ _. split; [exact Eh|]. split; [exact Bv|]. split; [exact Ba|].
      split; [unfold v_link in *; rewrite (dr_route _ _ _ _ _ _ _ _ _ D); exact L1'|]. destruct (spec_parts _ _ (dr_spec _ _ _ _ _ _ _ _ _ D)) as (Eh4 & _ & Em & _). split; [exact Eh4|]. split; [exact Em|].
      split; [rewrite (dr_vel _ _ _ _ _ _ _ _ _ D); unfold acceleration; apply max_R|]. rewrite (dr_pos _ _ _ _ _ _ _ _ _ D), P1, half_R. unR. lra.
    Qed.

    (** How a vehicle reacts to the one in front of it. *)
    Lemma react k k2 v v2 v1 v4 pre post : 1 / 10 <= (s_acc_update s : R) -> flat_map (lst s) road = pre ++ k :: k2 :: post ->
      sm_get (s_vehicles s) k = Some v -> sm_get (s_vehicles s) k2 = Some v2 -> driven e s dt s1 s2 k v v1 v4 ->
      sm_get (s_vehicles s1) k = Some v1 ->
      (acceleration v4 : R) <= Rmax (idm (v_acc v) (rgap len v v2) (v_vel v) (v_vel v2)) (-6) \/ K (max_acc v) (d / 2) (refresh_time d) (v_vel v) (v_vel v2) (rgap len v v2).
    Proof.
      intros Due E G G2 D G1. pose proof fl_Inv as I. pose proof (ps1 _ _ _ _ _ _ _ _ _ P) as St1. destruct (fl_vel _ _ G) as (V0 & VL).
      destruct (flat_next _ _ _ _ _ _ E) as [(x & p & q & Hx & Ex)|(r1 & x & r2 & y & r3 & p & q & Er & Ex & Ey & Nr)].
      - (* on the same link *)
        destruct (lst_on s x k I) as (w & Gw & Lv); [rewrite Ex; apply in_or_app; right; left; reflexivity|]. assert (w = v) by congruence. subst w. clear Gw.
        destruct (lst_on s x k2 I) as (w & Gw & Lv2); [rewrite Ex; apply in_or_app; right; right; left; reflexivity|]. assert (w = v2) by congruence. subst w. clear Gw.
        destruct (moved k v x G Lv Hx) as (w1 & w4 & Gw1 & _ & _ & _ & P1 & Eh1 & V1 & A1 & _). assert (w1 = v1) by congruence. subst w1.
        destruct (moved k2 v2 x G2 Lv2 Hx) as (v21 & v24 & G21 & _ & _ & _ & P21 & Eh21 & V21 & _).
        left. destruct (road_link x Hx) as (l & Gl & _). assert ((acceleration v4 : R) <= Rmax (vx_follow_vehicle v1 (pos_rear v21) (v_vel v21)) (-6)) as B.
        { apply (dr_bound e s dt s1 s2 k v v1 v4); auto. intros links vs log1 log Pt. apply (parts_follow _ _ _ _ _ _ _ x l p k k2 q v1 v21 Pt); auto; [rewrite (lists1 x Hx); exact Gl|]. unfold lst in Ex. rewrite Gl in Ex. exact Ex. }
        unfold vx_follow_vehicle, x_follow_vehicle in B.
        assert (nsub (pos_rear v21) (pos_front v1) = rgap len v v2) as Eg. { unfold rgap, rp, pos_rear, pos_front. rewrite Lv, Lv2, P1, Eh1, P21, Eh21. unR. lra. }
        rewrite Eg, V21, V1, A1 in B. exact B.
      - (* on different links *)
        assert (In x road) as Hx by (rewrite Er; apply in_or_app; right; left; reflexivity). assert (In y road) as Hy by (rewrite Er; apply in_or_app; right; right; apply in_or_app; right; left; reflexivity).
        destruct (lst_on s x k I) as (w & Gw & Lv); [rewrite Ex; apply in_or_app; right; left; reflexivity|]. assert (w = v) by congruence. subst w. clear Gw.
        destruct (lst_on s y k2 I) as (w & Gw & Lv2); [rewrite Ey; left; reflexivity|]. assert (w = v2) by congruence. subst w. clear Gw.
        destruct (moved k v x G Lv Hx) as (w1 & w4 & Gw1 & _ & _ & L1 & P1 & Eh1 & V1 & A1 & _). assert (w1 = v1) by congruence. subst w1.
        destruct (moved k2 v2 y G2 Lv2 Hy) as (v21 & v24 & G21 & _ & _ & L21 & P21 & Eh21 & V21 & _).
        destruct (fl_road _ F) as (Nd & _ & Sc). assert (start_of len road y = start_of len road x + len x + total_of len r2) as Sy by (rewrite Er in Nd |- *; exact (start_later len r1 x r2 y r3 Nd)).
        destruct (fl_well _ F k v) as (W & Wp); [split; [exact G|eauto]|]. specialize (Wp x Lv). destruct (fl_well _ F k2 v2) as (W2 & Wp2); [split; [exact G2|eauto]|]. specialize (Wp2 y Lv2).
        fold len in Wp, Wp2. destruct W as (Cf & Hh & Far & Near). destruct W2 as (_ & Hh2 & _ & _). assert (0 <= (max_acc v : R)) as Pm by (destruct Cf as (Ca & _); lra).
        assert (rgap len v v2 = len x + total_of len r2 - v_pos v - v_half_len v + v_pos v2 - v_half_len v2) as Eg by (unfold rgap, rp; rewrite Lv, Lv2, Sy; lra).
        destruct (road_link x Hx) as (l & Gl & El & Ml). destruct (road_link y Hy) as (ly & Gly & Ely & Mly).
        assert (0 <= m) as M0 by (destruct Near as (N0 & _); lra).
        destruct r2 as [|z r2].
        2: { right. apply (room_any _ _ L _ _ (m - 3 / 10 * L - v_half_len v - h)); auto. assert (m <= total_of len (z :: r2)) as T; [|rewrite Eg; lra].
             apply total_low; [|exact M0|discriminate]. intros a Ha. destruct (road_link a) as (_ & _ & _ & X); [|exact X]. rewrite Er. apply in_or_app. right. right. apply in_or_app. left. exact Ha. }
        cbn [total_of] in Eg. assert (next_on road x y) as Nx by (exists r1, r3; exact Er).
        destruct (Inf k v1 x y G1 L1 Nx) as [Hn|Hn].
        2: { right. apply (room_any _ _ L _ _ (m - 3 / 10 * L - v_half_len v - h)); auto. rewrite Eg. rewrite P1 in Hn. lra. }
        destruct (nltb (pos_front v1) (nsub (nadd n0 (lk_length l)) (nmul (nofZ 5) (lk_limit l)))) eqn:Ne.
        { right. apply ltb_R in Ne. apply (room_any _ _ L _ _ (5 * L - h)); auto. rewrite Eg. revert Ne. unfold pos_front, n0. rewrite (fl_limit _ _ Gl), P1, Eh1, <- El. unR. intros Ne. lra. }
        left. assert (next_to_enter s1 y ly k v1 (nadd n0 (lk_length l))) as Nt.
        { destruct (fl_hist _ F) as (ops & Hist & _).
          assert (forall a w z, sm_get (s_vehicles s1) a = Some w -> v_link w = Some z -> in_use s1 z) as Use.
          { intros a w z Ga Lz. exists a, w. split; [exact Ga|]. pose proof (vb_ent _ _ _ _ (st_veh _ _ _ St1 _ _ Ga)) as En. unfold entered_links. unfold v_link in Lz. destruct (v_route w) as [|c r]; [discriminate Lz|]. injection Lz as ->. destruct (v_entered w) as [|n]; [lia|]. left. reflexivity. }
          split; [unfold link_at; rewrite (lists1 y Hy); exact Gly|]. split; [exact (Use _ _ _ G21 L21)|]. split.
          - apply leb_R_false. rewrite (fl_limit _ _ Gly). unfold n0. unR. lra.
          - exists x, l. split; [apply (succ_in ops s x y ly Hist); [apply Sc; [left; exact Hx|exact Nx]|exact Gly]|]. split; [unfold link_at; rewrite (lists1 x Hx); exact Gl|].
            apply (first_here s1 y 1 x l (nadd n0 (lk_length l)) p k [] v1).
            + unfold link_at. rewrite (lists1 x Hx). exact Gl.
            + exact (Use _ _ _ G1 L1).
            + unfold lst in Ex. rewrite Gl in Ex. exact Ex.
            + intros ? [].
            + exact G1.
            + exact Ne.
            + exact Hn.
            + right. apply ltb_R_false. unfold n0. unR. lra. }
        assert ((acceleration v4 : R) <= Rmax (vx_follow_vehicle v1 (nadd (nadd n0 (lk_length l)) (pos_rear v21)) (v_vel v21)) (-6)) as B.
        { apply (dr_bound e s dt s1 s2 k v v1 v4); auto. intros links vs log1 log Pt. refine (proj2 (next_in_log _ _ _ _ _ _ _ _ _ _ _ _ St1 Pt Nt) k2 v21 _ G21). exists q. unfold lst in Ey. rewrite Gly in Ey. exact Ey. }
        unfold vx_follow_vehicle, x_follow_vehicle in B.
        assert (nsub (nadd (nadd n0 (lk_length l)) (pos_rear v21)) (pos_front v1) = rgap len v v2) as Eg'. { rewrite Eg, El. unfold pos_rear, pos_front, n0. rewrite P1, Eh1, P21, Eh21. unR. lra. }
        rewrite Eg', V21, V1, A1 in B. exact B.
    Qed.
    (** ** Neighbours *)
    Lemma ahead k k2 v v2 pre post : flat_map (lst s) road = pre ++ k :: k2 :: post -> sm_get (s_vehicles s) k = Some v -> sm_get (s_vehicles s) k2 = Some v2 ->
      k <> k2 /\ rp len v <= rp len v2 /\ on_road s road k v /\ on_road s road k2 v2.
    Proof.
      intros E G G2. pose proof fl_Inv as I. destruct (flat_next _ _ _ _ _ _ E) as [(x & p & q & Hx & Ex)|(r1 & x & r2 & y & r3 & p & q & Er & Ex & Ey & Nr)].
      - destruct (lst_on s x k I) as (w & Gw & Lv); [rewrite Ex; apply in_or_app; right; left; reflexivity|]. assert (w = v) by congruence. subst w. clear Gw.
        destruct (lst_on s x k2 I) as (w & Gw & Lv2); [rewrite Ex; apply in_or_app; right; right; left; reflexivity|]. assert (w = v2) by congruence. subst w. clear Gw.
        destruct (road_link x Hx) as (l & Gl & _). unfold lst in Ex. rewrite Gl in Ex. destruct (st_occ _ _ _ (i_st _ I) _ _ Gl) as (Nd & _). rewrite Ex in Nd.
        split; [intros ->; apply NoDup_remove_2 in Nd; apply Nd; apply in_or_app; right; left; reflexivity|]. split; [|split; (split; [assumption|eauto])].
        pose proof (fl_ord _ F x l Hx Gl) as O. rewrite Ex in O. assert (ord (posf (s_vehicles s)) (k :: k2 :: q)) as O'.
        { clear - O. induction p as [|a p IH]; [exact O|]. apply IH. inversion O; assumption. }
        inversion O' as [|? ? F1 _]; subst. inversion F1 as [|? ? F2 _]; subst. specialize (F2 (v_pos v) (v_pos v2)). unfold posf in F2. rewrite G, G2 in F2. specialize (F2 eq_refl eq_refl). apply ltb_R_false in F2.
        unfold rp. rewrite Lv, Lv2. lra.
      - assert (In x road) as Hx by (rewrite Er; apply in_or_app; right; left; reflexivity). assert (In y road) as Hy by (rewrite Er; apply in_or_app; right; right; apply in_or_app; right; left; reflexivity).
        destruct (lst_on s x k I) as (w & Gw & Lv); [rewrite Ex; apply in_or_app; right; left; reflexivity|]. assert (w = v) by congruence. subst w. clear Gw.
        destruct (lst_on s y k2 I) as (w & Gw & Lv2); [rewrite Ey; left; reflexivity|]. assert (w = v2) by congruence. subst w. clear Gw.
        destruct (fl_road _ F) as (Nd & _ & Sc). assert (start_of len road y = start_of len road x + len x + total_of len r2) as Sy by (rewrite Er in Nd |- *; exact (start_later len r1 x r2 y r3 Nd)).
        assert (on_road s road k v) as O1 by (split; [exact G|eauto]). assert (on_road s road k2 v2) as O2 by (split; [exact G2|eauto]).
        split; [|split; [|split; assumption]].
        + intros ->. assert (x = y) by congruence. subst y. rewrite Er in Nd. apply NoDup_remove_2 in Nd. apply Nd. apply in_or_app. right. apply in_or_app. right. left. reflexivity.
        + destruct (fl_well _ F k v O1) as (W & Wp). specialize (Wp x Lv). destruct (fl_well _ F k2 v2 O2) as (W2 & Wp2). specialize (Wp2 y Lv2). fold len in Wp, Wp2.
          assert (0 <= m) as M0 by (destruct W as (_ & Hh & _ & (N0 & _)); destruct W2 as (_ & Hh2 & _); lra).
          assert (0 <= total_of len r2) as T0. { destruct r2 as [|z r2]; [cbn; lra|]. eapply Rle_trans; [exact M0|]. apply total_low; [|exact M0|discriminate]. intros a Ha. destruct (road_link a) as (_ & _ & _ & X); [|exact X]. rewrite Er. apply in_or_app. right. right. apply in_or_app. left. exact Ha. }
          unfold rp. rewrite Lv, Lv2, Sy. lra.
    Qed.

    Definition fit (v : @vehicle RA) : Prop := 0 <= v_vel v /\ 0 <= max_acc v /\ 0 < v_half_len v.
    Definition clear_of (a b : key) : Prop :=
      exists v v2, sm_get (s_vehicles s4) a = Some v /\ sm_get (s_vehicles s4) b = Some v2 /\ fit v /\ fit v2 /\ J d (s_acc_update s') v (v_vel v2) (rgap len v v2).
    Lemma clear_next k k2 pre post : flat_map (lst s) road = pre ++ k :: k2 :: post -> clear_of k k2.
    Proof.
      intros E. pose proof fl_Inv as I.
      assert (forall a, In a (flat_map (lst s) road) -> exists v x, sm_get (s_vehicles s) a = Some v /\ v_link v = Some x /\ In x road) as On.
      { intros a Ha. apply in_flat_map in Ha. destruct Ha as (x & Hx & Ha). destruct (lst_on s x a I Ha) as (v & G & Lv). eauto 6. }
      destruct (On k) as (v & x & G & Lv & Hx); [rewrite E; apply in_or_app; right; left; reflexivity|]. destruct (On k2) as (v2 & y & G2 & Lv2 & Hy); [rewrite E; apply in_or_app; right; right; left; reflexivity|].
      destruct (ahead _ _ _ _ _ _ E G G2) as (Nk & Le & O1 & O2). pose proof (fl_room _ F k k2 v v2 O1 O2 Nk Le) as Jr. change (road_gap s road v v2) with (rgap len v v2) in Jr.
      destruct (moved k v x G Lv Hx) as (v1 & v4 & G1 & G4 & D & L1 & P1 & Eh1 & V1 & A1 & L4 & Eh & Em & Ev & Ep).
      destruct (moved k2 v2 y G2 Lv2 Hy) as (v21 & v24 & G21 & G24 & D2 & L21 & P21 & Eh21 & V21 & A21 & L24 & Eh2 & Em2 & Ev2 & Ep2).
      destruct (fl_well _ F k v O1) as (W & _). destruct (fl_well _ F k2 v2 O2) as (W2 & _). destruct W as (Cf & Hh & _). destruct W2 as (Cf2 & Hh2 & _).
      assert (0 < (max_acc v : R)) as Pm by (destruct Cf as (Ca & _); lra). assert (0 < (max_acc v2 : R)) as Pm2 by (destruct Cf2 as (Ca & _); lra).
      exists v4, v24. split; [exact G4|]. split; [exact G24|].
      split; [unfold fit; rewrite Em, Eh; split; [rewrite Ev; apply Rmax_r|]; lra|]. split; [unfold fit; rewrite Em2, Eh2; split; [rewrite Ev2; apply Rmax_r|]; lra|].
      assert (rgap len v4 v24 = rgap len v v2 + (v_vel v2 + v_vel v24) / 2 * dt - (v_vel v + v_vel v4) / 2 * dt) as ->.
      { unfold rgap, rp. rewrite Lv, Lv2, L4, L24, Ep, Ep2, Eh, Eh2. lra. }
      apply (room_gen L d e s dt s' v v4); auto.
      + exact (dr_spec _ _ _ _ _ _ _ _ _ D).
      + apply (dr_top e s dt s1 s2 k v v1 v4); auto; [exact fl_reach|lra].
      + intros Lt. exact (dr_keep _ _ _ _ _ _ _ _ _ D (not_due_R _ Lt)).
      + exact (fl_vel _ _ G).
      + apply (fl_vel _ _ G2).
      + rewrite Ev2. apply Rmax_r.
      + rewrite Ev2. pose proof (acc_low_R v24) as Al. assert (dt * -6 <= dt * acceleration v24) by (apply Rmult_le_compat_l; lra). eapply Rle_trans; [|apply Rmax_l]. lra.
      + intros Due. exact (react k k2 v v2 v1 v4 pre post Due E G G2 D G1).
    Qed.
    Lemma clear_trans : Relations_1.Transitive clear_of.
    Proof.
      intros a b c (va & vb & Ga & Gb & Fa & Fb & Jab) (vb' & vc & Gb' & Gc & _ & Fc & Jbc). assert (vb' = vb) by congruence. subst vb'. exists va, vc. repeat (split; [assumption|]).
      destruct Fb as (B1 & B2 & B3). destruct Fa as (A1 & A2 & A3).
      destruct (K_end d (s_acc_update s') vb (v_vel vc) (rgap len vb vc) Hd B1 B2 Jbc) as (X1 & X2). destruct (K_end d (s_acc_update s') va (v_vel vb) (rgap len va vb) Hd A1 A2 Jab) as (Y1 & Y2).
      assert (rgap len va vc = rgap len va vb + rgap len vb vc + 2 * v_half_len vb) as Eg by (unfold rgap; lra).
      apply (J_further d _ va (v_vel vb) (rgap len va vb)); [lra|lra|exact Jab].
    Qed.
    Lemma clear_all : StronglySorted clear_of (flat_map (lst s) road).
    Proof. apply Sorted_StronglySorted; [exact clear_trans|]. apply neighbours_sorted. intros pre a b post E. exact (clear_next a b pre post E). Qed.

    (** ** Those that are still there *)
    Lemma survivor k v' : on_road s' road k v' -> exists v x v4, sm_get (s_vehicles s) k = Some v /\ v_link v = Some x /\ In x road /\ sm_get (s_vehicles s4) k = Some v4 /\ In k (flat_map (lst s) road) /\
      v_link v4 = Some x /\ spec_of v' = spec_of v /\ body v' = body v4 /\ rp len v' = rp len v4 /\ (forall y, v_link v' = Some y -> 0 <= v_pos v' <= len y) /\
      (v_link v' = Some x /\ v_pos v' = v_pos v4 \/ exists y, next_on road x y /\ v_link v' = Some y /\ v_pos v' <= L * dt).
    Proof.
      intros (G' & x' & L' & Hx'). pose proof fl_Inv as I. unfold vehicle_at in G'. destruct (fl_road _ F) as (Nd & Va & Sc).
      destruct (step_vehicle_parts _ _ _ _ _ _ I H G') as (t1 & t2 & t3 & t4 & t5 & v & v1 & v2 & v4 & v5 & q & q' & Pt & G & G1 & G2 & G4 & _ & _ & _ & R5 & R6).
      assert (t4 = s4) as E4. { pose proof (ph_pre _ _ _ _ _ _ _ _ _ P) as X. pose proof (ph_pre _ _ _ _ _ _ _ _ _ Pt) as Y. congruence. } rewrite E4 in *. clear t1 t2 t3 t4 t5 Pt G1 G2 E4 v1 v2 q q'.
      destruct (vbase_link _ _ _ _ (st_veh _ _ _ (i_st _ I) _ _ G)) as (x & Lv & _).
      destruct (step_vehicles _ _ _ _ I H) as (_ & s4' & H4' & _ & St4 & Sn4 & _). assert (s4' = s4) by (pose proof (ph_pre _ _ _ _ _ _ _ _ _ P); congruence). subst s4'. clear H4'.
      destruct (drive _ _ _ _ _ _ _ _ _ _ _ I P G) as (v1 & w4 & G1 & Gw & D). assert (w4 = v4) by congruence. subst w4. clear Gw.
      (* it was on the road before *)
      assert (exists x4, v_link v4 = Some x4 /\ (x' = x4 \/ succ_of (s_links s) x4 x')) as (x4 & L4 & Mv).
      { destruct R6 as (_ & _ & _ & Ro & _). destruct R5 as (lid & l & Ll & _ & [(_ & ->)|(_ & _ & Rt & _)]).
        - exists lid. split; [exact Ll|]. left. unfold v_link in *. rewrite Ro in L'. congruence.
        - exists lid. split; [exact Ll|]. right. pose proof (vb_chain _ _ _ _ (st_veh _ _ _ St4 _ _ G4)) as Ch. unfold v_link in *. rewrite Ro, Rt in L'. destruct (v_route v4) as [|a [|b r]]; try discriminate L'. cbn in Ll, L'. injection Ll as ->. injection L' as ->.
          cbn [chain] in Ch. destruct Ch as (_ & Sx & _). apply (same_succ2 _ _ _ _ Sn4). exact Sx. }
      assert (In x4 road) as Hx4. { destruct Mv as [<-|Sx]; [exact Hx'|]. apply Sc in Sx; [|right; exact Hx']. exact (proj1 (next_in _ _ _ Sx)). }
      assert (x4 = x) as E4.
      { destruct (dr_lc _ _ _ _ _ _ _ _ _ D) as (_ & [(L1 & _)|(a & b & M1 & M2 & M3 & M4)] & _).
        - unfold v_link in *. rewrite (dr_route _ _ _ _ _ _ _ _ _ D) in L4. congruence.
        - exfalso. assert (b = x4) as -> by (unfold v_link in *; rewrite (dr_route _ _ _ _ _ _ _ _ _ D) in L4; congruence). exact (proj1 (fl_lanes _ F x4 a Hx4) M3). }
      subst x4. exists v, x, v4. split; [exact G|]. split; [exact Lv|]. split; [exact Hx4|]. split; [exact G4|]. split; [apply in_flat_map; exists x; split; [exact Hx4|exact (on_lst s x k v I G Lv)]|].
      split; [exact L4|].
      destruct (moved k v x G Lv Hx4) as (w1 & w4 & _ & Gw & _ & _ & _ & _ & _ & _ & _ & Eh & Em & Ev & Ep). assert (w4 = v4) by congruence. subst w4. clear Gw.
      assert (body v' = body v4) as B. { destruct R6 as (-> & _). destruct R5 as (lid & l & Ll & _ & [(_ & ->)|(_ & B5 & _)]); [reflexivity|exact B5]. }
      split; [rewrite <- (dr_spec _ _ _ _ _ _ _ _ _ D); apply (body_spec _ _ B)|]. split; [exact B|].
      destruct (fl_vel _ _ G) as (V0 & VL). assert (v_vel v4 <= L) as V4.
      { assert (v_vel v' = v_vel v4) as <- by (unfold body in B; injection B as _ _ _ _ _ X _ _ _ _; exact X). destruct (fl_hist _ F) as (ops & Hh & Fo). apply (C10_speed_limit L d (ops ++ [@OStep RA dt]) s' k v'); auto.
        - eapply history_app; [exact Hh|econstructor; [exact H|constructor]].
        - apply Forall_app. split; [exact Fo|]. constructor; [exact Hdt|constructor]. }
      assert (0 <= v_vel v4) as V40 by (rewrite Ev; apply Rmax_r).
      assert (0 <= (v_vel v + v_vel v4) / 2 * dt <= L * dt) as Sp by (split; [apply Rmult_le_pos; lra|apply Rmult_le_compat_r; lra]).
      destruct (fl_well _ F k v) as (W & Wp); [split; [exact G|eauto]|]. specialize (Wp x Lv). fold len in Wp.
      destruct (road_link x Hx4) as (l & Gl & El & Ml).
      destruct R5 as (lid & l4 & Ll & Gl4 & Fate). assert (lid = x) by congruence. subst lid. assert (lk_length l4 = len x) as El4.
      { pose proof (same_len s s4 x Sn4) as X. unfold length_of at 1, link_at in X. rewrite Gl4 in X. exact X. }
      destruct R6 as (_ & _ & Pp & Ro & _). destruct Fate as [(Nf & ->)|(Fr & _ & Rt & Pn & _)].
      - apply ltb_R_false in Nf. rewrite El4 in Nf. assert (v_link v' = Some x) as Lx by (unfold v_link in *; rewrite Ro; exact L4). split; [unfold rp; rewrite Lx, L4, Pp; reflexivity|].
        split; [intros y Ly; assert (y = x) by congruence; subst y; rewrite Pp; lra|]. left. auto.
      - apply ltb_R in Fr. rewrite El4 in Fr. rewrite El4 in Pn. cbn in Pn. assert (v_pos v' = v_pos v4 - len x) as Pn' by congruence. clear Pn Pp.
        assert (next_on road x x') as Nx.
        { destruct Mv as [->|Sx]; [exfalso|apply Sc; [left; exact Hx4|exact Sx]]. assert (succ_of (s_links s) x x) as Sx.
          { pose proof (vb_chain _ _ _ _ (st_veh _ _ _ St4 _ _ G4)) as Ch. unfold v_link in *. rewrite Ro, Rt in L'. destruct (v_route v4) as [|a [|b r]]; try discriminate L'. cbn in Ll, L'. injection Ll as ->. injection L' as ->.
            cbn [chain] in Ch. destruct Ch as (_ & Sx & _). apply (same_succ2 _ _ _ _ Sn4). exact Sx. }
          apply Sc in Sx; [|left; exact Hx4]. destruct Sx as (pre & post & Er). rewrite Er in Nd. apply NoDup_remove_2 in Nd. apply Nd. apply in_or_app. right. left. reflexivity. }
        destruct (road_link x' Hx') as (ly & Gly & Ely & Mly). assert (L * dt <= m) as Ld.
        { destruct W as (Cf & Hh & _ & (N0 & N1)). assert (0 <= (max_acc v : R)) as Pm by (destruct Cf as (Ca & _); lra). unfold refresh_time in N1. cbv zeta in N1. assert (L * dt <= L * d) by (apply Rmult_le_compat_l; lra). set (t := 1 / 10 + d) in *. assert (L * d <= L * t) by (apply Rmult_le_compat_l; unfold t; lra).
          assert (0 <= max_acc v * t * t) by (repeat apply Rmult_le_pos; unfold t; lra). assert (0 <= L + max_acc v * t) by (assert (0 <= max_acc v * t) by (apply Rmult_le_pos; unfold t; lra); lra). assert (0 <= (L + max_acc v * t) * (L + max_acc v * t)) by (apply Rmult_le_pos; lra). assert (0 <= (L + max_acc v * t) * d) by (apply Rmult_le_pos; lra). lra. }
        split; [unfold rp; rewrite L', L4, Pn', (start_next len road x x' Nd Nx); lra|].
        split; [intros y Ly; assert (y = x') by congruence; subst y; rewrite Pn'; lra|]. right. exists x'. split; [exact Nx|]. split; [exact L'|]. rewrite Pn'. lra.
    Qed.
    Lemma flow_step : flow s'.
    Proof.
      pose proof fl_Inv as I. pose proof (step_same_net _ _ _ _ I H) as Sn. destruct (fl_hist _ F) as (ops & Hh & Fo).
      assert (forall x, length_of s' x = len x) as Len by (intros x; apply same_len; exact Sn).
      assert (forall v, road_pos s' road v = rp len v) as Rp.
      { intros v. unfold road_pos, rp. destruct (v_link v) as [x|]; [|reflexivity]. rewrite (start_ext (length_of s') len road x); [reflexivity|]. intros; apply Len. }
      constructor.
      - exists (ops ++ [@OStep RA dt]). split; [eapply history_app; [exact Hh|econstructor; [exact H|constructor]]|]. apply Forall_app. split; [exact Fo|]. constructor; [exact Hdt|constructor].
      - exact (same_single _ _ Sn (fl_road _ F)).
      - intros x y Hx. rewrite !(same_chg2 _ _ _ _ Sn). exact (fl_lanes _ F x y Hx).
      - intros x l' Hx G'. pose proof (Len x) as E. unfold length_of, link_at in E. unfold link_at in G'. rewrite G' in E. rewrite E. destruct (road_link x Hx) as (_ & _ & _ & X). exact X.
      - intros k v' O'. destruct (survivor k v' O') as (v & x & v4 & G & Lv & Hx & _ & _ & _ & Sp & _ & _ & Wp & _). destruct (fl_well _ F k v) as (W & _); [split; [exact G|eauto]|]. split.
        + destruct W as (Cf & W). destruct (spec_parts _ _ Sp) as (Eh & _ & Em & _). split; [exact (careful_same _ _ _ _ Sp Cf)|]. rewrite Eh, Em. exact W.
        + intros y Ly. rewrite Len. exact (Wp y Ly).
      - intros x l' Hx G'. destruct (ph6 _ _ _ _ _ _ _ _ _ P) as (s6 & H6 & Es'). destruct (coords_evo _ _ H6) as (C1 & C2 & _ & Es6).
        assert (forall k, posf (s_vehicles s') k = posf (s_vehicles s5) k) as Ep.
        { intros k. assert (s_vehicles s' = s_vehicles s6) as -> by (rewrite Es'; reflexivity). unfold posf.
          destruct (sm_get (s_vehicles s5) k) as [v|] eqn:G5.
          - destruct (C1 _ _ G5) as (v' & G6 & R). rewrite G6. cbn. f_equal. apply R.
          - destruct (sm_get (s_vehicles s6) k) as [v|] eqn:G6; [|reflexivity]. destruct (C2 _ _ G6) as (v' & G6' & R). congruence. }
        assert (s_links s' = s_links s5) as El by (rewrite Es', Es6; reflexivity). pose proof G' as Gs'. unfold link_at in G', Gs'. rewrite El in G'.
        destruct (advance_lists RA_ord _ _ _ (ph5 _ _ _ _ _ _ _ _ _ P) _ _ G') as (l & mm & G4 & S4 & S5 & Kk). pose proof (ps5 _ _ _ _ _ _ _ _ _ P) as St5.
        assert (@Inv RA s') as I' by exact (reachable_Inv _ (reach_call e s (@OStep RA dt) s' fl_reach H)).
        assert (lk_vehicles l = lst s x) as E4.
        { pose proof (plv12 _ _ _ _ _ _ _ _ _ P x) as L12. pose proof (plv23 _ _ _ _ _ _ _ _ _ P x) as L23. rewrite (pn4 _ _ _ _ _ _ _ _ _ P) in G4. rewrite G4 in L23. rewrite L23 in L12. rewrite (lists1 x Hx) in L12. unfold lst. destruct (sm_get (s_links s) x); [|discriminate L12]. injection L12 as ->. reflexivity. }
        eapply ord_ext; [intros k y _; rewrite Ep; intros Z; exact Z|]. apply Kk.
        + intros k Hk. destruct (in_list_on _ _ _ _ _ _ St5 G' Hk) as (v & Gv & _). apply sm_mem_get. eauto.
        + pose proof (strong_part _ _ _ _ clear_all Hx) as Ss. rewrite <- E4 in Ss. assert (forall k, In k mm -> In k (lk_vehicles l')) as Hm by (intros; eapply subseq_in; eauto). clear S5 Kk.
          assert (forall a b, In a mm -> In b mm -> clear_of a b -> forall p q, posf (s_vehicles s5) a = Some p -> posf (s_vehicles s5) b = Some q -> @nltb RA q p = false) as Step.
          { assert (forall a p, In a mm -> In a (lk_vehicles l) -> posf (s_vehicles s5) a = Some p -> exists v4, sm_get (s_vehicles s4) a = Some v4 /\ v_link v4 = Some x /\ v_pos v4 = p) as X.
            { intros a p Ha Hal Pa. rewrite <- Ep in Pa. destruct (in_list_on _ _ _ _ _ _ (i_st _ I') Gs' (Hm _ Ha)) as (v' & Gv & Lv'). unfold posf in Pa. rewrite Gv in Pa. injection Pa as <-.
              destruct (survivor a v') as (v & x0 & v4 & Gv0 & Lv0 & Hx0 & G4a & _ & L4 & _ & _ & Rpp & _); [split; [exact Gv|eauto]|]. rewrite E4 in Hal. destruct (lst_on s x a I Hal) as (w & Gw & Lw). assert (w = v) by congruence. subst w. assert (x0 = x) by congruence. subst x0.
              exists v4. split; [exact G4a|]. split; [exact L4|]. unfold rp in Rpp. rewrite Lv', L4 in Rpp. lra. }
            intros a b Ha Hb (va & vb & Ga & Gb & Fa & Fb & Jab) p q Pa Pb. destruct (X a p Ha ltac:(eapply subseq_in; eauto) Pa) as (wa & Gwa & La & <-). destruct (X b q Hb ltac:(eapply subseq_in; eauto) Pb) as (wb & Gwb & Lb & <-).
            assert (wa = va) by congruence. assert (wb = vb) by congruence. subst wa wb. apply ltb_R_false. destruct Fa as (A1 & A2 & A3). destruct Fb as (B1 & B2 & B3). destruct (K_end d _ _ _ _ Hd A1 A2 Jab) as (X1 & _).
            unfold rgap, rp in X1. rewrite La, Lb in X1. lra. }
          clear Hm G4 E4 G' Gs'. induction S4 as [|k mm' l0 S4 IH|k mm' l0 S4 IH]; [constructor| |].
          * inversion Ss; subst. apply IH; auto.
          * inversion Ss as [|? ? Ss' Fs]; subst. constructor; [|apply IH; auto; intros a b Ha Hb; apply Step; right; assumption].
            rewrite Forall_forall in *. intros b Hb. apply Step; [left; reflexivity|right; exact Hb|]. apply Fs. eapply subseq_in; eauto.
      - intros k k2 v' v2' O1 O2 Nk Le. rewrite !Rp in Le. assert (road_gap s' road v' v2' = rgap len v' v2') as -> by (unfold road_gap, rgap; rewrite !Rp; reflexivity).
        destruct (survivor k v' O1) as (v & x & v4 & G & Lv & Hx & G4 & Hf & L4 & Sp & B & Ep & _). destruct (survivor k2 v2' O2) as (v2 & y & v24 & G2 & Lv2 & Hy & G24 & Hf2 & L24 & Sp2 & B2 & Ep2 & _).
        assert (acceleration v' = acceleration v4 /\ max_acc v' = max_acc v4 /\ v_vel v' = v_vel v4 /\ v_half_len v' = v_half_len v4) as (Q1 & Q2 & Q3 & Q4) by (unfold body in B; injection B as _ _ B3 _ B5 B6 _ _ _ _; unfold acceleration, max_acc; rewrite B5; auto).
        assert (v_vel v2' = v_vel v24 /\ v_half_len v2' = v_half_len v24) as (Q5 & Q6) by (unfold body in B2; injection B2 as _ _ B3 _ _ B6 _ _ _ _; auto).
        unfold J. rewrite Q1, Q2, Q3, Q5. assert (rgap len v' v2' = rgap len v4 v24) as -> by (unfold rgap; rewrite Ep, Ep2, Q4, Q6; reflexivity).
        destruct (sorted_pairs _ _ clear_all k k2 Hf Hf2) as [->|[C|C]]; [congruence| |].
        + destruct C as (w & w2 & Gw & Gw2 & _ & _ & Jr). assert (w = v4) by congruence. assert (w2 = v24) by congruence. subst w w2. exact Jr.
        + exfalso. destruct C as (w2 & w & Gw2 & Gw & F2 & F1 & Jr). assert (w = v4) by congruence. assert (w2 = v24) by congruence. subst w w2. destruct F1 as (_ & _ & H1'). destruct F2 as (X1 & X2 & X3). destruct (K_end d _ _ _ _ Hd X1 X2 Jr) as (Y & _).
          unfold rgap in Y. lra.
    Qed.
    (** They stay in their order. *)
    Lemma order_step k k2 v v2 v' v2' : on_road s road k v -> on_road s road k2 v2 -> k <> k2 -> rp len v <= rp len v2 -> on_road s' road k v' -> on_road s' road k2 v2' -> rp len v' <= rp len v2'.
    Proof.
      intros O1 O2 Nk Le O1' O2'.
      set (R2 := fun a b => clear_of a b /\ exists va vb, sm_get (s_vehicles s) a = Some va /\ sm_get (s_vehicles s) b = Some vb /\ rp len va <= rp len vb).
      assert (StronglySorted R2 (flat_map (lst s) road)) as Ss.
      { apply Sorted_StronglySorted; [|apply neighbours_sorted].
        - intros a b c (C1 & va & vb & Ga & Gb & E1) (C2 & wb & vc & Gb' & Gc & E2). split; [exact (clear_trans _ _ _ C1 C2)|]. exists va, vc. split; [exact Ga|]. split; [exact Gc|]. assert (wb = vb) by congruence. subst wb. lra.
        - intros pre a b post E. split; [exact (clear_next _ _ _ _ E)|]. pose proof fl_Inv as I.
          assert (forall c, In c (flat_map (lst s) road) -> exists w, sm_get (s_vehicles s) c = Some w) as Gt. { intros c Hc. apply in_flat_map in Hc. destruct Hc as (x & _ & Hc). destruct (lst_on s x c I Hc) as (w & Gw & _). eauto. }
          destruct (Gt a) as (va & Ga); [rewrite E; apply in_or_app; right; left; reflexivity|]. destruct (Gt b) as (vb & Gb); [rewrite E; apply in_or_app; right; right; left; reflexivity|].
          exists va, vb. split; [exact Ga|]. split; [exact Gb|]. exact (proj1 (proj2 (ahead _ _ _ _ _ _ E Ga Gb))). }
      destruct (survivor k v' O1') as (w & x & v4 & G & Lv & Hx & G4 & Hf & L4 & Sp & B & Ep & _). destruct (survivor k2 v2' O2') as (w2 & y & v24 & G2 & Lv2 & Hy & G24 & Hf2 & L24 & Sp2 & B2 & Ep2 & _). rewrite Ep, Ep2.
      destruct (sorted_pairs _ _ Ss k k2 Hf Hf2) as [->|[(C & _)|(_ & C)]]; [congruence| |].
      - destruct C as (u & u2 & Gu & Gu2 & (A1 & A2 & A3) & (B1' & B2' & B3) & Jr). assert (u = v4) by congruence. assert (u2 = v24) by congruence. subst u u2. destruct (K_end d _ _ _ _ Hd A1 A2 Jr) as (Y & _). unfold rgap in Y. lra.
      - exfalso. destruct C as (u2 & u & Gu2 & Gu & Le2). destruct O1 as (Ga & Oa). destruct O2 as (Gb & Ob). unfold vehicle_at in *. assert (u = v) by congruence. assert (u2 = v2) by congruence. subst u u2.
        pose proof (fl_room _ F k k2 v v2 (conj Ga Oa) (conj Gb Ob) Nk Le) as Jr. destruct (fl_well _ F k v (conj Ga Oa)) as ((Cf & H1 & _) & _). destruct (fl_well _ F k2 v2 (conj Gb Ob)) as ((_ & H2 & _) & _).
        destruct (K_end d _ _ _ _ Hd (proj1 (fl_vel _ _ Ga)) ltac:(destruct Cf; lra) Jr) as (Y & _). change (road_gap s road v v2) with (rgap len v v2) in Y. unfold rgap in Y. lra.
    Qed.
  End Step.
End Road.
