(** * C74, C75: everybody on a road of several links gets to its end *)
From Coq Require Import List Bool ZArith NArith Arith Lia Reals Lra Sorting.Sorted Relation_Operators Operators_Properties.
From Verif Require Import Arith RealArith Base BaseProofs SlotMap Util Geom Light Accel Net Path Vehicle LinkOps Sim SpecSim SpecMotion SlotMapProofs Safe NetInv SimInv AccSafe SimSafe StepSafe OpSafe Evo StepEvo SimProofs StepProofs Ord LogProofs Motion RFacts NetEvo P_Motion P_Limit SpecNet SpecEnter SpecRoute SpecAhead P_Ahead P_Net P_Order P_Enter P_Exit P_Coord SpecGap GapKin GapProofs P_Gap StopProofs SpecQueue QueueProofs RouteProofs PlanProofs RouteEvo P_Route SpecCheap ArriveProofs WhereProofs SpecRoad RoadLists RoadProofs RoadKnow SpecArrive P_Road SpecClear RoadClear LightTime SpecLamp LampProofs.
Import ListNotations.
Local Open Scope R_scope.

Lemma sent_both ops (s : @sim RA) road k : sent_ahead ops s road k -> sent_along ops s road k.
Proof. intros (ops1 & e & s0 & s1 & ops2 & v0 & a & E & H1 & H & H2 & G0 & R0 & Ha & _ & Ho). exists ops1, e, s0, s1, ops2, v0, a. auto 10. Qed.
Lemma sent_may_leave ops (s : @sim RA) road k : groups_apart ops -> sent_ahead ops s road k -> may_leave s k.
Proof.
  intros Ap (ops1 & e & s0 & s1 & ops2 & v0 & a & Eo & H1 & H & H2 & G0 & R0 & Ha & Na & Ho). pose proof (history_reachable _ _ _ H1 (@reach_new RA)) as Rc0. pose proof (reach_call _ _ _ _ Rc0 H) as Rc1.
  destruct (dest_there _ _ _ _ _ H) as (v0' & v1 & _ & G1). assert (groups_apart ops1) as Ap1 by (rewrite Eo in Ap; exact (apart_app _ _ Ap)).
  destruct (dest_bound _ _ _ _ _ _ _ _ H1 Ap1 RA_cast H G0 G1) as (El & Er & Es & Ed & _).
  apply (history_may_leave s1 ops2 s k H2 Rc1); [intros o Hi; destruct (Ho o Hi) as (Q1 & Q2 & _); auto|exact (issued_mem _ _ _ G1)|].
  intros v Gv E. exfalso. unfold vehicle_at in *. assert (v = v1) by congruence. subst v. rewrite Er, R0 in E. unfold v_destination in E. rewrite Ed in E. cbn [last] in E. contradiction.
Qed.

Section Start.
  Variables L d m h : R.
  Variables road ks : list key.
  Hypothesis HL : 0 < L.
  Hypothesis Hd : 0 <= d.
  Variables (ops : list (@op RA)) (s : @sim RA).
  Hypothesis Hist : history (@sim_new RA) ops s.
  Hypothesis Fo : List.Forall (one_limit L d) ops.
  Hypothesis Ap : groups_apart ops.
  Hypothesis Sr : single_road (s_links s) road.
  Hypothesis F : flow L d m h road s.
  Hypothesis Ak : all_know L road ks s.
  Hypothesis Op : plain_roads s.
  Hypothesis Sn : sound_lights s.
  Hypothesis Opn : forall x, In x road -> opens s x.
  Hypothesis Ac : no_way_back (s_links s).
  Hypothesis Lg : forall x l, link_at s x = Some l -> h + 3 <= lk_length l.
  Hypothesis Ag : all_go road ops s.
  Let z := last road null_key.

  Lemma open_lanes : no_lanes s.
  Proof. intros x l G. destruct (Op x l G) as (_ & Q1 & Q2). auto. Qed.
  (** The links that lead to the end of the road are those of the road. *)
  Lemma next_mem x y : next_on road x y -> In x road /\ In y road.
  Proof. intros (pre & post & ->). split; apply in_or_app; right; [left|right; left]; reflexivity. Qed.
  Lemma leads_road b : road <> [] -> leads (s_links s) b z -> In b road.
  Proof.
    intros Ne Lb. apply clos_rt_rt1n in Lb. assert (In z road) as Hz. { assert (forall q, road = removelast road ++ [q] -> In q road) as X by (clear; intros q ->; apply in_or_app; right; left; reflexivity). apply X, app_removelast_last. exact Ne. }
    induction Lb as [|x y z' [Hs|(l & G & Hc)] _ IH]; [exact Hz| |].
    - specialize (IH Hz). apply (proj2 (proj2 Sr)) in Hs; [|right; exact IH]. apply (next_mem _ _ Hs).
    - exfalso. destruct (Op x l G) as (_ & _ & Q). rewrite Q in Hc. destruct Hc.
  Qed.
  Lemma next_one x y y2 : next_on road x y -> next_on road x y2 -> y2 = y.
  Proof.
    intros N1 N2. destruct Sr as (Nd & _). clear - Nd N1 N2. destruct N1 as (p1 & q1 & E1), N2 as (p2 & q2 & E2). revert p2 E2 Nd. rewrite E1. clear. induction p1 as [|u p1 IH]; intros [|w p2] E Nd; cbn [app] in *.
    - congruence.
    - exfalso. injection E as <- E. inversion Nd as [|? ? Nx _]; subst. apply Nx. rewrite E. apply in_or_app. right. left. reflexivity.
    - exfalso. injection E as -> E. inversion Nd as [|? ? Nx _]; subst. apply Nx. apply in_or_app. right. left. reflexivity.
    - injection E as _ E. inversion Nd; subst. eauto.
  Qed.
  Lemma has_bound (P : key -> R -> Prop) r : (forall a B B', P a B -> B <= B' -> P a B') -> (forall a, exists B, P a B) -> exists B, forall a, In a r -> P a B.
  Proof.
    intros Mo Ex. induction r as [|a r (B & HB)]; [exists 0; intros a []|]. destruct (Ex a) as (B1 & H1). exists (Rmax B1 B). intros b [<-|Hb]; eapply Mo; eauto; [apply Rmax_l|apply Rmax_r].
  Qed.
  Lemma starts k v : on_road s road k v -> exists B G, leaver L d m h road ks k B G /\ G s v.
  Proof.
    intros O. pose proof (Ak k v O) as Kn. destruct (Ag k v O) as (Fz & Sa). pose proof (sent_both _ _ _ _ Sa) as Se. destruct (fl_well _ _ _ _ _ _ F k v O) as (W & Wp). pose proof (kn_lane _ _ _ _ _ _ Kn) as Ln. pose proof (kn_in _ _ _ _ _ _ Kn) as Hk. pose proof (proj1 O) as G. destruct O as (_ & x & Lx & Hx). pose proof (Wp x Lx) as Px. assert (on_road s road k v) as O by (split; [exact G|eauto]).
    destruct (sent_know road ops s k v Hist Ap open_lanes Sr Se G) as (Dd & Pp & mt & Clo & Tr & Sou).
    destruct W as (Cf & Hl & _). destruct Cf as (C1 & C2 & _). pose proof (factor_one L d ops s k v Hist Fo G) as Sf.
    destruct (slow_exists v L) as (vs & Sl); [lra|exact C2|rewrite Sf; lra|].
    set (M := Rmax (3 / 10 + d) (Rmax (Rabs (s_acc_update s)) (Rabs (s_lc_update s)))).
    pose proof (Rmax_l (3 / 10 + d) (Rmax (Rabs (s_acc_update s)) (Rabs (s_lc_update s)))) as M3.
    pose proof (Rmax_r (3 / 10 + d) (Rmax (Rabs (s_acc_update s)) (Rabs (s_lc_update s)))) as M0.
    pose proof (Rmax_l (Rabs (s_acc_update s)) (Rabs (s_lc_update s))) as M1. pose proof (Rmax_r (Rabs (s_acc_update s)) (Rabs (s_lc_update s))) as M2.
    pose proof (Rle_abs (s_acc_update s)) as A1. pose proof (Rle_abs (- s_acc_update s)) as A2. rewrite Rabs_Ropp in A2.
    pose proof (Rle_abs (s_lc_update s)) as A3. pose proof (Rle_abs (- s_lc_update s)) as A4. rewrite Rabs_Ropp in A4. fold M in M0, M3.
    destruct (new_tame L d ops s HL Hd Hist Fo) as (_ & Tl & _).
    assert (forall y l, sm_get (s_links s) y = Some l -> v_half_len v + 3 <= lk_length l /\ L <= lk_limit l) as Room. { intros y l Gy. specialize (Lg y l Gy). rewrite (Tl _ _ Gy). lra. }
    assert (0 <= v_half_len v) as H0 by lra. assert (0 < max_acc v) as Ma by lra. assert (0 < speed_factor v) as Sf0 by (rewrite Sf; lra). assert (0 <= 0) as P0n by lra.
    set (Go := going k z (s_links s) mt v M 0).
    assert (forall e t dt t' w w', Go t w -> 0 <= dt <= d -> step e t dt = Ok t' -> vehicle_at t' k = Some w' -> Go t' w') as Kp.
    { intros e t dt t' w w' Gg Hdt H G'. destruct (vbase_link _ _ _ _ (st_veh _ _ _ (i_st _ (trip_Inv _ _ _ _ _ _ (g_trip _ _ _ _ _ _ _ _ _ Gg))) _ _ (j_at _ _ _ _ _ _ (g_trip _ _ _ _ _ _ _ _ _ Gg)))) as (a & La & _).
      apply (going_step k z (s_links s) mt v L vs d M 0 Ac Clo Sou Room H0 HL Ma C2 Sf0 Sl Hd P0n M3 e t dt t' w w' a Gg H G' La Hdt). }
    assert (road <> []) as Ne. { destruct O as (_ & y & _ & Hy). intros Q. rewrite Q in Hy. destruct Hy. }
    destruct (leaves_lights k z (s_links s) mt v L vs d M 0 (leading L d m h road ks k) s (fun x => In x road) Ac Clo Sou Room H0 HL Ma C2 Sf0 Sl Hd P0n M3) as (Gd & Gd1 & Gds & Lv).
    { intros e t dt t' w Ld Gg _ H. exact (leading_free L d m h road ks HL Hd k e t dt t' Ld (plain_net _ _ Op (j_net _ _ _ _ _ _ (g_trip _ _ _ _ _ _ _ _ _ Gg))) H). }
    { intros e t dt t' w w' Ld _ Hdt H G'. exact (leading_step L d m h road ks HL Hd k e t dt t' w' Ld Hdt H G'). }
    { exact Sn. }
    { intros b Mb. apply leads_road; [exact Ne|apply Sou; exact Mb]. }
    { exact Opn. }
    { intros a b c Sb Sc Mb Mc _. pose proof (leads_road b Ne (Sou b Mb)) as Hb. pose proof (leads_road c Ne (Sou c Mc)) as Hc. apply (next_one a b c); apply (proj2 (proj2 Sr)); auto. }
    destruct (has_bound (fun a B => forall t w, Gd t -> leading L d m h road ks k t -> Go t w -> v_link w = Some a -> forall dts t', history t (map (@OStep RA) dts) t' -> List.Forall (fun dt => 0 <= dt <= d) dts -> B <= total dts -> vehicle_at t' k = None) road) as (B & HB).
    - intros a B B' HB Le t w Q0 Q1 Q2 Q3 dts t' Q4 Q5 Q6. eapply HB; eauto. lra.
    - exact Lv.
    - exists B, (fun t w => Go t w /\ Gd t). split.
      + split; [intros e t dt t' w w' (Gg & Gt') _ Hdt H G'; split; [exact (Kp e t dt t' w w' Gg Hdt H G')|exact (Gds e t dt t' (trip_Inv _ _ _ _ _ _ (g_trip _ _ _ _ _ _ _ _ _ Gg)) Hdt H Gt')]|].
        intros t w dts t' Ld (_ & a & La & Ha) (Gg & Gt') Hh Fd Tb. exact (HB a Ha t w Gt' Ld Gg La dts t' Hh Fd Tb).
      + split; [|exact Gd1]. constructor; [|reflexivity|reflexivity|lra|lra|change (0 <= v_pos v); lra]. constructor; auto.
        * exists ops. auto.
        * apply same_net_refl.
        * apply plain_single. exact Op.
        * intros E. apply (sent_may_leave ops s road k Ap Sa v G). unfold v_destination. rewrite Dd. exact E.
  Qed.
  Lemma starts_all : exists todo, all_leave L d m h road ks todo /\ listed L d m h road ks todo s.
  Proof.
    assert (forall r, exists todo, all_leave L d m h road ks todo /\ forall k v, In k r -> on_road s road k v -> exists B G, In (k, (B, G)) todo /\ G s v) as X.
    { induction r as [|k r (todo & Al & Ls)]; [exists []; split; [intros k B G []|intros k v []]|]. destruct (on_road_dec road s k) as [(v & O)|N].
      - destruct (starts k v O) as (B & G & Lv & Hg). exists ((k, (B, G)) :: todo). split.
        + intros k2 B2 G2 [E|Hi]; [injection E as <- <- <-; exact Lv|exact (Al _ _ _ Hi)].
        + intros k2 v2 [<-|Hi] O2; [exists B, G; split; [left; reflexivity|]; assert (v2 = v) by (destruct O as (Q & _), O2 as (Q2 & _); congruence); subst; exact Hg|]. destruct (Ls k2 v2 Hi O2) as (B2 & G2 & Q1 & Q2). exists B2, G2. split; [right; exact Q1|exact Q2].
      - exists todo. split; [exact Al|]. intros k2 v2 [<-|Hi] O2; [exfalso; eauto|eauto]. }
    destruct (X ks) as (todo & Al & Ls). exists todo. split; [exact Al|]. split; [split; [exact F|split; [exact Ak|eauto]]|]. intros k v O. exact (Ls k v (kn_in _ _ _ _ _ _ (Ak k v O)) O).
  Qed.
End Start.

(** ** C75 *)
(** On a road as in C73 without conflicts, all whose links are open or have a traffic light that shows green from time to
    time, and all whose vehicles were sent to its end, there is a time within which all vehicles have left the simulation,
    whatever the lengths of the time steps. *)
Theorem C75_road_clears :
  forall L d m h road ks ops0 (s : @sim RA), 0 < L -> 0 <= d ->
    history (@sim_new RA) ops0 s -> List.Forall (one_limit L d) ops0 -> groups_apart ops0 -> single_road (s_links s) road ->
    good_traffic L d m h road ks ops0 s -> all_go road ops0 s ->
    plain_roads s -> sound_lights s -> (forall x, In x road -> opens s x) -> no_way_back (s_links s) -> (forall x l, link_at s x = Some l -> h + 3 <= lk_length l) ->
    exists T, forall dts s', List.Forall (fun dt => 0 <= dt <= d) dts -> T <= total dts -> history s (map (@OStep RA) dts) s' ->
      forall k v, on_road s road k v -> vehicle_at s' k = None.
Proof.
  intros L d m h road ks ops0 s HL Hd Hist Fo Ap Sr Gt Ag Op Sn Opn Ac Lg.
  destruct (begin L d m h road ks HL Hd ops0 s Hist Fo Ap (open_lanes s Op) Sr Gt) as (F & Ak).
  destruct (starts_all L d m h road ks HL Hd ops0 s Hist Fo Ap Sr F Ak Op Sn Opn Ac Lg Ag) as (todo & Al & Ls).
  exists (time_of d todo). intros dts s' Fd Tb Hh k v O. exact (clears L d m h road ks HL Hd (length todo) todo s dts s' (le_n _) Al Ls Fd Tb Hh k v O).
Qed.
Print Assumptions C75_road_clears.

(** ** C74 *)
(** The same on open roads without lights. *)
Theorem C74_road_clears :
  forall L d m h road ks ops0 (s : @sim RA), 0 < L -> 0 <= d ->
    history (@sim_new RA) ops0 s -> List.Forall (one_limit L d) ops0 -> groups_apart ops0 -> single_road (s_links s) road ->
    good_traffic L d m h road ks ops0 s -> all_go road ops0 s ->
    open_roads s -> no_lights s -> no_way_back (s_links s) -> (forall x l, link_at s x = Some l -> h + 3 <= lk_length l) ->
    exists T, forall dts s', List.Forall (fun dt => 0 <= dt <= d) dts -> T <= total dts -> history s (map (@OStep RA) dts) s' ->
      forall k v, on_road s road k v -> vehicle_at s' k = None.
Proof.
  intros L d m h road ks ops0 s HL Hd Hist Fo Ap Sr Gt Ag Op Nl Ac Lg. apply (C75_road_clears L d m h road ks ops0 s); auto.
  - apply open_plain. exact Op.
  - apply no_lights_sound. exact Nl.
  - intros x Hx. pose proof (proj1 (proj2 Sr) x Hx) as V. apply sm_mem_get in V. destruct V as (l & G). exact (open_opens s x l Op Nl G).
Qed.
Print Assumptions C74_road_clears.
