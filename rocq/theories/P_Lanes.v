(** * The simulation always goes on, with lanes beside each other (C65) *)
From Coq Require Import List Bool ZArith NArith Arith Lia Reals Lra.
From Verif Require Import Arith RealArith Base BaseProofs SlotMap Util Geom Light Accel Net Path Vehicle LinkOps Sim SpecSim SpecMotion SlotMapProofs Safe NetInv SimInv AccSafe SimSafe StepSafe OpSafe Evo StepEvo SimProofs StepProofs NetEvo RFacts LineProofs RaExample SpecRoute P_Lane RouteProofs RouteEvo P_Motion P_Coord SpecTable P_Table P_Net P_Route EndsProofs P_Ends ProgProofs SpecProg P_Prog P_QueueEx P_Road P_RoadEx LocCall.
Import ListNotations.
Local Open Scope R_scope.

(** All links that are in a group are straight. *)
Definition straight_groups (s : @sim RA) : Prop :=
  forall k l, link_at s k = Some l -> lk_group l <> None -> exists a u, unit u /\ straight (lk_curve l) a u.

Lemma straight_cause ops (s : @sim RA) dt p : history (@sim_new RA) ops s -> groups_apart ops -> straight_groups s -> positive_roads s -> good_lights s -> small_costs s -> ~ cause s (@OStep RA dt) p.
Proof.
  intros Hh Ap Sg Pr Li Co [C|(k & l & G & C)].
  - assert (@reachable RA s) as Rc by exact (history_reachable _ _ _ Hh (@reach_new RA)).
    assert (forall a b, chg_of (s_links s) a b -> exists la ga lb, link_at s a = Some la /\ lk_group la = Some ga /\ In b (g_links ga) /\ link_at s b = Some lb /\ lk_group lb <> None) as Chg.
    { intros a b Hc. pose proof (proj1 (chg_iff ops s _ Hh (same_net_refl _) a b) Hc) as (Va & ids & mask & Hin & St). destruct (lane_step_in _ _ _ _ St) as (Ia & Ib).
      destruct (chg_valid ops s _ Hh (same_net_refl _) a b Hc) as (_ & Vb). unfold valid in Va, Vb. apply sm_mem_get in Va, Vb. destruct Va as (la & Ga). destruct Vb as (lb & Gb).
      destruct (lk_group la) as [ga|] eqn:Eg; [|exfalso; exact (no_group ops s _ Hh (same_net_refl _) a la Ga Eg ids mask Hin Ia)].
      destruct (group_call ops s _ Hh (same_net_refl _) a la ga Ga Eg) as (Hg & Ha & _). destruct (apart_group ops ids mask _ _ a Ap Hin Hg Ia Ha) as (E1 & _).
      exists la, ga, lb. split; [exact Ga|]. split; [exact Eg|]. split; [rewrite <- E1; exact Ib|]. split; [exact Gb|]. intros Eb. exact (no_group ops s _ Hh (same_net_refl _) b lb Gb Eb ids mask Hin Ib). }
    destruct p; simpl in C; try contradiction.
    + destruct C as (k & l & g & G & Eg & N). apply N. destruct (group_call ops s _ Hh (same_net_refl _) k l g G Eg) as (Hg & _). exact (apart_nodup ops _ _ Ap Hg).
    + destruct C as (k & l & x & G & Hin & C). destruct (Chg k x) as (la & ga & lb & Ga & Eg & Ix & _); [exists l; auto|]. unfold link_at in Ga. assert (la = l) by congruence. subst la. rewrite Eg in C. exact (C Ix).
    + destruct C as (a & b & Hc & l & point & dir & G & Nf). destruct (Chg a b Hc) as (_ & _ & lb & _ & _ & _ & Gb & Eb). unfold link_at in Gb. assert (lb = l) by congruence. subst lb.
      destruct (Sg b l G Eb) as (c & u & U & Sc). destruct (C36_straight (lk_curve l) c u point dir U Sc) as (slope & E & _). congruence.
    + destruct C as (x & N). discriminate N.
    + destruct C as (k & l & g & q & G & Eg & Hq & N). destruct (C67_table s k l g q Rc G Eg Hq) as (src & dst & Gs & Gd & _ & T). rewrite N in T. cbn [length] in T. destruct (Pr _ _ Gs) as (Ls & _).
      assert (lk_group dst <> None) as Ed.
      { intros Ed. destruct (group_call ops s _ Hh (same_net_refl _) k l g G Eg) as (Hg & _). apply (no_group ops s _ Hh (same_net_refl _) _ dst Gd Ed _ _ Hg).
        destruct (lo_group _ _ _ (nk_link _ (st_net _ _ _ (i_st _ (reachable_Inv _ Rc))) _ _ G) _ Eg) as (GO & _). pose proof (go_projs _ _ GO) as F2.
        assert (forall (ab : list (key * key)) ps, Forall2 (fun sd p => pj_src p = fst sd /\ pj_dst p = snd sd) ab ps -> In q ps -> exists x, In (x, pj_dst q) ab) as X.
        { clear. induction 1 as [|[x y] p0 ab ps (E1 & E2) _ IH]; intros [].
          - subst. exists x. left. cbn in E2. congruence.
          - destruct (IH H) as (z & Hz). exists z. right. exact Hz. }
        destruct (X _ _ F2 Hq) as (x & Hx). unfold pairs in Hx. apply filter_In in Hx. destruct Hx as (Hx & _). apply in_prod_iff in Hx. apply Hx. }
      destruct (Sg _ _ Gd Ed) as (c & u & U & Sc). rewrite (straight_found dst c u) in T by auto. destruct T as [T|T]; [|discriminate T]. apply ltb_R_false in T. rewrite mark_R in T. cbn [INR] in T. lra.
    + destruct C as (k & l & G & [N|N]); [|pose proof (Co k l G); lia]. pose proof (costs_ok ops s Hh RA_cast _ (same_net_refl _) k l G). lia.
  - destruct (Li k l G) as (L1 & L2 & L3). destruct p; try contradiction; [|lia]. destruct C as (lid & Hin & N). apply (L3 lid Hin). unfold link_at. unfold valid, sm_mem in N. destruct (sm_get (s_links s) lid); [exfalso; apply N|]; reflexivity.
Qed.

Lemma straight_keeps (s : @sim RA) e dt s' : reachable s -> step e s dt = Ok s' -> positive_roads s -> straight_groups s -> good_lights s -> small_costs s ->
  positive_roads s' /\ straight_groups s' /\ good_lights s' /\ small_costs s'.
Proof.
  intros Rc H P Sg Li Co. pose proof (reachable_Inv _ Rc) as Iv. pose proof (step_same_net _ _ _ _ Iv H) as Sn.
  assert (forall k l, link_at s' k = Some l -> exists l0, link_at s k = Some l0 /\ lk_static l0 = lk_static l) as K. { intros k l G. exact (same_net_get _ _ _ _ Sn G). }
  split; [|split; [|split]].
  - intros k l G. destruct (K k l G) as (l0 & G0 & E). unfold lk_static in E. injection E as F1 F2 F3 F4 F5 F6 F7 F8 F9. specialize (P k l0 G0). unfold lk_length in *. congruence.
  - intros k l G Ng. destruct (K k l G) as (l0 & G0 & E). unfold lk_static in E. injection E as F1 F2 F3 F4 F5 F6 F7 F8 F9. destruct (Sg k l0 G0) as (a & u & X); [congruence|]. exists a, u. congruence.
  - intros k l G. destruct (step_lights _ _ _ _ _ _ Iv H G) as (l0 & G0 & E). destruct (light_step_static _ _ _ E) as (E1 & E2 & E3). destruct (Li k l0 G0) as (L1 & L2 & L3). rewrite E1, E2, E3. split; [exact L1|]. split; [exact L2|].
    intros lid Hin. specialize (L3 lid Hin). unfold link_at in *. pose proof (same_net_valid _ _ lid Sn) as V. unfold valid, sm_mem in V. destruct (sm_get (s_links s) lid); [|contradiction]. destruct (sm_get (s_links s') lid); [discriminate|]. destruct V as (V & _). discriminate (V eq_refl).
  - intros k l G. destruct (K k l G) as (l0 & G0 & E). unfold lk_static in E. injection E as F1 F2 F3 F4 F5 F6 F7 F8 F9. rewrite <- F9, <- (shape_keys _ _ (sn_shape _ _ Sn)). exact (Co k l0 G0).
Qed.

(** Straight roads with any number of lanes, between which vehicles change, always go on, if no link is in two groups. *)
Theorem C65_lanes_go_on :
  forall (dts : list R) ops (s : @sim RA) pick, history (@sim_new RA) ops s -> groups_apart ops -> straight_groups s -> positive_roads s -> good_lights s -> small_costs s ->
    exists n s', forall fuel, (n <= fuel)%nat -> run (Env fuel pick) s (map (@OStep RA) dts) = Ok s'.
Proof.
  induction dts as [|dt dts IH]; intros ops s pick Hh Ap Sg P Li Co; [exists 0%nat, s; reflexivity|].
  assert (@reachable RA s) as Rc by exact (history_reachable _ _ _ Hh (@reach_new RA)).
  destruct (C65_step_ends s dt pick Rc P) as (n & r & Hr & H). destruct r as [s1|p|]; [| |contradiction].
  2: { exfalso. apply (straight_cause ops s dt p Hh Ap Sg P Li Co). eapply safe_panic; [apply (exec_safe (Env n pick) s (@OStep RA dt)), reachable_Inv; exact Rc|exact (H n (le_n _))]. }
  pose proof (H n (le_n _)) as H1. destruct (straight_keeps s _ dt s1 Rc H1 P Sg Li Co) as (P1 & Sg1 & Li1 & Co1).
  destruct (IH (ops ++ [@OStep RA dt]) s1 pick) as (m & s' & Hm); auto.
  { eapply history_app; [exact Hh|]. econstructor; [exact H1|constructor]. }
  { apply apart_more; [exact Ap|]. intros o [<-|[]]. reflexivity. }
  exists (Nat.max n m), s'. intros fuel L. cbn [map run exec]. rewrite (H fuel) by lia. cbn [bind]. apply Hm. lia.
Qed.
Print Assumptions C65_lanes_go_on.

(** ** A concrete case *)
Definition only_one : key := Key 1 1.
(** A road with two lanes, 3 m from each other, between which vehicles may change in both directions; only the second lane goes on.  The car on the first lane is sent to the link after the second one. *)
Definition lane_a : key := Key 1 1.
Definition lane_b : key := Key 2 1.
Definition goal : key := Key 3 1.
Definition line_at (x y : R) : @curve RA := @ls_curve RA (@LineSeg RA (@Pt RA x y) (@Pt RA 1 0) 30).
Definition lanes_ops : list (@op RA) := [OAddLink (line_at 0 0) 10; OAddLink (line_at 0 3) 10; OAddLink (line_at 30 3) 10; OAddGroup [lane_a; lane_b] 15; OAddConnection lane_b goal; OAddVehicle ra_car lane_a].
Lemma lanes_ok : exists (s : @sim RA) (l1 l2 l3 : @link RA) (v : @vehicle RA), run ra_env (@sim_new RA) lanes_ops = Ok s /\ sm_keys (s_links s) = [lane_a; lane_b; goal] /\ link_at s lane_a = Some l1 /\ link_at s lane_b = Some l2 /\ link_at s goal = Some l3 /\
  lk_changes l1 = [lane_b] /\ lk_changes l2 = [lane_a] /\ lk_out l1 = [] /\ lk_out l2 = [goal] /\
  straight (lk_curve l1) (@Pt RA 0 0) (@Pt RA 1 0) /\ straight (lk_curve l2) (@Pt RA 0 3) (@Pt RA 1 0) /\ lk_group l3 = None /\
  List.Forall (fun (l : @link RA) => (lk_limit l : R) = 10 /\ 29 < lk_length l <= 30 /\ lk_cost l = link_cost (lk_length l) 10) [l1; l2; l3] /\
  sm_keys (s_lights s) = [] /\ vehicle_at s only_one = Some v /\ v_link v = Some lane_a.
Proof.
  assert (unit (@Pt RA 1 0)) as U by (unfold unit; cbn; lra).
  assert (121 < INR 200) as F by (rewrite INR_IZR_INZ; cbn -[IZR]; apply IZR_lt; reflexivity).
  destruct (line_curve (@Pt RA 0 0) (@Pt RA 1 0) 30 U 200) as (lc & Hlc & H1 & H2 & H3 & H4); [lra|lra|].
  destruct (line_curve (@Pt RA 0 3) (@Pt RA 1 0) 30 U 200) as (ld & Hld & J1 & J2 & J3 & J4); [lra|lra|].
  destruct (line_curve (@Pt RA 30 3) (@Pt RA 1 0) 30 U 200) as (le & Hle & K1 & K2 & K3 & K4); [lra|lra|].
  assert (30 <= 2 * INR (0 + 199)) as F1 by (rewrite INR_IZR_INZ; cbn -[IZR]; lra).
  destruct (samples_end lc ld _ _ U J4 199 0 (@n0 RA)) as (t1 & T1); [lra|]. destruct (samples_end ld lc _ _ U H4 199 0 (@n0 RA)) as (t2 & T2); [lra|].
  cbn [run lanes_ops exec]. unfold add_link. cbn [e_fuel ra_env]. unfold link_new at 1 2 3. unfold line_at. rewrite Hlc, Hld, Hle. cbn [bind fst].
  unfold add_link_group, upd_link, get_link. cbn -[link_cost sample_centre add_vehicle add_link_connection proj_samples group_new].
  unfold group_new. cbn -[link_cost sample_centre add_vehicle add_link_connection proj_samples]. unfold mk_projection. cbn [lk_curve lk_id]. rewrite T1, T2. cbn -[link_cost sample_centre add_vehicle add_link_connection].
  unfold add_link_connection, upd_link, get_link. cbn -[link_cost sample_centre add_vehicle].
  unfold add_vehicle, set_location, set_origin, upd_link, get_link. cbn -[link_cost sample_centre update_coords insert_vehicle].
  unfold update_coords. cbn -[link_cost sample_centre vsub rot90 calc_direction vadd long_offset nmin nmax dot insert_vehicle].
  unfold insert_vehicle. cbn -[link_cost sample_centre vsub rot90 calc_direction vadd long_offset nmin nmax dot].
  eexists _, _, _, _, _. split; [reflexivity|]. cbn -[link_cost sample_centre vsub rot90 calc_direction vadd long_offset nmin nmax dot straight].
  do 8 (split; [reflexivity|]). split; [exact H4|]. split; [exact J4|]. split; [reflexivity|]. split; [|repeat split].
  repeat (apply List.Forall_cons; [repeat (split; [first [reflexivity|unfold lk_length; cbn [lk_curve set_vehicles add_link_in add_link_out]; lra]|]); reflexivity|]). apply List.Forall_nil.
Qed.

(** The hypotheses hold, and the car is sent to the link after the other lane, which it can only reach by a lane change. *)
Example C65_lanes_example :
  exists (s : @sim RA) (l1 l2 : @link RA) (v : @vehicle RA), history (@sim_new RA) (lanes_ops ++ [OSetDestination only_one goal]) s /\
    link_at s lane_a = Some l1 /\ lk_changes l1 = [lane_b] /\ lk_out l1 = [] /\ link_at s lane_b = Some l2 /\ lk_out l2 = [goal] /\
    vehicle_at s only_one = Some v /\ v_link v = Some lane_a /\ v_destination v = goal /\
    groups_apart (lanes_ops ++ [OSetDestination only_one goal]) /\ straight_groups s /\ positive_roads s /\ good_lights s /\ small_costs s /\
    forall dts pick, exists n s', forall fuel, (n <= fuel)%nat -> run (Env fuel pick) s (map (@OStep RA) dts) = Ok s'.
Proof.
  destruct lanes_ok as (s & l1 & l2 & l3 & v & Hs & Ks & G1 & G2 & G3 & C1 & C2 & O1 & O2 & T1 & T2 & Ng & Ro & Kl & Gv & Lv).
  pose proof (run_history _ _ _ _ Hs) as Hh. assert (@reachable RA s) as Rc by exact (history_reachable _ _ _ Hh (@reach_new RA)).
  assert (forall k l, link_at s k = Some l -> l = l1 \/ l = l2 \/ l = l3) as Three.
  { intros k l G. assert (In k (sm_keys (s_links s))) as Hk by (apply in_keys; unfold valid; apply sm_mem_get; eauto). rewrite Ks in Hk. destruct Hk as [<-|[<-|[<-|[]]]]; [left|right; left|right; right]; congruence. }
  assert (forall k l, link_at s k = Some l -> (lk_limit l : R) = 10 /\ 29 < lk_length l <= 30 /\ lk_cost l = link_cost (lk_length l) 10) as Rd.
  { intros k l G. rewrite List.Forall_forall in Ro. apply Ro. destruct (Three k l G) as [->|[->| ->]]; cbn; auto. }
  assert (small_costs s) as Co.
  { intros k l G. destruct (Rd k l G) as (_ & B & ->). rewrite Ks. cbn [length]. pose proof (road_cost (lk_length l)) as Q. unfold link_cost in *. unR.
    assert (Raux.Ztrunc (10 * lk_length l / 10) <= 60)%Z. { rewrite Raux.Ztrunc_floor by lra. apply Z.lt_succ_r. apply lt_IZR. eapply Rle_lt_trans; [apply Raux.Zfloor_lb|]. cbn. lra. }
    change (@ncast RA usize_max (10 * lk_length l / 10)) with (Z.max 0 (Z.min usize_max (Raux.Ztrunc (10 * lk_length l / 10)))). unfold usize_max. lia. }
  destruct (C65_destination_returns s only_one goal (e_pick ra_env) Rc Co) as (n & s1 & H1); [congruence|congruence|]. specialize (H1 n (le_n _)).
  assert (history (@sim_new RA) (lanes_ops ++ [OSetDestination only_one goal]) s1) as Hh1. { eapply history_app; [exact Hh|]. econstructor; [exact H1|constructor]. }
  cbn [exec] in H1. unfold set_vehicle_destination, get_vehicle in H1. unfold vehicle_at in Gv. rewrite Gv in H1. cbn [of_option bind] in H1. destruct (set_destination _ _ v goal) as [w|p|] eqn:Ew; [|discriminate H1|discriminate H1]. cbn [bind] in H1. injection H1 as <-.
  assert (v_link w = v_link v /\ v_destination w = goal) as (Ew1 & Ew2).
  { unfold set_destination in Ew. destruct (pf_set_destination _ _ (v_pathfind v) goal) as [pf|p|] eqn:Ep; [|discriminate Ew|discriminate Ew]. cbn [bind] in Ew. injection Ew as <-. split; [reflexivity|]. apply (dest_kept _ _ _ _ Ep). }
  eexists _, l1, l2, w. split; [exact Hh1|].
  do 5 (split; [assumption|]). split; [cbn [s_vehicles with_vehicles vehicle_at]; unfold vehicle_at; cbn [s_vehicles with_vehicles]; rewrite sm_get_set, key_eqb_refl; unfold sm_mem; rewrite Gv; reflexivity|].
  split; [congruence|]. split; [exact Ew2|].
  assert (groups_apart (lanes_ops ++ [OSetDestination only_one goal])) as Ap.
  { unfold groups_apart. cbn. constructor; [intros [E|[]]; discriminate E|]. constructor; [intros []|constructor]. }
  split; [exact Ap|].
  match goal with |- straight_groups ?x /\ _ => assert (straight_groups x /\ positive_roads x /\ good_lights x /\ small_costs x) as (Q1 & Q2 & Q3 & Q4) end.
  { split; [|split; [|split]].
    - intros k l G Nn. destruct (Three k l G) as [->|[->| ->]]; [exists (@Pt RA 0 0), (@Pt RA 1 0)|exists (@Pt RA 0 3), (@Pt RA 1 0)|contradiction]; (split; [unfold unit; cbn; lra|assumption]).
    - intros k l G. destruct (Rd k l G) as (E & B & _). split; lra.
    - intros k x G. assert (In k (sm_keys (s_lights s))) as Hk by (apply in_keys; unfold valid; apply sm_mem_get; eauto). rewrite Kl in Hk. destruct Hk.
    - exact Co. }
  do 4 (split; [assumption|]). intros dts pick. eapply C65_lanes_go_on; eassumption.
Qed.
