(** * Signs that nobody can pass (C82) *)
From Coq Require Import List Bool ZArith NArith Arith Lia Reals Lra.
From Verif Require Import Arith RealArith Base BaseProofs SlotMap Util Geom Light Accel Net Path Vehicle LinkOps Sim SpecSim SpecMotion SlotMapProofs Safe NetInv SimInv AccSafe SimSafe StepSafe OpSafe Evo StepEvo SimProofs StepProofs Ord LogProofs Motion RFacts NetEvo P_Motion P_Limit SpecLamp ArriveProofs LampProofs SpecEnter P_Enter P_Exit SpecGap GapKin GapProofs StopProofs P_Gap SpecProg P_Prog SpecQueue QueueProofs P_Queue.
Import ListNotations.
Local Open Scope R_scope.

Lemma shut_step L d lid ks (e : @env RA) (s : @sim RA) (dt : R) s' : 0 < L -> 0 <= d -> queue L d lid ks s -> shut_end lid s -> none_registered lid s -> 0 <= dt <= d -> step e s dt = Ok s' ->
  queue L d lid ks s' /\ none_registered lid s'.
Proof.
  intros HL Hd Q Se Nr Hdt H. assert (queue L d lid ks s') as Q' by (apply (queue_step L d lid HL Hd ks e s (@OStep RA dt) s' Q); [right; auto|exact Hdt|exact H]). split; [exact Q'|].
  pose proof Q as ((ops & Hh & _) & Pos & Nw & l & Gl & El & Wv & _). assert (@reachable RA s) as Rc by exact (history_reachable _ _ _ Hh (@reach_new RA)). pose proof (reachable_Inv _ Rc) as I.
  pose proof Q' as ((ops' & Hh' & _) & _ & _ & l' & Gl' & El' & _). assert (@reachable RA s') as Rc' by exact (history_reachable _ _ _ Hh' (@reach_new RA)). pose proof (reachable_Inv _ Rc') as I'.
  unfold link_at, vehicle_at in *. intros k v' G' Lv'. unfold vehicle_at in *.
  assert (In k ks) as Hk. { rewrite <- El'. destruct (st_occ _ _ _ (i_st _ I') _ _ Gl') as (_ & Oc). apply Oc. unfold at_of. rewrite G'. exact Lv'. }
  assert (exists v, sm_get (s_vehicles s) k = Some v /\ v_link v = Some lid) as (v & G & Lv).
  { pose proof Hk as Hk'. rewrite <- El in Hk'. destruct (st_occ _ _ _ (i_st _ I) _ _ Gl) as (_ & Oc). apply Oc in Hk'. unfold at_of in Hk'. destruct (sm_get (s_vehicles s) k) as [v|]; [eauto|discriminate Hk']. }
  destruct (v_queued v') as [q|] eqn:Eq; [exfalso|reflexivity].
  destruct (C23_queued RA e s dt s' k v v' q Rc (C23_lengths_exact s Pos) H G G' (Nr k v G Lv) Eq) as (s1 & v1 & x & H1 & G1 & Nx & _ & lx & dist & must & prio & p & Gx & Cx & _ & Ep & Lt & _).
  unfold link_at, vehicle_at in *. destruct (step_phases _ _ _ _ I H) as (t1 & s2 & s3 & s4 & s5 & P). assert (t1 = s1) by (pose proof (ph1 _ _ _ _ _ _ _ _ _ P); congruence). subst t1.
  pose proof (pn1 _ _ _ _ _ _ _ _ _ P) as Sn1. pose proof (ps1 _ _ _ _ _ _ _ _ _ P) as St1.
  destruct (lane_changes_evo _ _ _ (i_st _ I) H1 _ _ G1) as (v0 & G0 & (B & M & Re)). assert (v0 = v) by congruence. subst v0.
  assert (Rstay v v1) as (E1 & E2 & _ & _). { destruct M as [M|M]; [exact M|exfalso]. destruct M as (a & b & La & Lb & Hc & _). assert (a = lid) by congruence. subst a. exact (proj2 (proj2 (Nw b)) Hc). }
  pose proof (st_veh _ _ _ St1 _ _ G1) as Vb. pose proof (vb_ent _ _ _ _ Vb) as En. pose proof (vb_chain _ _ _ _ Vb) as Ch.
  assert (forall y, succ_of (s_links s1) lid y -> succ_of (s_links s) lid y) as Su.
  { intros y (ly & Gy & Iy). destruct (same_net_get _ _ _ _ Sn1 Gy) as (l0 & Gz & Es). exists l0. split; [exact Gz|]. unfold lk_static in Es. inversion Es. congruence. }
  rewrite <- E1 in Lv. unfold v_link in Lv. destruct (v_route v1) as [|a r] eqn:Er; [discriminate Lv|]. cbn in Lv. injection Lv as ->.
  assert (v_entered v1 = 1%nat) as N1.
  { destruct (v_entered v1) as [|[|n]] eqn:E; [lia|reflexivity|exfalso]. destruct r as [|y r]; [cbn [length] in En; lia|]. cbn [chain] in Ch. destruct Ch as (_ & Sy & _). apply Su in Sy.
    assert (y <> lid) as Ny by (intros ->; exact (proj1 (Nw lid) Sy)).
    destruct (Re y) as [Z|Z]; [rewrite E, Er; cbn; auto|unfold v_link in Z; rewrite Er in Z; cbn in Z; congruence|].
    destruct (Wv k Hk) as (w & Gw & _ & _ & W1 & _). assert (w = v) by congruence. subst w. rewrite W1 in Z. symmetry in E1. unfold v_link in E1. rewrite Er in E1. destruct (v_route v) as [|b r']; [discriminate E1|]. cbn in E1, Z. injection E1 as ->. destruct Z as [Z|[]]. congruence. }
  destruct (Ep N1) as (self & ls & La & Gs & ->). unfold last_entered in La. rewrite N1, Er in La. cbn in La. injection La as <-.
  destruct (same_net_get _ _ _ _ Sn1 Gs) as (l0 & Gz & Es). assert (l0 = l) by congruence. subst l0. assert (lk_length ls = lk_length l) as Len by (unfold lk_static in Es; inversion Es; unfold lk_length; congruence).
  assert (succ_of (s_links s) lid x) as Sx.
  { apply Su. unfold next_link in Nx. rewrite N1, Er in Nx. cbn in Nx. destruct r as [|y r]; [discriminate Nx|]. cbn in Nx. injection Nx as ->. cbn [chain] in Ch. apply Ch. }
  destruct (Se x Sx) as (l0 & Gx0 & Cx0). unfold link_at in Gx0. pose proof (lane_changes_ctl _ _ _ x H1) as Ct. unfold ctl in Ct. rewrite Gx0, Gx in Ct. cbn in Ct. injection Ct as Ct.
  destruct Cx0 as [Cx0|(dist' & m' & p' & Cx0 & Hdist)]; [congruence|]. assert (dist' = dist) by congruence. subst dist'.
  pose proof (queue_end L d lid (set_vehicles l ks) s Hd Q) as (l2 & Gl2 & _ & Fr & _). destruct (Fr k Hk) as (w & Gw & _ & Le). unfold link_at, vehicle_at in *. assert (w = v) by congruence. assert (l2 = l) by congruence. subst w l2.
  apply ltb_R in Lt. assert (pos_front v1 = pos_front v) as Ef. { unfold pos_front. rewrite E2. unfold body in B. injection B as _ _ B3 _ _ _ _ _ _ _. rewrite B3. reflexivity. }
  rewrite Ef, Len in Lt. revert Lt. change (@nneg RA dist) with (- dist). change (@nsub RA (pos_front v) (lk_length l)) with (pos_front v - lk_length l). lra.
Qed.

(** As long as every way on from the link is closed or has a give-way or stop sign at which one has to wait at the line or beyond it,
    none of the vehicles on the link passes it: none is ever registered as waiting. *)
Theorem C82_sign_at_the_line :
  forall L d ops0 s ops s' lid l, 0 < L -> 0 <= d -> history (@sim_new RA) ops0 s -> Forall (one_limit L d) ops0 ->
    throughout (shut_end lid) (short_step d) s ops s' ->
    (forall k l, link_at s k = Some l -> 0 < lk_length l) -> no_way_in s lid -> link_at s lid = Some l -> none_registered lid s ->
    (forall k v, In k (lk_vehicles l) -> vehicle_at s k = Some v -> waits_well L d lid v) ->
    (forall k k2 v v2, right_behind l k k2 -> vehicle_at s k = Some v -> vehicle_at s k2 = Some v2 -> room_to_react (max_acc v) d (v_vel v) (v_vel v2) (gap v v2)) ->
    (forall k v, first_on l k -> vehicle_at s k = Some v -> room_to_react (max_acc v) d (v_vel v) 0 (room_left l v)) ->
    still_queued lid l s' /\ none_registered lid s'.
Proof.
  intros L d ops0 s ops s' lid l HL Hd Hh Fo T Pos Nw Gl Nr Wv Pk Lk.
  pose proof (queue_start L d lid ops0 s l HL Hd Hh Fo Pos Nw Gl Wv Pk Lk) as Q. assert (queue L d lid (lk_vehicles l) s' /\ none_registered lid s') as (Q' & Nr').
  { clear -T Q Nr HL Hd. induction T as [s C|e s o s1 ops s' C So H T IH]; [auto|]. destruct o; try contradiction. cbn [exec short_step] in *. destruct (shut_step L d lid _ e s _ s1 HL Hd Q C Nr So H) as (Q1 & N1). apply IH; auto. }
  split; [|exact Nr']. apply (queue_end L d); auto.
Qed.
Print Assumptions C82_sign_at_the_line.

(** If no traffic light controls these links nothing else is needed: every number of steps can be made, and nobody ever passes. *)
Theorem C82_for_ever :
  forall L d ops0 s (dts : list R) pick lid l, 0 < L -> 0 <= d -> history (@sim_new RA) ops0 s -> Forall (one_limit L d) ops0 -> Forall (fun dt => 0 <= dt <= d) dts ->
    positive_roads s -> plain_groups s -> good_lights s -> small_costs s ->
    no_way_in s lid -> link_at s lid = Some l -> shut_end lid s -> (forall x, succ_of (s_links s) lid x -> ~ controlled s x) -> none_registered lid s ->
    (forall k v, In k (lk_vehicles l) -> vehicle_at s k = Some v -> waits_well L d lid v) ->
    (forall k k2 v v2, right_behind l k k2 -> vehicle_at s k = Some v -> vehicle_at s k2 = Some v2 -> room_to_react (max_acc v) d (v_vel v) (v_vel v2) (gap v v2)) ->
    (forall k v, first_on l k -> vehicle_at s k = Some v -> room_to_react (max_acc v) d (v_vel v) 0 (room_left l v)) ->
    exists n s', (forall fuel, (n <= fuel)%nat -> run (Env fuel pick) s (map (@OStep RA) dts) = Ok s') /\ still_queued lid l s'.
Proof.
  intros L d ops0 s dts pick lid l HL Hd Hh Fo Fd Pr Gr Li Co Nw Gl Se Un Nr Wv Pk Lk.
  assert (@reachable RA s) as Rc by exact (history_reachable _ _ _ Hh (@reach_new RA)).
  destruct (C65_goes_on dts s pick Rc Pr Gr Li Co) as (n & s' & H). exists n, s'. split; [exact H|]. specialize (H n (le_n _)).
  refine (proj1 (C82_sign_at_the_line L d ops0 s (map (@OStep RA) dts) s' lid l HL Hd Hh Fo _ _ Nw Gl Nr Wv Pk Lk)); [|intros k x G; apply (Pr k x G)].
  clear -H Fd Rc Se Un. revert s Rc H Se Un. induction dts as [|dt dts IH]; intros s Rc H Se Un; cbn [map run] in H.
  - injection H as <-. constructor. exact Se.
  - bok H s1 H1. inversion Fd as [|? ? Fdt Fr]; subst. econstructor; [exact Se|exact Fdt|exact H1|]. pose proof (reachable_Inv _ Rc) as I. pose proof (reach_call _ _ _ _ Rc H1) as Rc1. cbn [exec] in H1. pose proof (step_same_net _ _ _ _ I H1) as Sn.
    assert (forall x, succ_of (s_links s1) lid x -> succ_of (s_links s) lid x) as Su.
    { intros y (ly & Gy & Iy). destruct (same_net_get _ _ _ _ Sn Gy) as (l0 & Gz & Es). exists l0. split; [exact Gz|]. unfold lk_static in Es. inversion Es. congruence. }
    apply (IH Fr s1); auto.
    + intros x Sx. pose proof (Su x Sx) as Sx0. destruct (Se x Sx0) as (lx & Gx & Cx). assert (valid (s_links s1) x) as V by (apply (same_net_valid _ _ _ Sn); apply sm_mem_get; eauto). unfold valid in V. apply sm_mem_get in V. destruct V as (lx1 & Gx1). exists lx1. split; [exact Gx1|].
      assert (ctl (s_links s1) x = ctl (s_links s) x) as E. { apply (step_others _ _ _ _ x I H1). intros k lt i G Hi. apply (Un x Sx0). exists k, lt, i. split; assumption. }
      unfold ctl in E. unfold link_at in Gx. rewrite Gx, Gx1 in E. cbn in E. injection E as ->. exact Cx.
    + intros x Sx (kl & lt' & i & G & Hi). destruct (step_lights _ _ _ _ _ _ I H1 G) as (lt & G0 & Hl). destruct (light_same _ _ _ Hl) as (_ & _ & E). apply (Un x (Su x Sx)). exists kl, lt, i. split; [exact G0|]. unfold controls in *. rewrite <- E. exact Hi.
Qed.
Print Assumptions C82_for_ever.
