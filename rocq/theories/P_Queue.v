(** * Queues (C66) *)
From Coq Require Import List Bool ZArith NArith Arith Lia Reals Lra.
From Verif Require Import Arith RealArith Base BaseProofs SlotMap Util Geom Light Accel Net Path Vehicle LinkOps Sim SpecSim SpecMotion SlotMapProofs Safe NetInv SimInv AccSafe SimSafe StepSafe OpSafe Evo StepEvo SimProofs StepProofs Ord LogProofs Motion RFacts NetEvo P_Motion P_Limit SpecEnter P_Enter P_Exit SpecGap GapKin GapProofs StopProofs P_Gap SpecProg P_Prog SpecQueue QueueProofs.
Import ListNotations.
Local Open Scope R_scope.

Lemma kept_gap L d lid ks (s : @sim RA) : 0 <= d -> queue L d lid ks s -> forall l, link_at s lid = Some l ->
  (forall k v, In k ks -> vehicle_at s k = Some v -> 0 < v_half_len v) /\
  (forall k k2 v v2, right_behind l k k2 -> vehicle_at s k = Some v -> vehicle_at s k2 = Some v2 -> 0 <= gap v v2) /\
  (forall k v, first_on l k -> vehicle_at s k = Some v -> 0 <= room_left l v).
Proof.
  intros Hd (_ & _ & _ & l0 & Gl & El & Wv & Pk & Lk) l Gl0. unfold link_at, vehicle_at in *. assert (l0 = l) by congruence. subst l0. split; [|split].
  - intros k v Hk G. destruct (Wv k Hk) as (w & Gw & W). assert (w = v) by congruence. subst w. apply W.
  - intros k k2 v v2 Hb G G2. destruct (Pk k k2 Hb) as (w & w2 & Q1 & Q2 & J). assert (w = v) by congruence. assert (w2 = v2) by congruence. subst w w2.
    destruct J as [(_ & X & _)|(r & _ & _ & X & _)]; exact X.
  - intros k v Hf G. destruct (Lk k Hf) as (l0 & w & Q1 & Q2 & J). assert (w = v) by congruence. assert (l0 = l) by congruence. subst w l0.
    destruct J as [(_ & X & _)|(r & _ & _ & X & _)]; exact X.
Qed.
Lemma queue_end L d lid l (s : @sim RA) : 0 <= d -> queue L d lid (lk_vehicles l) s -> still_queued lid l s.
Proof.
  intros Hd Q. pose proof Q as ((ops & Hh & _) & _ & _ & l' & Gl & El & Wv & _). destruct (kept_gap _ _ _ _ _ Hd Q l' Gl) as (Hw & Hg & Hr). exists l'. split; [exact Gl|]. split; [exact El|].
  assert (@reachable RA s) as Rc by exact (history_reachable _ _ _ Hh (@reach_new RA)). pose proof (reachable_Inv _ Rc) as I.
  assert (forall k, In k (lk_vehicles l') -> exists v, sm_get (s_vehicles s) k = Some v /\ v_link v = Some lid) as On.
  { intros k Hk. destruct (st_occ _ _ _ (i_st _ I) _ _ Gl) as (_ & Oc). apply Oc in Hk. unfold at_of in Hk. destruct (sm_get (s_vehicles s) k) as [v|]; [eauto|discriminate Hk]. }
  (* from one vehicle to those further in front *)
  assert (forall mid pre k k2 post v v2, lk_vehicles l' = pre ++ k :: mid ++ k2 :: post -> vehicle_at s k = Some v -> vehicle_at s k2 = Some v2 -> 0 <= gap v v2) as Far.
  { induction mid as [|m mid IH]; intros pre k k2 post v v2 E G G2.
    - apply (Hg k k2 v v2); auto. exists pre, post. exact E.
    - assert (In m (lk_vehicles l')) as Hm. { rewrite E. apply in_or_app. right. right. left. reflexivity. }
      destruct (On m Hm) as (vm & Gm & _). assert (0 <= gap vm v2) as X1. { apply (IH (pre ++ [k]) m k2 post); auto. rewrite <- app_assoc. exact E. }
      assert (0 <= gap v vm) as X2. { apply (Hg k m v vm); auto. exists pre, (mid ++ k2 :: post). exact E. }
      assert (0 < v_half_len vm) as X3. { apply (Hw m vm); auto. rewrite <- El. exact Hm. }
      unfold gap, pos_rear, pos_front in *. revert X1 X2. unR. intros X1 X2. lra. }
  split.
  - intros k Hk. rewrite <- El in Hk. destruct (On k Hk) as (v & G & Lv). exists v. split; [exact G|]. split; [exact Lv|].
    destruct (exists_last (l := lk_vehicles l')) as (bh & kf & Ef); [intros Z; rewrite Z in Hk; destruct Hk|].
    assert (In kf (lk_vehicles l')) as Hkf by (rewrite Ef; apply in_or_app; right; left; reflexivity). destruct (On kf Hkf) as (vf & Gf & _).
    assert (0 <= room_left l' vf) as Rf by (apply (Hr kf vf); auto; exists bh; exact Ef). unfold room_left in Rf.
    pose proof Hk as Hk'. rewrite Ef in Hk'. apply in_app_iff in Hk'. destruct Hk' as [Hk'|[<-|[]]]; [|assert (v = vf) by congruence; subst; lra].
    apply in_split in Hk'. destruct Hk' as (pre & mid & Eb). assert (0 <= gap v vf) as X. { apply (Far mid pre k kf [] v vf); auto. rewrite Ef, Eb, <- app_assoc. reflexivity. }
    assert (0 < v_half_len vf) as X3. { apply (Hw kf vf); auto. rewrite <- El. exact Hkf. }
    unfold gap, pos_rear, pos_front in *. revert X Rf. unR. intros X Rf. lra.
  - intros k k2 v' v2' (pre & mid & post & E) G G2. rewrite <- El in E. exact (Far mid pre k k2 post v' v2' E G G2).
Qed.

(** ** C66 *)
Lemma queue_start L d lid ops0 s l : 0 < L -> 0 <= d -> history (@sim_new RA) ops0 s -> Forall (one_limit L d) ops0 ->
  (forall k l, link_at s k = Some l -> 0 < lk_length l) -> no_way_in s lid -> link_at s lid = Some l ->
  (forall k v, In k (lk_vehicles l) -> vehicle_at s k = Some v -> waits_well L d lid v) ->
  (forall k k2 v v2, right_behind l k k2 -> vehicle_at s k = Some v -> vehicle_at s k2 = Some v2 -> room_to_react (max_acc v) d (v_vel v) (v_vel v2) (gap v v2)) ->
  (forall k v, first_on l k -> vehicle_at s k = Some v -> room_to_react (max_acc v) d (v_vel v) 0 (room_left l v)) ->
  queue L d lid (lk_vehicles l) s.
Proof.
  intros HL Hd Hh Fo Pos Nw Gl Wv Pk Lk. assert (@reachable RA s) as Rc by exact (history_reachable _ _ _ Hh (@reach_new RA)). pose proof (reachable_Inv _ Rc) as I.
  assert (0 <= s_acc_update s) as Tn. { apply (timer_nonneg ops0); auto. eapply Forall_impl; [|exact Fo]. intros o. destruct o; cbn; auto. intros X; lra. }
  assert (forall k, In k (lk_vehicles l) -> exists v, sm_get (s_vehicles s) k = Some v) as On.
  { intros k Hk. destruct (st_occ _ _ _ (i_st _ I) _ _ Gl) as (_ & Oc). apply Oc in Hk. unfold at_of in Hk. destruct (sm_get (s_vehicles s) k) as [v|]; [eauto|discriminate Hk]. }
  split; [eauto|]. split; [exact Pos|]. split; [exact Nw|]. exists l. split; [exact Gl|]. split; [reflexivity|]. split; [|split].
  - intros k Hk. destruct (On k Hk) as (v & G). exists v. split; [exact G|]. exact (Wv k v Hk G).
  - intros k k2 Hb. destruct (right_behind_in _ _ _ Hb) as (Hk & Hk2). destruct (On k Hk) as (v & G). destruct (On k2 Hk2) as (v2 & G2). exists v, v2. split; [exact G|]. split; [exact G2|].
    right. exists (refresh_time d). split; [unfold refresh_time; lra|]. split; [lra|]. apply room_K. exact (Pk k k2 v v2 Hb G G2).
  - intros k Hf. destruct (On k (first_on_in _ _ Hf)) as (v & G). exists l, v. split; [exact Gl|]. split; [exact G|].
    right. exists (refresh_time d). split; [unfold refresh_time; lra|]. split; [lra|]. apply room_K. exact (Lk k v Hf G).
Qed.

(** As long as the end of the link is closed, no two vehicles on it ever overlap and none of them passes the end. *)
Theorem C66_queue :
  forall L d ops0 s ops s' lid l, 0 < L -> 0 <= d -> history (@sim_new RA) ops0 s -> Forall (one_limit L d) ops0 ->
    throughout (closed_end lid) (short_step d) s ops s' ->
    (forall k l, link_at s k = Some l -> 0 < lk_length l) -> no_way_in s lid -> link_at s lid = Some l ->
    (forall k v, In k (lk_vehicles l) -> vehicle_at s k = Some v -> waits_well L d lid v) ->
    (forall k k2 v v2, right_behind l k k2 -> vehicle_at s k = Some v -> vehicle_at s k2 = Some v2 -> room_to_react (max_acc v) d (v_vel v) (v_vel v2) (gap v v2)) ->
    (forall k v, first_on l k -> vehicle_at s k = Some v -> room_to_react (max_acc v) d (v_vel v) 0 (room_left l v)) ->
    still_queued lid l s'.
Proof.
  intros L d ops0 s ops s' lid l HL Hd Hh Fo T Pos Nw Gl Wv Pk Lk. apply (queue_end L d); auto.
  pose proof (queue_start L d lid ops0 s l HL Hd Hh Fo Pos Nw Gl Wv Pk Lk) as Q. clear -T Q HL Hd.
  induction T as [s C|e s o s1 ops s' C So H T IH]; [exact Q|]. apply IH. exact (queue_step L d lid HL Hd _ e s o s1 Q (or_introl C) So H).
Qed.
Print Assumptions C66_queue.

(** On a road that ends there is nothing else to assume: every number of steps can be made. *)
Theorem C66_dead_end :
  forall L d ops0 s (dts : list R) pick lid l, 0 < L -> 0 <= d -> history (@sim_new RA) ops0 s -> Forall (one_limit L d) ops0 -> Forall (fun dt => 0 <= dt <= d) dts ->
    positive_roads s -> plain_groups s -> good_lights s -> small_costs s ->
    no_way_in s lid -> link_at s lid = Some l -> lk_out l = [] ->
    (forall k v, In k (lk_vehicles l) -> vehicle_at s k = Some v -> waits_well L d lid v) ->
    (forall k k2 v v2, right_behind l k k2 -> vehicle_at s k = Some v -> vehicle_at s k2 = Some v2 -> room_to_react (max_acc v) d (v_vel v) (v_vel v2) (gap v v2)) ->
    (forall k v, first_on l k -> vehicle_at s k = Some v -> room_to_react (max_acc v) d (v_vel v) 0 (room_left l v)) ->
    exists n s', (forall fuel, (n <= fuel)%nat -> run (Env fuel pick) s (map (@OStep RA) dts) = Ok s') /\ still_queued lid l s'.
Proof.
  intros L d ops0 s dts pick lid l HL Hd Hh Fo Fd Pr Gr Li Co Nw Gl Out Wv Pk Lk.
  assert (@reachable RA s) as Rc by exact (history_reachable _ _ _ Hh (@reach_new RA)).
  destruct (C65_goes_on dts s pick Rc Pr Gr Li Co) as (n & s' & H). exists n, s'. split; [exact H|]. specialize (H n (le_n _)).
  refine (C66_queue L d ops0 s (map (@OStep RA) dts) s' lid l HL Hd Hh Fo _ _ Nw Gl Wv Pk Lk); [|intros k x G; apply (Pr k x G)].
  assert (forall x, ~ succ_of (s_links s) lid x) as Ns. { intros x (l0 & G0 & Hin). unfold link_at in Gl. assert (l0 = l) by congruence. subst l0. rewrite Out in Hin. destruct Hin. }
  clear -H Fd Ns Rc. revert s Rc H Ns. induction dts as [|dt dts IH]; intros s Rc H Ns; cbn [map run] in H.
  - injection H as <-. constructor. intros x Sx. destruct (Ns x Sx).
  - bok H s1 H1. inversion Fd as [|? ? Fdt Fr]; subst. econstructor; [intros x Sx; destruct (Ns x Sx)|exact Fdt|exact H1|]. apply (IH Fr s1); auto; [exact (reach_call _ _ _ _ Rc H1)|].
    cbn [exec] in H1. intros x (l1 & G1 & Hin). destruct (same_net_get _ _ _ _ (step_same_net _ _ _ _ (reachable_Inv _ Rc) H1) G1) as (l0 & G0 & Es). apply (Ns x). exists l0. split; [exact G0|]. unfold lk_static in Es. inversion Es. congruence.
Qed.
Print Assumptions C66_dead_end.
