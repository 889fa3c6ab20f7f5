(** * C92: who drives in front is not held back by those behind *)
From Coq Require Import List Bool ZArith NArith Arith Lia Reals Lra.
From Verif Require Import Arith F64 RealArith Base BaseProofs SlotMap Util Geom Light Accel Net Path Vehicle LinkOps Sim SpecLight SpecSim SlotMapProofs Safe NetInv SimInv AccSafe SimSafe StepSafe OpSafe Evo StepEvo SimProofs SimExample StepProofs Ord FloatLaws LogProofs SpecMotion Motion RFacts P_Motion SpecEnter EnterProofs P_Enter SpecAhead P_Ahead SpecConf ConfProofs P_Conf SpecSide SpecReason P_Reason P_Alone SpecMap RoadMap SpecOwn OwnProofs P_Own SpecFront.
Import ListNotations.

Lemma front_reason {A : Arith} (Sl : slow_law A) s k v limit y : St (s_links s) (s_vehicles s) (s_seq s) -> vehicle_at s k = Some v -> nobody_ahead s k v -> open_road s v limit ->
  nleb n0 (v_vel v) = true -> nleb (v_vel v) (nmul (speed_factor v) limit) = true -> nltb n0 (comf_dec v) = true ->
  reason s k v y -> y = limit_model v limit.
Proof.
  intros St1 Gv [Na1 Na2 Na3] (Nd & Ce & Op) V0 Vu Cd R.
  assert (forall x i, heads_to v i x -> In x (v_route v)) as Hr by (intros x i Q; eapply nth_error_In; exact Q).
  assert (forall x lx, link_at s x = Some lx -> In k (lk_vehicles lx) -> nth_error (v_route v) 0 = Some x) as Cur.
  { intros x lx Gx Hk. destruct (st_occ _ _ _ St1 _ _ Gx) as (_ & Oc). apply Oc in Hk. unfold at_of in Hk. unfold vehicle_at in Gv. rewrite Gv in Hk. exact Hk. }
  destruct R as [x lx Gx Hk|x lx k2 v2 Gx (pre & post & El) G2|x lx i d y Gx (a & la & W & Ga & Hk & Hh & Wi) Fl|x lx i d k2 v2 Gx (a & la & W & Ga & Hk & Hh & Wi) (ah & El) G2|x lx i d Gx (a & la & W & Ga & Hk & Hh & Wi) M|a la g p b lb w0 w o o' i d Ga Eg Hpj Hsrc Ed Gb Hw Gw Ap (a2 & la2 & W & Ga2 & Hk & Hh & Wi) Iw Np|a b la lb c c' order p leader q follower Ga Gb Nab Hc Ec Hc' Ec' Mi Oi Bf Eo Nl Ek Ev].
  - destruct (Op x lx) as (-> & _); [eapply (Hr x 0); exact (Cur _ _ Gx Hk)|exact Gx|reflexivity].
  - exfalso. destruct (st_occ _ _ _ St1 _ _ Gx) as (Ndv & _). destruct (Na1 x lx) as (behind & Eb); [|exact Gx|].
    { apply (Cur x lx Gx). rewrite El. apply in_app_iff. right. left. reflexivity. }
    rewrite El in Eb. apply (f_equal (@rev key)) in Eb. rewrite !rev_app_distr in Eb. cbn [rev app] in Eb. rewrite El in Ndv. apply NoDup_remove_2 in Ndv. apply Ndv. apply in_app_iff. right.
    rewrite <- !app_assoc in Eb. cbn [app] in Eb. destruct (rev post) as [|z r] eqn:Er; cbn [app] in Eb.
    + injection Eb as E1 _. left. exact E1.
    + injection Eb as E1 _. right. apply in_rev. rewrite Er, E1. left. reflexivity.
  - destruct (Op x lx (Hr _ _ Hh) Gx) as (El & _). rewrite El in Fl. destruct Fl as [(_ & ->)|(Dd & Fs & _)]; [reflexivity|]. exfalso. unfold slowing in Fs. cbv zeta in Fs. rewrite (Sl _ _ _ _ V0 Vu Dd Cd) in Fs. discriminate Fs.
  - exfalso. rewrite (Na2 i x lx Hh Gx) in El. discriminate El.
  - exfalso. destruct M as [(_ & Q)|(y & ly & En & _ & Gy & M)]; [congruence|]. destruct (Op y ly) as (_ & Co & _); [eapply nth_error_In; exact En|exact Gy|]. destruct M as [Q|(d' & m & pr & Q & _)]; congruence.
  - exfalso. apply (Na3 a la g p Ga Eg Hpj). rewrite Ed. exact (Hr _ _ Hh).
  - exfalso. assert (In follower order) as Hf by (rewrite Eo; apply in_app_iff; right; right; left; reflexivity). apply Oi in Hf. rewrite <- Ev in *.
    destruct Hf as [(_ & _ & i & Apf)|(_ & _ & i & Apf)]; apply approaching_facts in Apf; destruct Apf as (_ & Hh).
    + destruct (Op a la (Hr _ _ Hh) Ga) as (_ & _ & Q & _). rewrite Q in Hc. destruct Hc.
    + destruct (Op b lb (Hr _ _ Hh) Gb) as (_ & _ & Q & _). rewrite Q in Hc'. destruct Hc'.
Qed.

Lemma front_gen {A : Arith} (O : OrdLaws A) (Sl : slow_law A) e ops s dt s1 s' k v v' limit :
  history (@sim_new A) ops s -> step e s dt = Ok s' -> due (lit 1 10) ops = true -> calculate_lane_changes e s = Ok s1 ->
  vehicle_at s1 k = Some v -> vehicle_at s' k = Some v' -> get_vehicle_frozen s k = false -> nobody_ahead s1 k v -> open_road s1 v limit ->
  nleb n0 (v_vel v) = true -> nleb (v_vel v) (nmul (speed_factor v) limit) = true -> nltb n0 (comf_dec v) = true ->
  acceleration v' = nmax (max_acc v) full_braking \/ acceleration v' = nmax (limit_model v limit) full_braking.
Proof.
  intros Hh H D H1 G1 G' Fz Al Op V0 Vu Cd. pose proof (history_Inv _ _ _ Hh Inv_new) as I. destruct (step_phases _ _ _ _ I H) as (t1 & s2 & s3 & s4 & s5 & P). assert (t1 = s1) by (pose proof (ph1 _ _ _ _ _ _ _ _ _ P); congruence). subst t1.
  destruct (reason_gen O _ _ _ _ _ _ _ _ _ Hh H D H1 G1 G' Fz) as [E|(y & R & E)]; [left; exact E|right].
  rewrite E. f_equal. exact (front_reason Sl _ _ _ _ _ (ps1 _ _ _ _ _ _ _ _ _ P) G1 Al Op V0 Vu Cd R).
Qed.

(** [s1] is the simulation after the lane changes at the start of the step.  With nobody ahead on an open road, a vehicle that drives at most at its
    version of the limit is held back by the limit only, whatever is behind it. *)
Theorem C92_front : forall e ops s dt s1 s' k v v' limit,
  history (@sim_new F64) ops s -> step e s dt = Ok s' -> due (lit 1 10) ops = true -> calculate_lane_changes e s = Ok s1 ->
  vehicle_at s1 k = Some v -> vehicle_at s' k = Some v' -> get_vehicle_frozen s k = false -> nobody_ahead s1 k v -> open_road s1 v limit ->
  nleb n0 (v_vel v) = true -> nleb (v_vel v) (nmul (speed_factor v) limit) = true -> nltb n0 (comf_dec v) = true ->
  acceleration v' = nmax (max_acc v) full_braking \/ acceleration v' = nmax (limit_model v limit) full_braking.
Proof. exact (@front_gen F64 F64_ord F64_slow). Qed.
Print Assumptions C92_front.

(** In exact arithmetic: it has the acceleration for the limit. *)
Local Open Scope R_scope.
Theorem C92_front_exact : forall e ops s dt s1 s' k v v' (limit : R),
  history (@sim_new RA) ops s -> step e s dt = Ok s' -> due (lit 1 10) ops = true -> calculate_lane_changes e s = Ok s1 ->
  vehicle_at s1 k = Some v -> vehicle_at s' k = Some v' -> get_vehicle_frozen s k = false -> nobody_ahead s1 k v -> open_road s1 v limit ->
  0 <= v_vel v < speed_factor v * limit -> 0 < comf_dec v -> 0 < max_acc v ->
  acceleration v' = max_acc v * (1 - (v_vel v / (speed_factor v * limit)) ^ 4) /\ 0 < acceleration v'.
Proof.
  intros e ops s dt s1 s' k v v' limit Hh H D H1 G1 G' Fz Al Op (V0 & Vu) Cd Ma.
  assert (Rmax (limit_model v limit) (-6) = max_acc v * (1 - (v_vel v / (speed_factor v * limit)) ^ 4) /\ 0 < max_acc v * (1 - (v_vel v / (speed_factor v * limit)) ^ 4) <= max_acc v) as (E2 & E3).
  { set (u := v_vel v / (speed_factor v * limit)). assert (0 <= u < 1) as (U0 & U1).
    { unfold u. split; [apply Rmult_le_pos; [lra|]; apply Rlt_le, Rinv_0_lt_compat; lra|]. apply Rmult_lt_reg_r with (speed_factor v * limit); [lra|]. unfold Rdiv. rewrite Rmult_assoc, Rinv_l by lra. lra. }
    assert (0 <= u * u < 1) by nra. assert (u ^ 4 = (u * u) * (u * u)) as E4 by ring. assert (0 <= u ^ 4 < 1) by (rewrite E4; nra).
    assert (limit_model v limit = max_acc v * (1 - u ^ 4)) as -> by (unfold limit_model; rewrite E4; reflexivity).
    split; [apply Rmax_left|]; nra. }
  assert (acceleration v' = Rmax (max_acc v) (-6) \/ acceleration v' = Rmax (limit_model v limit) (-6)) as [E|E].
  { rewrite <- !max_R. eapply (@front_gen RA RA_ord RA_slow); try eassumption; [apply leb_R; exact V0|apply leb_R; apply Rlt_le; exact Vu|apply ltb_R; exact Cd]. }
  2:{ rewrite E, E2. split; [reflexivity|apply E3]. }
  pose proof (history_Inv _ _ _ Hh Inv_new) as I. pose proof (history_timers _ _ Hh) as (T & _). pose proof (due_true _ _ _ T D) as D'.
  destruct (step_motion _ _ _ _ _ _ I H G') as (v0 & s1' & _ & _ & _ & G0 & H1' & _ & _ & _ & _ & _ & _ & _ & _ & _ & St1 & _). assert (s1' = s1) by congruence. subst s1'.
  assert (nleb (acceleration v') (nmax (limit_model v limit) full_braking) = true) as K.
  { refine (refresh_bound RA_ord decel_nan_R e s dt s' k v0 v' (limit_model v limit) I H G0 G' D' eq_refl _).
    intros t1 t2 links vs log1 log Et P. assert (t1 = s1) by congruence. subst t1.
    destruct (v_link v) as [x|] eqn:Ex.
    2:{ exfalso. pose proof (parts_ctx _ _ _ _ _ _ _ St1 P) as (_ & HV & En & _). specialize (En k (v_reset v) ltac:(rewrite HV, G1; reflexivity)). change (v_route (v_reset v)) with (v_route v) in En. change (nth_error (v_route v) 0 = None) in Ex. apply nth_error_None in Ex. lia. }
    destruct Op as (_ & _ & Op). 
    assert (exists l, link_at s1 x = Some l) as (l & Gl).
    { apply sm_mem_get. eapply (chain_valid (s_links s1)); [exact (vb_chain _ _ _ _ (st_veh _ _ _ St1 _ _ G1))|]. apply (nth_error_In (v_route v) 0). exact Ex. }
    destruct (Op x l) as (El & _); [apply (nth_error_In (v_route v) 0); exact Ex|exact Gl|]. rewrite <- El. refine (parts_limit _ _ _ _ _ _ _ _ _ _ _ P Gl _ G1).
    destruct (st_occ _ _ _ St1 _ _ Gl) as (_ & Oc). apply Oc. unfold at_of. unfold vehicle_at in G1. rewrite G1. exact Ex. }
  apply leb_R in K. rewrite max_R in K. change (@full_braking RA) with (-6) in K. rewrite E2 in K. rewrite E in K |- *.
  rewrite Rmax_left in K |- * by lra. split; [|exact Ma]. apply Rle_antisym; [exact K|apply E3].
Qed.
Print Assumptions C92_front_exact.

Local Close Scope R_scope.

(** Exactly the acceleration for the limit, wherever that is less than the maximum acceleration or equal to it. *)
Lemma front_exactly {A : Arith} (O : OrdLaws A) (Sl : slow_law A) (Nn : @nnan A MAX_DECEL = false) e ops s dt s1 s' k v v' limit :
  history (@sim_new A) ops s -> step e s dt = Ok s' -> due (lit 1 10) ops = true -> calculate_lane_changes e s = Ok s1 ->
  vehicle_at s1 k = Some v -> vehicle_at s' k = Some v' -> get_vehicle_frozen s k = false -> nobody_ahead s1 k v -> open_road s1 v limit ->
  nleb n0 (v_vel v) = true -> nleb (v_vel v) (nmul (speed_factor v) limit) = true -> nltb n0 (comf_dec v) = true -> nltb full_braking (max_acc v) = true ->
  limit_model v limit = max_acc v \/ nltb (limit_model v limit) (max_acc v) = true ->
  acceleration v' = nmax (limit_model v limit) full_braking.
Proof.
  intros Hh H D H1 G1 G' Fz Na Op V0 Vu Cd Mb Lm.
  destruct (front_gen O Sl _ _ _ _ _ _ _ _ _ _ Hh H D H1 G1 G' Fz Na Op V0 Vu Cd) as [E|E]; [|exact E]. destruct Lm as [Lm|Lm]; [rewrite Lm; exact E|]. exfalso.
  pose proof (history_Inv _ _ _ Hh Inv_new) as I. pose proof (history_timers _ _ Hh) as (T & _). pose proof (due_true _ _ _ T D) as D'.
  destruct (step_motion _ _ _ _ _ _ I H G') as (v0 & s1' & _ & _ & _ & G0 & H1' & _ & _ & _ & _ & _ & _ & _ & _ & _ & St1 & _). assert (s1' = s1) by congruence. subst s1'.
  pose proof (proj1 (lt_iff O _ _) Lm) as (Nl & Nm & Ll). pose proof (proj1 (lt_iff O _ _) Mb) as (Nb & _ & Lb).
  assert (nleb (acceleration v') (nmax (limit_model v limit) full_braking) = true) as K.
  { refine (refresh_bound O Nn e s dt s' k v0 v' (limit_model v limit) I H G0 G' D' Nl _).
    intros t1 t2 links vs log1 log Et P. assert (t1 = s1) by congruence. subst t1.
    destruct (v_link v) as [x|] eqn:Ex.
    2:{ exfalso. pose proof (parts_ctx _ _ _ _ _ _ _ St1 P) as (_ & HV & En & _). specialize (En k (v_reset v) ltac:(rewrite HV, G1; reflexivity)). change (v_route (v_reset v)) with (v_route v) in En. change (nth_error (v_route v) 0 = None) in Ex. apply nth_error_None in Ex. lia. }
    destruct Op as (_ & _ & Op). change (nth_error (v_route v) 0 = Some x) in Ex.
    assert (exists l, link_at s1 x = Some l) as (l & Gl).
    { apply sm_mem_get. eapply (chain_valid (s_links s1)); [exact (vb_chain _ _ _ _ (st_veh _ _ _ St1 _ _ G1))|]. apply (nth_error_In (v_route v) 0). exact Ex. }
    destruct (Op x l) as (El & _); [apply (nth_error_In (v_route v) 0); exact Ex|exact Gl|]. rewrite <- El. refine (parts_limit _ _ _ _ _ _ _ _ _ _ _ P Gl _ G1).
    destruct (st_occ _ _ _ St1 _ _ Gl) as (_ & Oc). apply Oc. unfold at_of. unfold vehicle_at in G1. rewrite G1. exact Ex. }
  rewrite E in K. pose proof (le_trans O _ _ _ (max_ge_l O (max_acc v) full_braking Nm) K) as Q. apply (le_iff O) in Q. destruct Q as (_ & _ & Q).
  assert (nmax (limit_model v limit) full_braking = limit_model v limit \/ nmax (limit_model v limit) full_braking = full_braking) as [W|W] by (unfold nmax; repeat match goal with |- context [if ?b then _ else _] => destruct b end; auto); rewrite W in Q; lra.
Qed.

(** So the vehicles behind do not matter at all.  In two simulations with the same map, a vehicle is in the same motion, and in both nobody is ahead of
    it on an open road.  Behind it and elsewhere there may be entirely different vehicles, controls and crossings.  After a step it has the same
    acceleration and is in the same motion in both. *)
Lemma behind_gen {A : Arith} (O : OrdLaws A) (Sl : slow_law A) (Nn : @nnan A MAX_DECEL = false) e1 e2 ops1 ops2 s t k dt s1 t1 s' t' v w v1 w1 v' w' limit :
  history (@sim_new A) ops1 s -> history (@sim_new A) ops2 t -> ties_by_map e1 e2 -> same_map (s_links s) (s_links t) ->
  due (lit 1 10) ops1 = true -> due (lit 1 10) ops2 = true -> due (lit 3 10) ops1 = due (lit 3 10) ops2 ->
  vehicle_at s k = Some v -> vehicle_at t k = Some w -> same_motion v w -> get_vehicle_frozen s k = false -> get_vehicle_frozen t k = false ->
  step e1 s dt = Ok s' -> step e2 t dt = Ok t' -> vehicle_at s' k = Some v' -> vehicle_at t' k = Some w' ->
  calculate_lane_changes e1 s = Ok s1 -> calculate_lane_changes e2 t = Ok t1 -> vehicle_at s1 k = Some v1 -> vehicle_at t1 k = Some w1 ->
  nobody_ahead s1 k v1 -> nobody_ahead t1 k w1 -> open_road s1 v1 limit -> open_road t1 w1 limit -> drives_alike v1 w1 ->
  nleb n0 (v_vel v1) = true -> nleb (v_vel v1) (nmul (speed_factor v1) limit) = true -> nltb n0 (comf_dec v1) = true -> nltb full_braking (max_acc v1) = true ->
  limit_model v1 limit = max_acc v1 \/ nltb (limit_model v1 limit) (max_acc v1) = true ->
  acceleration v' = acceleration w' /\ same_motion v' w'.
Proof.
  intros Hs Ht Ti M D1 D2 Du Gv Gw Sm F1 F2 H1 H2 Gv' Gw' L1 L2 G1 G2 N1 N2 O1 O2 (Da & Db & Dc) V0 Vu Cd Mb Lm.
  pose proof (history_Inv _ _ _ Hs Inv_new) as Is. pose proof (history_Inv _ _ _ Ht Inv_new) as It.
  assert (same_motion v1 w1) as Sm1.
  { destruct (decide_exact e1 s s1 (ties_left _ _ Ti)) with (k := k) (v' := v1) as (x & Gx & Cx); [intros y vy Gy; exact (vb_id _ _ _ _ (st_veh _ _ _ (i_st _ Is) _ _ Gy))|exact L1|exact G1|]. assert (x = v) by (unfold vehicle_at in Gv; congruence). subst x.
    destruct (decide_exact e2 t t1 (ties_left _ _ (ties_sym _ _ Ti))) with (k := k) (v' := w1) as (x & Gx2 & Cy); [intros y vy Gy; exact (vb_id _ _ _ _ (st_veh _ _ _ (i_st _ It) _ _ Gy))|exact L2|exact G2|]. assert (x = w) by (unfold vehicle_at in Gw; congruence). subst x.
    pose proof (history_timers _ _ Hs) as (_ & T1). pose proof (history_timers _ _ Ht) as (_ & T2). unfold due in Du. rewrite <- T1, <- T2 in Du. apply (f_equal negb) in Du. rewrite !negb_involutive in Du. change (@lit A 3 10) with (@LANE_CHANGE_UPDATE_SEC A) in Du. rewrite Du in Cx.
    destruct (nltb (s_lc_update t) LANE_CHANGE_UPDATE_SEC); (destruct Cx as [(C1 & C2)|(C1 & C2)]; try discriminate C1; destruct Cy as [(C3 & C4)|(C3 & C4)]; try discriminate C3); [subst; exact Sm|]. exact (choice_own _ _ _ _ _ _ _ _ Ti M Sm C2 C4). }
  pose proof (front_exactly O Sl Nn _ _ _ _ _ _ _ _ _ _ Hs H1 D1 L1 G1 Gv' F1 N1 O1 V0 Vu Cd Mb Lm) as E1.
  pose proof (so_vel _ _ Sm1) as Ev. assert (limit_model v1 limit = limit_model w1 limit) as Em by (unfold limit_model; rewrite Ev, Da, Dc; reflexivity).
  rewrite Ev in V0. rewrite Ev, Dc in Vu. rewrite Db in Cd. rewrite Da in Mb. rewrite Em, Da in Lm.
  pose proof (front_exactly O Sl Nn _ _ _ _ _ _ _ _ _ _ Ht H2 D2 L2 G2 Gw' F2 N2 O2 V0 Vu Cd Mb Lm) as E2.
  assert (acceleration v' = acceleration w') as Ea by (rewrite E1, E2, Em; reflexivity).
  split; [exact Ea|]. exact (C91_step e1 e2 ops1 ops2 s t k dt s' t' v w v' w' Hs Ht Ti M Du Gv Gw Sm H1 H2 Gv' Gw' Ea).
Qed.
Theorem C92_behind : forall e1 e2 ops1 ops2 s t k dt s1 t1 s' t' v w v1 w1 v' w' limit,
  history (@sim_new F64) ops1 s -> history (@sim_new F64) ops2 t -> ties_by_map e1 e2 -> same_map (s_links s) (s_links t) ->
  due (lit 1 10) ops1 = true -> due (lit 1 10) ops2 = true -> due (lit 3 10) ops1 = due (lit 3 10) ops2 ->
  vehicle_at s k = Some v -> vehicle_at t k = Some w -> same_motion v w -> get_vehicle_frozen s k = false -> get_vehicle_frozen t k = false ->
  step e1 s dt = Ok s' -> step e2 t dt = Ok t' -> vehicle_at s' k = Some v' -> vehicle_at t' k = Some w' ->
  calculate_lane_changes e1 s = Ok s1 -> calculate_lane_changes e2 t = Ok t1 -> vehicle_at s1 k = Some v1 -> vehicle_at t1 k = Some w1 ->
  nobody_ahead s1 k v1 -> nobody_ahead t1 k w1 -> open_road s1 v1 limit -> open_road t1 w1 limit -> drives_alike v1 w1 ->
  nleb n0 (v_vel v1) = true -> nleb (v_vel v1) (nmul (speed_factor v1) limit) = true -> nltb n0 (comf_dec v1) = true -> nltb full_braking (max_acc v1) = true ->
  limit_model v1 limit = max_acc v1 \/ nltb (limit_model v1 limit) (max_acc v1) = true ->
  acceleration v' = acceleration w' /\ same_motion v' w'.
Proof. exact (@behind_gen F64 F64_ord F64_slow decel_nan). Qed.
Print Assumptions C92_behind.
Theorem C92_behind_exact : forall e1 e2 ops1 ops2 s t k dt s1 t1 s' t' v w v1 w1 v' w' (limit : R),
  history (@sim_new RA) ops1 s -> history (@sim_new RA) ops2 t -> ties_by_map e1 e2 -> same_map (s_links s) (s_links t) ->
  due (lit 1 10) ops1 = true -> due (lit 1 10) ops2 = true -> due (lit 3 10) ops1 = due (lit 3 10) ops2 ->
  vehicle_at s k = Some v -> vehicle_at t k = Some w -> same_motion v w -> get_vehicle_frozen s k = false -> get_vehicle_frozen t k = false ->
  step e1 s dt = Ok s' -> step e2 t dt = Ok t' -> vehicle_at s' k = Some v' -> vehicle_at t' k = Some w' ->
  calculate_lane_changes e1 s = Ok s1 -> calculate_lane_changes e2 t = Ok t1 -> vehicle_at s1 k = Some v1 -> vehicle_at t1 k = Some w1 ->
  nobody_ahead s1 k v1 -> nobody_ahead t1 k w1 -> open_road s1 v1 limit -> open_road t1 w1 limit -> drives_alike v1 w1 ->
  (0 <= v_vel v1 <= speed_factor v1 * limit)%R -> (0 < speed_factor v1 * limit)%R -> (0 < comf_dec v1)%R -> (0 < max_acc v1)%R ->
  acceleration v' = acceleration w' /\ same_motion v' w'.
Proof.
  intros e1 e2 ops1 ops2 s t k dt s1 t1 s' t' v w v1 w1 v' w' limit Hs Ht Ti M D1 D2 Du Gv Gw Sm F1 F2 H1 H2 Gv' Gw' L1 L2 G1 G2 N1 N2 O1 O2 Da (V0 & Vu) Sp Cd Ma.
  refine (@behind_gen RA RA_ord RA_slow decel_nan_R e1 e2 ops1 ops2 s t k dt s1 t1 s' t' v w v1 w1 v' w' limit Hs Ht Ti M D1 D2 Du Gv Gw Sm F1 F2 H1 H2 Gv' Gw' L1 L2 G1 G2 N1 N2 O1 O2 Da _ _ _ _ _).
  - apply leb_R. exact V0.
  - apply leb_R. exact Vu.
  - apply ltb_R. exact Cd.
  - apply ltb_R. change (-6 < max_acc v1)%R. apply Rlt_trans with 0%R; [lra|exact Ma].
  - destruct (nltb (limit_model v1 limit) (max_acc v1)) eqn:E; [right; reflexivity|left]. apply ltb_R_false in E.
    assert (forall m q p : R, p = q * q -> 0 < m -> m <= m * (1 - p * p) -> m * (1 - p * p) = m)%R as Al. { intros m q p Ep Pm Q. apply Rle_antisym; [|exact Q]. assert (0 <= p * p)%R by nra. nra. }
    exact (Al _ (v_vel v1 / (speed_factor v1 * limit))%R _ eq_refl Ma E).
Qed.
Print Assumptions C92_behind_exact.

(** The car of C62 drives along its road alone, and with another car behind it. *)
Definition behind_add : list (@op F64) := [ OAddVehicle ex_car lane1 ].
Definition front_b (s1 : @sim F64) (who : list key) : bool :=
  free_b s1 lane1 && free_b s1 lane2 && forallb (fun l => match lk_group l with None => true | Some _ => false end) (sm_values (s_links s1)) &&
  link_b s1 lane1 (fun l => keys_eqb (lk_vehicles l) who) && link_b s1 lane2 (fun l => keys_eqb (lk_vehicles l) []) &&
  veh_b s1 car1 (fun v => (match v_route v with [x; y] => key_eqb x lane1 && key_eqb y lane2 | _ => false end) && v_can_exit v &&
    nleb n0 (v_vel v) && nltb n0 (v_vel v) && nleb (v_vel v) (nmul (speed_factor v) (fz 15)) && nltb n0 (comf_dec v) && nltb full_braking (max_acc v) && nltb (limit_model v (fz 15)) (max_acc v)).
Definition alike_b (s t : @sim F64) : bool := veh_b s car1 (fun v => veh_b t car1 (fun w => same_f (max_acc v) (max_acc w) && same_f (comf_dec v) (comf_dec w) && same_f (speed_factor v) (speed_factor w))).
Lemma ex_front_ok : okb (run ex_env sim_new ex_alone) (fun s => veh_b s car1 (fun _ => true) && due (@lit F64 1 10) ex_alone && negb (get_vehicle_frozen s car1) &&
  okb (run ex_env s behind_add) (fun t => due (@lit F64 1 10) (ex_alone ++ behind_add) && negb (get_vehicle_frozen t car1) &&
  okb (calculate_lane_changes ex_env s) (fun s1 => okb (calculate_lane_changes ex_env t) (fun t1 => front_b s1 [car1] && front_b t1 [nth_id 1; car1] && alike_b s1 t1 &&
  okb (step ex_env s (fz 1)) (fun s' => okb (step ex_env t (fz 1)) (fun t' => veh_b s' car1 (fun _ => true) && veh_b t' car1 (fun _ => true))))))) = true.
Proof. vm_compute. reflexivity. Qed.

Lemma keys_eqb_ok a : forall b, keys_eqb a b = true -> a = b.
Proof. induction a as [|x a IH]; intros [|y b] H; try discriminate H; [reflexivity|]. cbn [keys_eqb] in H. apply andb_true_iff in H. destruct H as (E & H). apply key_eqb_eq in E. rewrite E, (IH _ H). reflexivity. Qed.
Lemma front_b_ok s behind : front_b s (behind ++ [car1]) = true -> exists v, vehicle_at s car1 = Some v /\ nobody_ahead s car1 v /\ open_road s v (fz 15) /\ nltb n0 (v_vel v) = true /\
  nleb n0 (v_vel v) = true /\ nleb (v_vel v) (nmul (speed_factor v) (fz 15)) = true /\ nltb n0 (comf_dec v) = true /\ nltb full_braking (max_acc v) = true /\ nltb (limit_model v (fz 15)) (max_acc v) = true.
Proof.
  unfold front_b. intros H. apply andb_true_iff in H. destruct H as (H & Hv). apply andb_true_iff in H. destruct H as (H & B2). apply andb_true_iff in H. destruct H as (H & B1). apply andb_true_iff in H. destruct H as (H & Ng). apply andb_true_iff in H. destruct H as (F1 & F2).
  apply veh_b_ok in Hv. destruct Hv as (v & Gv & Hv). do 7 (apply andb_true_iff in Hv; destruct Hv as (Hv & ?)).
  destruct (v_route v) as [|x [|y [|]]] eqn:Er; try (discriminate Hv). apply andb_true_iff in Hv. destruct Hv as (Ex & Ey). apply key_eqb_eq in Ex, Ey. subst x y.
  exists v. split; [exact Gv|]. split; [|split].
  - constructor; rewrite ?Er.
    + intros x l Ex Gl. cbn [nth_error] in Ex. injection Ex as <-. unfold link_b in B1. rewrite Gl in B1. apply keys_eqb_ok in B1. eauto.
    + intros i x l Ex Gl. destruct i as [|[|i]]; cbn [nth_error] in Ex; try discriminate Ex. injection Ex as <-. unfold link_b in B2. rewrite Gl in B2. apply keys_eqb_ok in B2. exact B2.
    + intros a la g p Ga Eg. exfalso. rewrite forallb_forall in Ng. assert (In la (sm_values (s_links s))) as Hin by (apply in_values; exists a; exact Ga). apply Ng in Hin. rewrite Eg in Hin. discriminate Hin.
  - split; [rewrite Er; constructor; [intros [Q|[]]; discriminate Q|constructor; [intros []|constructor]]|]. split; [assumption|].
    rewrite Er. intros x l [<-|[<-|[]]] Gl; [exact (free_b_ok _ _ F1 _ Gl)|exact (free_b_ok _ _ F2 _ Gl)].
  - repeat (split; [assumption|]); assumption.
Qed.
Example C92_example : exists (ops2 : list (@op F64)) s t s1 t1 s' t' v w v1 w1 v' w',
  history (@sim_new F64) ex_alone s /\ history (@sim_new F64) ops2 t /\ ties_by_map ex_env ex_env /\ same_map (s_links s) (s_links t) /\
  due (lit 1 10) ex_alone = true /\ due (lit 1 10) ops2 = true /\ due (lit 3 10) ex_alone = due (lit 3 10) ops2 /\
  vehicle_at s car1 = Some v /\ vehicle_at t car1 = Some w /\ same_motion v w /\ get_vehicle_frozen s car1 = false /\ get_vehicle_frozen t car1 = false /\
  step ex_env s (fz 1) = Ok s' /\ step ex_env t (fz 1) = Ok t' /\ vehicle_at s' car1 = Some v' /\ vehicle_at t' car1 = Some w' /\
  calculate_lane_changes ex_env s = Ok s1 /\ calculate_lane_changes ex_env t = Ok t1 /\ vehicle_at s1 car1 = Some v1 /\ vehicle_at t1 car1 = Some w1 /\
  nobody_ahead s1 car1 v1 /\ nobody_ahead t1 car1 w1 /\ open_road s1 v1 (fz 15) /\ open_road t1 w1 (fz 15) /\ drives_alike v1 w1 /\
  nltb n0 (v_vel v1) = true /\ nleb (v_vel v1) (nmul (speed_factor v1) (fz 15)) = true /\ nltb n0 (comf_dec v1) = true /\ nltb full_braking (max_acc v1) = true /\
  nltb (limit_model v1 (fz 15)) (max_acc v1) = true /\ (exists l, link_at t1 lane1 = Some l /\ lk_vehicles l = [nth_id 1; car1]).
Proof.
  pose proof ex_front_ok as H. apply okb_ok in H. destruct H as (s & Hs & H). apply andb_true_iff in H. destruct H as (H & Ht). do 2 (apply andb_true_iff in H; destruct H as (H & ?)). apply veh_b_ok in H. destruct H as (v & Gv & _).
  apply okb_ok in Ht. destruct Ht as (t & Ht & H). apply andb_true_iff in H. destruct H as (K & H). apply andb_true_iff in K. destruct K as (K1 & K2).
  apply okb_ok in H. destruct H as (s1 & L1 & H). apply okb_ok in H. destruct H as (t1 & L2 & H). apply andb_true_iff in H. destruct H as (J & H). apply andb_true_iff in J. destruct J as (J & Al). apply andb_true_iff in J. destruct J as (J1 & J2).
  apply okb_ok in H. destruct H as (s' & S1 & H). apply okb_ok in H. destruct H as (t' & S2 & H). apply andb_true_iff in H. destruct H as (E1 & E2). apply veh_b_ok in E1. destruct E1 as (v' & Gv' & _). apply veh_b_ok in E2. destruct E2 as (w' & Gw' & _).
  pose proof (run_history _ _ _ _ Hs) as Hh. pose proof (run_history _ _ _ _ Ht) as Hh2. pose proof (history_Inv _ _ _ Hh Inv_new) as I0.
  assert (quiet car1 s t) as Q.
  { unfold behind_add in Ht. cbn [run] in Ht. destruct (exec ex_env s (OAddVehicle ex_car lane1)) as [s0| |] eqn:E0; [|discriminate Ht..]. cbn [bind] in Ht. injection Ht as <-. refine (quiet_call _ _ _ _ _ _ I0 _ E0 (quiet_refl _ _)). exact Logic.I. }
  destruct (qu_at _ _ _ Q _ Gv) as (w & Gw & Mw).
  assert (exists l, link_at t1 lane1 = Some l /\ lk_vehicles l = [nth_id 1; car1]) as Two.
  { unfold front_b in J2. apply andb_true_iff in J2. destruct J2 as (J2 & _). apply andb_true_iff in J2. destruct J2 as (J2 & _). apply andb_true_iff in J2. destruct J2 as (_ & J2). unfold link_b, link_at in *. destruct (sm_get (s_links t1) lane1) as [l|]; [|discriminate J2]. exists l. split; [reflexivity|]. apply keys_eqb_ok in J2. exact J2. }
  destruct (front_b_ok s1 [] J1) as (v1 & G1 & N1 & O1 & P1 & P2 & P3 & P4 & P5 & P6). destruct (front_b_ok t1 [nth_id 1] J2) as (w1 & G2 & N2 & O2 & _).
  assert (drives_alike v1 w1) as Da.
  { apply veh_b_ok in Al. destruct Al as (x & Gx & Al). apply veh_b_ok in Al. destruct Al as (y & Gy & Al). assert (x = v1) by congruence. assert (y = w1) by congruence. subst x y. apply andb_true_iff in Al. destruct Al as (Al & A3). apply andb_true_iff in Al. destruct Al as (A1 & A2). split; [|split]; apply same_f_ok; assumption. }
  exists (ex_alone ++ behind_add), s, t, s1, t1, s', t', v, w, v1, w1, v', w'.
  split; [exact Hh|]. split; [exact (history_app _ _ _ _ _ Hh Hh2)|]. split; [split; reflexivity|]. split; [exact (qu_map _ _ _ Q)|]. split; [assumption|]. split; [exact K1|]. split; [reflexivity|]. split; [exact Gv|]. split; [exact Gw|]. split; [exact Mw|].
  split; [apply negb_true_iff; assumption|]. split; [apply negb_true_iff; exact K2|]. split; [exact S1|]. split; [exact S2|]. split; [exact Gv'|]. split; [exact Gw'|]. split; [exact L1|]. split; [exact L2|]. split; [exact G1|]. split; [exact G2|]. split; [exact N1|]. split; [exact N2|]. split; [exact O1|]. split; [exact O2|]. split; [exact Da|].
  repeat (split; [assumption|]). exact Two.
Qed.
