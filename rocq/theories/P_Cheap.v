(** * C70: without lanes beside each other and without ways back, a vehicle takes a cheapest way *)
From Coq Require Import List Bool ZArith NArith Arith Lia Reals Lra Relation_Operators Operators_Properties.
From Verif Require Import Arith RealArith Base BaseProofs SlotMap Util Geom Light Accel Net Path Vehicle LinkOps Sim SpecSim SlotMapProofs Safe NetInv SimInv AccSafe SimSafe StepSafe OpSafe Evo StepEvo SimProofs StepProofs Motion SpecRoute PlanProofs RouteProofs RouteEvo P_Route NetEvo SpecArrive SpecCheap CheapProofs F64 SimExample P_Motion.
Import ListNotations.

(** The route of a vehicle that was sent to [d] is always the beginning of a cheapest way from its link to [d]: until it is
    sent elsewhere, whatever the traffic, the lights, and the other calls that do not build roads or make it change lane. *)
Theorem C70_route :
  forall (A : Arith) ops1 e s0 k d s1 ops2 s v0 a v x, @cast_in_range A -> history sim_new ops1 s0 -> groups_apart ops1 ->
    vehicle_at s0 k = Some v0 -> v_route v0 = [a] -> leads (s_links s0) a d -> exec e s0 (OSetDestination k d) = Ok s1 -> history s1 ops2 s ->
    (forall o, In o ops2 -> redirects k o = false /\ moves k o = false /\ builds o = false) ->
    no_lanes s0 -> no_way_back (s_links s0) ->
    vehicle_at s k = Some v -> v_link v = Some x -> exists p, cheapest (s_links s0) x (v_route v ++ p) d.
Proof.
  intros A ops1 e s0 k d s1 ops2 s v0 a v x Cast Hist Ap G0 R0 Ld H H2 Ho Nl Ac G L.
  destruct (sent_cheap ops1 e s0 k d s1 ops2 s v0 a Cast Hist Ap G0 R0 Ld H H2 Ho Nl) as (Sn & I & Pos & r & c & D & Mn & K).
  assert (chain (s_links s0) (v_route v)) as Ch. { pose proof (vb_chain _ _ _ _ (st_veh _ _ _ (i_st _ I) _ _ G)) as C0. eapply chain_mono; [apply (same_net_ge _ _ Sn)|exact C0]. }
  unfold v_link in L. destruct (v_route v) as [|y q] eqn:Er; [discriminate L|]. injection L as ->.
  apply (cheap_chain (s_links s0) (fun y l Gy => proj2 (Nl y l Gy)) Pos a r d c q x Ac D Mn Ch). intros y Hy. rewrite <- Er in Hy. exact (K e (@n0 A) s v (or_introl eq_refl) G y Hy).
Qed.
Print Assumptions C70_route.

(** And whenever it goes from one link to another, the new link is the next one of a cheapest way from the old link. *)
Theorem C70_cheapest_way :
  forall (A : Arith) ops1 e s0 k d s1 ops2 s v0 a e' dt s' v v' x y, @cast_in_range A -> history sim_new ops1 s0 -> groups_apart ops1 ->
    vehicle_at s0 k = Some v0 -> v_route v0 = [a] -> leads (s_links s0) a d -> exec e s0 (OSetDestination k d) = Ok s1 -> history s1 ops2 s ->
    (forall o, In o ops2 -> redirects k o = false /\ moves k o = false /\ builds o = false) ->
    no_lanes s0 -> no_way_back (s_links s0) ->
    step e' s dt = Ok s' -> vehicle_at s k = Some v -> vehicle_at s' k = Some v' -> v_link v = Some x -> v_link v' = Some y -> x <> y ->
    exists p, cheapest (s_links s0) x (x :: y :: p) d.
Proof.
  intros A ops1 e s0 k d s1 ops2 s v0 a e' dt s' v v' x y Cast Hist Ap G0 R0 Ld H H2 Ho Nl Ac Hs G G' L L' Nxy.
  destruct (sent_cheap ops1 e s0 k d s1 ops2 s v0 a Cast Hist Ap G0 R0 Ld H H2 Ho Nl) as (Sn & I & Pos & r & c & D & Mn & K).
  assert (In x r) as Ix. { apply (K e (@n0 A) s v (or_introl eq_refl) G). unfold v_link in L. destruct (v_route v); [discriminate L|]. injection L as ->. left. reflexivity. }
  assert (In y r) as Iy. { apply (K e' dt s' v' (or_intror Hs) G'). unfold v_link in L'. destruct (v_route v'); [discriminate L'|]. injection L' as ->. left. reflexivity. }
  destruct (step_position e' s dt s' k v v' I Hs G G') as [(b & b' & _ & (l & Gl & Hl) & _)|(p & z & l & Lz & Gz & _ & [(_ & Q & _)|(_ & _ & z' & Lz' & Ss)])].
  - exfalso. destruct (same_net_get _ _ _ _ Sn Gl) as (l0 & Gl0 & E). unfold lk_static in E. injection E as F1 F2 F3 F4 F5 F6 F7 F8 F9.
    pose proof (proj2 (Nl _ _ Gl0)) as N0. congruence || (rewrite <- ?F1, <- ?F2, <- ?F3, <- ?F4, <- ?F5, <- ?F6, <- ?F7, <- ?F8 in Hl; rewrite N0 in Hl; destruct Hl).
  - exfalso. apply Nxy. congruence.
  - assert (z = x) by congruence. assert (z' = y) by congruence. subst z z'.
    apply (same_net_ge _ _ Sn) in Ss. destruct Ss as (l0 & Gl0 & Hl0).
    destruct (cheap_next (s_links s0) (fun y l Gy => proj2 (Nl y l Gy)) Pos a r d c x y l0 Ac D Mn Ix Iy Gl0 Hl0) as (q & C & E). destruct q as [|y' q]; [discriminate E|]. injection E as ->. exists q. exact C.
Qed.
Print Assumptions C70_cheapest_way.

(** ** The cases the theorems speak of occur *)
(** Two roads, the first of them slow, lead from the first link to the fourth.  The car goes along the second. *)
Definition ex_diamond : list (@op F64) :=
  [ OAddLink (ex_line 0 0 20 0) (fz 15); OAddLink (ex_line 20 0 40 0) (fz 5); OAddLink (ex_line 20 0 40 0) (fz 15); OAddLink (ex_line 40 0 60 0) (fz 15);
    OAddConnection (nth_id 0) (nth_id 1); OAddConnection (nth_id 0) (nth_id 2); OAddConnection (nth_id 1) (nth_id 3); OAddConnection (nth_id 2) (nth_id 3); OAddVehicle ex_car (nth_id 0) ].
Definition up_b (s : @sim F64) : bool := forallb (fun kl => forallb (fun b => Nat.ltb (k_idx (fst kl)) (k_idx b)) (lk_out (snd kl)) && match lk_group (snd kl), lk_changes (snd kl) with None, [] => true | _, _ => false end) (sm_entries (s_links s)).
Lemma up_b_ok s : up_b s = true -> no_lanes s /\ no_way_back (s_links s).
Proof.
  intros H. unfold up_b in H. rewrite forallb_forall in H.
  assert (forall x l, sm_get (s_links s) x = Some l -> (lk_group l = None /\ lk_changes l = []) /\ forall b, In b (lk_out l) -> k_idx x < k_idx b) as K.
  { intros x l G. apply in_entries in G. specialize (H _ G). apply andb_true_iff in H. cbn [fst snd] in H. destruct H as (H1 & H2). rewrite forallb_forall in H1. split.
    - destruct (lk_group l), (lk_changes l); try discriminate H2. auto.
    - intros b Hb. specialize (H1 _ Hb). apply Nat.ltb_lt in H1. exact H1. }
  split; [intros x l G; apply (K x l G)|]. intros a Q. assert (forall x y, clos_trans key (succ_of (s_links s)) x y -> k_idx x < k_idx y) as U.
  { intros x y T. induction T as [x y (l & G & Hb)|x y z _ IH1 _ IH2]; [exact (proj2 (K x l G) y Hb)|lia]. }
  specialize (U _ _ Q). lia.
Qed.
Lemma ex_diamond_ok : okb (run ex_env sim_new ex_diamond) (fun s0 => up_b s0 && route_is s0 car1 [nth_id 0] && has_out s0 (nth_id 0) (nth_id 1) && has_out s0 (nth_id 1) (nth_id 3) &&
  okb (exec ex_env s0 (OSetDestination car1 (nth_id 3))) (fun s1 => okb (run ex_env s1 (ex_steps 4)) (fun s => route_is s car1 [nth_id 0; nth_id 2; nth_id 3] &&
    okb (step ex_env s (fz 1)) (fun s' => is_on s' car1 (nth_id 2))))) = true.
Proof. vm_compute. reflexivity. Qed.
Lemma is_on_ok (s : @sim F64) k x : is_on s k x = true -> exists v, vehicle_at s k = Some v /\ v_link v = Some x.
Proof. unfold is_on, vehicle_at. destruct (sm_get (s_vehicles s) k) as [v|]; [|discriminate]. destruct (v_link v) as [y|] eqn:E; [|discriminate]. intros H. destruct (key_eqb_spec y x); [|discriminate]. subst y. eauto. Qed.
(** The hypotheses of [C70_route] and [C70_cheapest_way] hold: the car takes the third link although the second, too, leads to
    the fourth and was connected first. *)
Theorem C70_case : exists s0 v0 s1 s s' v v', history (@sim_new F64) ex_diamond s0 /\ groups_apart ex_diamond /\
  vehicle_at s0 car1 = Some v0 /\ v_route v0 = [nth_id 0] /\ leads (s_links s0) (nth_id 0) (nth_id 3) /\ leads (s_links s0) (nth_id 1) (nth_id 3) /\ succ_of (s_links s0) (nth_id 0) (nth_id 1) /\
  exec ex_env s0 (OSetDestination car1 (nth_id 3)) = Ok s1 /\ history s1 (ex_steps 4) s /\
  (forall o, In o (ex_steps 4) -> redirects car1 o = false /\ moves car1 o = false /\ builds o = false) /\ no_lanes s0 /\ no_way_back (s_links s0) /\
  step ex_env s (fz 1) = Ok s' /\ vehicle_at s car1 = Some v /\ v_route v = [nth_id 0; nth_id 2; nth_id 3] /\ vehicle_at s' car1 = Some v' /\ v_link v' = Some (nth_id 2) /\
  exists p, cheapest (s_links s0) (nth_id 0) (nth_id 0 :: nth_id 2 :: p) (nth_id 3).
Proof.
  destruct (okb_ok _ _ ex_diamond_ok) as (s0 & H0 & H). bsplit H. destruct (okb_ok _ _ B) as (s1 & H1 & Hb). destruct (okb_ok _ _ Hb) as (s & H2 & Hc). bsplit Hc. destruct (okb_ok _ _ B3) as (s' & H3 & Hd).
  destruct (up_b_ok _ H) as (Nl & Nw). apply route_is_ok in B2. destruct B2 as (v0 & G0 & R0). apply route_is_ok in Hc. destruct Hc as (v & G & Rv). apply is_on_ok in Hd. destruct Hd as (v' & G' & L').
  apply has_out_ok in B1. apply has_out_ok in B0.
  assert (history (@sim_new F64) ex_diamond s0) as Hh by (eapply run_history; exact H0).
  assert (history s1 (ex_steps 4) s) as Hs by (eapply run_history; exact H2).
  assert (groups_apart ex_diamond) as Ap by (unfold groups_apart; cbn; constructor).
  assert (leads (s_links s0) (nth_id 1) (nth_id 3)) as L1 by (apply rt_step; left; exact B0).
  assert (leads (s_links s0) (nth_id 0) (nth_id 3)) as L0 by (eapply rt_trans; [apply rt_step; left; exact B1|exact L1]).
  assert (forall o, In o (ex_steps 4) -> redirects car1 o = false /\ moves car1 o = false /\ builds o = false) as Ho by (intros o Hi; apply repeat_spec in Hi; subst o; auto).
  exists s0, v0, s1, s, s', v, v'. do 17 (split; [assumption|]).
  apply (C70_cheapest_way F64 ex_diamond ex_env s0 car1 (nth_id 3) s1 (ex_steps 4) s v0 (nth_id 0) ex_env (fz 1) s' v v' (nth_id 0) (nth_id 2)); auto; [exact F64_cast|unfold v_link; rewrite Rv; reflexivity|].
  intros E. apply (f_equal k_idx) in E. vm_compute in E. discriminate E.
Qed.
Print Assumptions C70_case.
