(** * C93: only the last destination counts *)
From Coq Require Import List Bool ZArith NArith Arith Lia Relation_Operators Operators_Properties.
From Verif Require Import Arith Base BaseProofs SlotMap SlotMapProofs Util Geom Light Accel Net Path Vehicle LinkOps Sim SpecSim NetInv SimInv Safe SimSafe StepSafe OpSafe Evo StepEvo SimProofs NetEvo P_Net SpecRoute P_Lane DijProofs RouteProofs PlanProofs RouteEvo F64 RealArith SimExample LocCall P_Motion P_Route.
Import ListNotations.

Lemma set_nth_twice {X} n (x y : X) l : set_nth n y (set_nth n x l) = set_nth n y l.
Proof. revert n. induction l as [|z l IH]; intros [|n]; cbn [set_nth]; auto. rewrite IH. reflexivity. Qed.
Lemma sm_set_twice {V} (m : slotmap V) k x y : sm_set (sm_set m k x) k y = sm_set m k y.
Proof.
  destruct (sm_mem m k) eqn:E.
  - assert (sm_mem (sm_set m k x) k = true) as E2 by (apply sm_mem_get; exists x; rewrite sm_get_set, key_eqb_refl, E; reflexivity).
    unfold sm_set at 1. rewrite E2. unfold sm_set. rewrite E. cbn [sm_slots sm_free]. rewrite set_nth_twice. reflexivity.
  - unfold sm_set. rewrite E, E. reflexivity.
Qed.

Section P_Again.
  Context {A : Arith}.

  Lemma paths_forgotten links a d m p q : make_paths links (PF a d m p) = make_paths links (PF a d m q).
  Proof. reflexivity. Qed.
  (** What the search leaves is what it would leave the second time. *)
  Lemma reroute_again e links a d m p x q : reroute e links (PF a d m p) = Ok x ->
    pf_src x = a /\ pf_dst x = d /\ reroute e links (PF a d (pf_matrix x) q) = Ok (PF a d (pf_matrix x) q).
  Proof.
    unfold reroute. cbn [pf_src pf_dst pf_matrix pf_paths]. destruct (key_eqb a null_key || key_eqb d null_key); [intros H; injection H as <-; auto|].
    destruct (get_link links d) as [dl|?|]; cbn [bind]; try discriminate. destruct (reachable_from_lanes dl) as [g|?|]; cbn [bind]; try discriminate.
    destruct (dijkstra _ _ _ _ _) as [[(r, c)|]|?|]; cbn [bind]; try discriminate.
    - destruct (calc_lane_matrix links d r) as [m1|?|]; cbn [bind]; try discriminate. intros H; injection H as <-; auto.
    - intros H; injection H as <-; auto.
  Qed.
  Lemma destination_again e links pf d pf1 : pf_set_destination e links pf d = Ok pf1 -> pf_set_destination e links pf1 d = Ok pf1.
  Proof.
    unfold pf_set_destination. intros H. bok H x Hx. destruct (reroute_again _ _ _ _ _ _ _ (pf_paths pf1) Hx) as (E1 & E2 & E3).
    assert (pf_src pf1 = pf_src x /\ pf_dst pf1 = pf_dst x /\ pf_matrix pf1 = pf_matrix x) as (F1 & F2 & F3).
    { unfold make_paths in H. bok H r0 Hr0. bok H l Hl. bok H rs Hrs. injection H as <-. auto. }
    rewrite F1, E1, F3, E3. cbn [bind]. rewrite <- H. destruct x as [xa xd xm xp]. cbn [pf_src pf_dst pf_matrix] in *. subst. apply paths_forgotten.
  Qed.

  Lemma set_dest_eq e s k d v : vehicle_at s k = Some v ->
    exec e s (OSetDestination k d) = bind (pf_set_destination e (s_links s) (v_pathfind v) d) (fun pf => Ok (with_vehicles s (sm_set (s_vehicles s) k (set_can_exit (set_pathfind v pf) false)))).
  Proof.
    intros G. unfold vehicle_at in G. cbn [exec]. unfold set_vehicle_destination, get_vehicle. rewrite G. cbn [of_option bind]. unfold set_destination. destruct (pf_set_destination _ _ _ _); reflexivity.
  Qed.
  Lemma set_dest_ok e s k d s1 : exec e s (OSetDestination k d) = Ok s1 -> exists v pf, vehicle_at s k = Some v /\ pf_set_destination e (s_links s) (v_pathfind v) d = Ok pf /\
    s1 = with_vehicles s (sm_set (s_vehicles s) k (set_can_exit (set_pathfind v pf) false)) /\ vehicle_at s1 k = Some (set_can_exit (set_pathfind v pf) false).
  Proof.
    intros H. destruct (vehicle_at s k) as [v|] eqn:G.
    - rewrite (set_dest_eq _ _ _ _ _ G) in H. bok H pf Hpf. injection H as <-. exists v, pf. split; auto. split; auto. split; auto. unfold vehicle_at in *. cbn [with_vehicles s_vehicles]. rewrite sm_get_set, key_eqb_refl.
      replace (sm_mem (s_vehicles s) k) with true by (symmetry; apply sm_mem_get; eauto). reflexivity.
    - unfold vehicle_at in G. cbn [exec] in H. unfold set_vehicle_destination, get_vehicle in H. rewrite G in H. discriminate H.
  Qed.

  (** Setting the destination a second time succeeds and changes nothing at all. *)
  Theorem C93_again e s k d s1 : exec e s (OSetDestination k d) = Ok s1 -> exec e s1 (OSetDestination k d) = Ok s1.
  Proof.
    intros H. destruct (set_dest_ok _ _ _ _ _ H) as (v & pf & G & Hpf & E & G1). rewrite (set_dest_eq _ _ _ _ _ G1). subst s1. cbn [with_vehicles s_links s_vehicles].
    replace (v_pathfind (set_can_exit (set_pathfind v pf) false)) with pf by reflexivity. rewrite (destination_again _ _ _ _ _ Hpf). cbn [bind]. rewrite sm_set_twice. reflexivity.
  Qed.

  Lemma reroute_fresh e links a d m p m' p' : a = null_key \/ d = null_key \/
      (forall dl g, get_link links d = Ok dl -> reachable_from_lanes dl = Ok g -> dijkstra (e_fuel e) (e_pick e links a d) a (successors links) (fun k => key_mem k g) <> Ok None) ->
    bind (reroute e links (PF a d m p)) (make_paths links) = bind (reroute e links (PF a d m' p')) (make_paths links).
  Proof.
    unfold reroute. cbn [pf_src pf_dst pf_matrix pf_paths]. intros H. destruct (key_eqb a null_key || key_eqb d null_key) eqn:E; [cbn [bind]; apply paths_forgotten|].
    apply orb_false_elim in E. destruct E as (E1 & E2). destruct H as [->|[->|H]]; [discriminate E1|discriminate E2|].
    destruct (get_link links d) as [dl|?|]; cbn [bind]; try reflexivity. destruct (reachable_from_lanes dl) as [g|?|] eqn:Eg; cbn [bind]; try reflexivity. specialize (H dl g eq_refl Eg).
    destruct (dijkstra _ _ _ _ _) as [[(r, c)|]|?|]; cbn [bind]; try reflexivity; [|congruence].
    destruct (calc_lane_matrix links d r) as [m1|?|]; cbn [bind]; reflexivity.
  Qed.
  Lemma last_counts e1 e2 s k d1 d2 s1 v : exec e1 s (OSetDestination k d1) = Ok s1 -> vehicle_at s k = Some v ->
    pf_src (v_pathfind v) = null_key \/ d2 = null_key \/
      (forall dl g, get_link (s_links s) d2 = Ok dl -> reachable_from_lanes dl = Ok g ->
         dijkstra (e_fuel e2) (e_pick e2 (s_links s) (pf_src (v_pathfind v)) d2) (pf_src (v_pathfind v)) (successors (s_links s)) (fun k => key_mem k g) <> Ok None) ->
    exec e2 s1 (OSetDestination k d2) = exec e2 s (OSetDestination k d2).
  Proof.
    intros H G K. destruct (set_dest_ok _ _ _ _ _ H) as (v0 & pf & G0 & Hpf & E & G1). rewrite G in G0. injection G0 as <-. rewrite (set_dest_eq _ _ _ _ _ G1), (set_dest_eq _ _ _ _ _ G).
    assert (pf_src pf = pf_src (v_pathfind v)) as Es.
    { unfold pf_set_destination in Hpf. bok Hpf x Hx. destruct (reroute_again _ _ _ _ _ _ _ [] Hx) as (E1 & _). unfold make_paths in Hpf. bok Hpf r0 Hr0. bok Hpf l Hl. bok Hpf rs Hrs. injection Hpf as <-. exact E1. }
    subst s1. cbn [with_vehicles s_links s_vehicles]. replace (v_pathfind (set_can_exit (set_pathfind v pf) false)) with pf by reflexivity.
    unfold pf_set_destination. rewrite Es, (reroute_fresh e2 (s_links s) (pf_src (v_pathfind v)) d2 (pf_matrix pf) (pf_paths pf) (pf_matrix (v_pathfind v)) (pf_paths (v_pathfind v)) K).
    destruct (bind (reroute _ _ _) _) as [x|?|]; cbn [bind]; auto. rewrite sm_set_twice. reflexivity.
  Qed.
  (** Likewise for the control of a link: the last one set counts. *)
  Theorem C93_control e1 e2 s l c1 c2 s1 : exec e1 s (OSetControl l c1) = Ok s1 -> exec e2 s1 (OSetControl l c2) = exec e2 s (OSetControl l c2).
  Proof.
    cbn [exec]. unfold set_link_control, upd_link, get_link. destruct (sm_get (s_links s) l) as [x|] eqn:G; cbn [of_option bind]; [|discriminate]. intros H. injection H as <-.
    cbn [with_links s_links]. rewrite sm_get_set, key_eqb_refl. replace (sm_mem (s_links s) l) with true by (symmetry; apply sm_mem_get; eauto). cbn [of_option bind andb]. rewrite sm_set_twice. reflexivity.
  Qed.
  (** Freezing a frozen vehicle, or releasing one that is not frozen, changes nothing. *)
  Theorem C93_frozen e1 e2 s k b s1 : reachable s -> exec e1 s (OSetFrozen k b) = Ok s1 -> exec e2 s1 (OSetFrozen k b) = Ok s1.
  Proof.
    intros Re H. pose proof (i_frozen _ (reachable_Inv _ Re)) as N. cbn [exec] in *. injection H as <-. f_equal. pose proof (frozen_after s k b k N) as F. rewrite key_eqb_refl in F.
    set (t := set_vehicle_frozen s k b) in *. clearbody t. unfold get_vehicle_frozen in F. unfold set_vehicle_frozen.
    destruct b, (position (fun x => key_eqb x k) (s_frozen t)) as [i|] eqn:P; auto; exfalso.
    - revert F P. induction (s_frozen t) as [|x l IH]; cbn [existsb position]; [discriminate|]. destruct (key_eqb x k); [discriminate|]. cbn [orb]. destruct (position (fun x => key_eqb x k) l); [discriminate|]. auto.
    - apply position_some in P. destruct P as (x & Hx & Ex). apply nth_error_In in Hx. assert (existsb (fun y => key_eqb y k) (s_frozen t) = true) as Y by (apply existsb_exists; eauto). congruence.
  Qed.
End P_Again.
Print Assumptions C93_again.
Print Assumptions C93_control.
Print Assumptions C93_frozen.

(** If the second destination can be reached, or there is to be none, the first leaves no trace: the second call ends exactly as it would have without
    the first one. *)
Theorem C93_last : forall (A : Arith) ops e1 e2 s k d1 d2 s1 v a, @cast_in_range A -> history sim_new ops s -> groups_apart ops ->
  vehicle_at s k = Some v -> v_link v = Some a -> leads (s_links s) a d2 \/ d2 = null_key ->
  exec e1 s (OSetDestination k d1) = Ok s1 -> exec e2 s1 (OSetDestination k d2) = exec e2 s (OSetDestination k d2).
Proof.
  intros A ops e1 e2 s k d1 d2 s1 v a Cast Hist Ap G L K H. pose proof (history_Inv _ _ _ Hist Inv_new) as I. destruct (link_src _ _ _ _ I G L) as (Sa & Va).
  eapply last_counts; eauto. right. destruct K as [K|K]; [right|left; exact K]. intros dl g Gd Hg Hr. rewrite Sa in *.
  unfold get_link in Gd. destruct (sm_get (s_links s) d2) as [dl'|] eqn:Gd'; [|discriminate Gd]. injection Gd as ->.
  pose proof (search_ok ops s (s_links s) Hist (same_net_refl _) Ap (costs_ok ops s Hist Cast _ (same_net_refl _)) (e_fuel e2) (e_pick e2 (s_links s) a d2) _ _ _ _ Va Gd' Hg) as Z. rewrite Hr in Z. contradiction.
Qed.
Print Assumptions C93_last.

(** What is kept then is all of it: a vehicle sent where no way leads has the destination, and the table of the links it may drive on is the one it had. *)
Theorem C93_kept : forall (A : Arith) ops e s k d s' v v' a, @cast_in_range A -> history sim_new ops s -> groups_apart ops ->
  vehicle_at s k = Some v -> v_link v = Some a -> valid (s_links s) d -> ~ leads (s_links s) a d ->
  exec e s (OSetDestination k d) = Ok s' -> vehicle_at s' k = Some v' -> v_destination v' = d /\ v_route v' = v_route v /\ forall x, routed v' x <-> routed v x.
Proof.
  intros A ops e s k d s' v v' a Cast Hist Ap G L Vd NL H G'. pose proof (history_Inv _ _ _ Hist Inv_new) as I. destruct (link_src _ _ _ _ I G L) as (Sa & _).
  destruct (dest_bound _ _ _ _ _ _ _ _ Hist Ap Cast H G G') as (_ & Er & _ & Ed & _ & _ & _ & K). rewrite Sa in K. split; [exact Ed|]. split; [exact Er|]. intros x. unfold routed. rewrite (K NL Vd). reflexivity.
Qed.
Print Assumptions C93_kept.

(** A destination that cannot be reached does not replace the earlier one: the vehicle keeps the plan it had, and what it does depends on the first call. *)
Lemma again_ok :
  okb (run ex_env sim_new ex_before) (fun s0 => has_change s0 lane2 lane1 && has_out s0 lane1 exit1 && route_is s0 car1 [lane2] &&
  okb (exec ex_env s0 (OSetDestination car1 exit2)) (fun s1 => negb (in_table s1 car1 exit1)) &&
  okb (exec ex_env s0 (OSetDestination car1 exit1)) (fun s1 => has_candidate s1 car1 [lane1; exit1] && okb (exec ex_env s1 (OSetDestination car1 exit2)) (fun s2 => in_table s2 car1 exit1))) = true.
Proof. vm_compute. reflexivity. Qed.
Theorem C93_unreachable_refuted : exists s s1 s2 s2', reachable s /\ exec ex_env s (OSetDestination car1 exit1) = Ok s1 /\
  exec ex_env s1 (OSetDestination car1 exit2) = Ok s2 /\ exec ex_env s (OSetDestination car1 exit2) = Ok s2' /\ s2 <> s2'.
Proof.
  destruct (okb_ok _ _ again_ok) as (s & H0 & H). apply andb_prop in H. destruct H as (H & Hb). apply andb_prop in H. destruct H as (_ & Ha).
  destruct (okb_ok _ _ Ha) as (s2' & H2' & N). destruct (okb_ok _ _ Hb) as (s1 & H1 & Hc). apply andb_prop in Hc. destruct Hc as (_ & Hc). destruct (okb_ok _ _ Hc) as (s2 & H2 & Y).
  exists s, s1, s2, s2'. split; [eapply run_reachable; exact H0|]. split; [exact H1|]. split; [exact H2|]. split; [exact H2'|]. intros ->. rewrite Y in N. discriminate N.
Qed.
Print Assumptions C93_unreachable_refuted.

(** A car on the second lane is sent to a place it cannot reach, then to the exit it can reach by changing lane: as if it had been sent there at once. *)
Example C93_example : exists (s s1 s2 : @sim F64) v, history (@sim_new F64) ex_before s /\ groups_apart ex_before /\ @cast_in_range F64 /\ vehicle_at s car1 = Some v /\ v_link v = Some lane2 /\
  leads (s_links s) lane2 exit1 /\ exec ex_env s (OSetDestination car1 exit2) = Ok s1 /\ exec ex_env s1 (OSetDestination car1 exit1) = Ok s2 /\
  exec ex_env s (OSetDestination car1 exit1) = Ok s2 /\ exec ex_env s2 (OSetDestination car1 exit1) = Ok s2 /\ has_candidate s2 car1 [lane1; exit1] = true.
Proof.
  destruct (okb_ok _ _ again_ok) as (s & H0 & H). apply andb_prop in H. destruct H as (H & Hb). apply andb_prop in H. destruct H as (H & Ha). apply andb_prop in H. destruct H as (H & Hr). apply andb_prop in H. destruct H as (Hx & Ho).
  destruct (okb_ok _ _ Ha) as (s1 & H1 & _). destruct (okb_ok _ _ Hb) as (s2 & H2 & Hc). apply andb_prop in Hc. destruct Hc as (Hc & _). destruct (route_is_ok _ _ _ Hr) as (v & G & R0).
  assert (history (@sim_new F64) ex_before s) as Hist by (eapply run_history; exact H0).
  assert (v_link v = Some lane2) as L by (unfold v_link; rewrite R0; reflexivity).
  assert (leads (s_links s) lane2 exit1) as Ld by (eapply rt_trans; apply rt_step; [right; apply has_change_ok; exact Hx|left; apply has_out_ok; exact Ho]).
  exists s, s1, s2, v. split; [exact Hist|]. split; [exact ex_apart|]. split; [apply F64_cast|]. split; [exact G|]. split; [exact L|]. split; [exact Ld|]. split; [exact H1|].
  split; [rewrite (C93_last _ _ _ ex_env _ _ _ _ _ _ _ F64_cast Hist ex_apart G L (or_introl Ld) H1); exact H2|]. split; [exact H2|]. split; [exact (C93_again _ _ _ _ _ H2)|exact Hc].
Qed.
