(** * Properties C27-C30 and C56: routes, routing tables and candidate paths *)
From Coq Require Import List Bool ZArith NArith Arith Lia Relation_Operators Operators_Properties.
From Verif Require Import Arith Base BaseProofs SlotMap SlotMapProofs Util Geom Light Accel Net Path Vehicle LinkOps Sim SpecSim NetInv SimInv Safe SimSafe StepSafe OpSafe Evo StepEvo SimProofs NetEvo P_Net SpecRoute P_Lane DijProofs RouteProofs PlanProofs RouteEvo F64 RealArith SimExample P_Motion.
Import ListNotations.

(** The only law of the arithmetic used: a cast to an unsigned integer is in its range.  It holds of
    binary64 and of exact numbers. *)
Lemma F64_cast : @cast_in_range F64.
Proof. intros mx x H. cbn [ncast F64]. unfold f_cast. destruct x as [?|[]| |]; lia. Qed.
Lemma RA_cast : @cast_in_range RA.
Proof. intros mx x H. cbn [ncast RA]. lia. Qed.

Lemma plan_exists {A : Arith} (links : linkset) (m : matrix) r dist a : net_ok links -> valid links a -> inM m a -> exists p, plan links (inM m) r dist a (a :: p).
Proof.
  intros N. revert dist a. induction r as [|r IH]; intros dist a V Ma; [exists []; apply plan_stop; auto|].
  destruct (nltb dist (nofZ 200)) eqn:D; [|exists []; apply plan_stop; auto].
  apply sm_mem_get in V. destruct V as (l & G).
  assert ((exists b, In b (lk_out l) /\ inM m b) \/ forall b, In b (lk_out l) -> ~ inM m b) as [(b & Hb & Mb)|No].
  { clear. induction (lk_out l) as [|x xs IH]; [right; intros b []|]. destruct IH as [(b & Hb & Mb)|No]; [left; exists b; simpl; auto|].
    unfold inM in *. destruct (mx_get m x) eqn:E; [left; exists x; simpl; split; auto; congruence|right]. intros b [<-|Hb]; auto. }
  - assert (valid links b) as Vb by (pose proof (lo_out _ _ _ (nk_link _ N _ _ G)) as F; rewrite Forall_forall in F; auto).
    destruct (IH (nadd dist (lk_length l)) b Vb Mb) as (p & P). exists (b :: p). eapply plan_on; eauto.
  - exists []. apply plan_stop; auto. right. right. intros b (l' & G' & Hb). apply No. congruence.
Qed.

Section Calls.
  Context {A : Arith}.
  Lemma dest_bound ops e s k d s' v v' : history sim_new ops s -> groups_apart ops -> @cast_in_range A -> exec e s (OSetDestination k d) = Ok s' ->
    vehicle_at s k = Some v -> vehicle_at s' k = Some v' ->
    s_links s' = s_links s /\ v_route v' = v_route v /\ pf_src (v_pathfind v') = pf_src (v_pathfind v) /\ pf_dst (v_pathfind v') = d /\
    found (s_links s) (v_pathfind v') /\ planned_all (s_links s) (v_pathfind v') /\ (leads (s_links s) (pf_src (v_pathfind v)) d -> sound (s_links s) (v_pathfind v')) /\
    (~ leads (s_links s) (pf_src (v_pathfind v)) d -> valid (s_links s) d -> pf_matrix (v_pathfind v') = pf_matrix (v_pathfind v)).
  Proof.
    intros Hist Ap Cast H G G'. pose proof (history_Inv _ _ _ Hist Inv_new) as I. unfold vehicle_at in *. cbn [exec] in H. unfold set_vehicle_destination in H. bok H v0 Hv0. bok H v1 Hv1. injection H as <-.
    unfold get_vehicle in Hv0. rewrite G in Hv0. injection Hv0 as <-. cbn [s_vehicles with_vehicles] in G'. rewrite sm_get_set, key_eqb_refl in G'.
    replace (sm_mem (s_vehicles s) k) with true in G' by (symmetry; apply sm_mem_get; eauto). injection G' as <-.
    unfold set_destination in Hv1. bok Hv1 pfb Hpb. injection Hv1 as <-. cbn [set_can_exit set_pathfind v_route v_pathfind s_links with_vehicles].
    unfold pf_set_destination in Hpb. apply bind_ok in Hpb. destruct Hpb as (pfa & Ha & Hm). apply make_paths_planned in Hm. destruct Hm as (M1 & M2 & M3 & M4).
    set (pf0 := PF (pf_src (v_pathfind v)) d (pf_matrix (v_pathfind v)) (pf_paths (v_pathfind v))) in Ha.
    pose proof (vbase_src _ _ _ _ (st_veh _ _ _ (i_st _ I) _ _ G)) as Vs.
    assert (pf_dst_ok (s_links s) pf0) as D.
    { unfold pf_dst_ok. cbn [pf0 pf_dst]. unfold reroute in Ha. cbn [pf0 pf_src pf_dst] in Ha. destruct (key_eqb_spec d null_key) as [->|Nd]; auto. right.
      replace (key_eqb (pf_src (v_pathfind v)) null_key) with false in Ha by (symmetry; apply key_eqb_neq, (valid_not_null ops s _ Hist (same_net_refl _)); auto).
      cbn [orb] in Ha. apply bind_ok in Ha. destruct Ha as (dl & Gd & _). unfold get_link in Gd. apply sm_mem_get. destruct (sm_get (s_links s) d); [eauto|discriminate Gd]. }
    destruct (reroute_sound ops s Hist Ap Cast e (s_links s) pf0 pfa (same_net_refl _) Vs D Ha) as (E1 & E2 & _ & E4 & E5). cbn [pf0 pf_src pf_dst] in E1, E2, E5.
    split; auto. split; auto. split; [congruence|]. split; [congruence|]. split; [unfold found in *; rewrite M1, M2, M3; exact E4|]. split; [exact M4|].
    split; [intros L; unfold sound in *; rewrite M2, M3; apply E5; exact L|].
    intros NL Vd. destruct (reroute_ok ops s (s_links s) Hist (same_net_refl _) Ap (costs_ok ops s Hist Cast _ (same_net_refl _)) e pf0 pfa Vs Vd Ha) as (_ & _ & _ & K). rewrite M3, (K NL). reflexivity.
  Qed.
  Lemma link_src s k v a : Inv s -> vehicle_at s k = Some v -> v_link v = Some a -> pf_src (v_pathfind v) = a /\ valid (s_links s) a.
  Proof. intros I G L. destruct (vbase_link _ _ _ _ (st_veh _ _ _ (i_st _ I) _ _ G)) as (x & Hx & V & E). rewrite L in Hx. injection Hx as <-. auto. Qed.
  Lemma found_candidate s k v a : Inv s -> vehicle_at s k = Some v -> v_link v = Some a -> planned_all (s_links s) (v_pathfind v) -> routed v a -> exists p, In (a :: p) (candidates v).
  Proof.
    intros I G L (_ & P) R. destruct (link_src _ _ _ _ I G L) as (E & V). destruct (plan_exists (s_links s) (pf_matrix (v_pathfind v)) 7 n0 a) as (p & Hp); auto; [apply I|].
    exists p. apply P. exists a. rewrite E. auto.
  Qed.
  Lemma dest_there e s k d s' : exec e s (OSetDestination k d) = Ok s' -> exists v v', vehicle_at s k = Some v /\ vehicle_at s' k = Some v'.
  Proof.
    intros H. cbn [exec] in H. unfold set_vehicle_destination in H. bok H v0 Hv0. bok H v1 Hv1. injection H as <-. unfold get_vehicle in Hv0. unfold vehicle_at.
    destruct (sm_get (s_vehicles s) k) as [v|] eqn:G; [|discriminate Hv0]. exists v, v1. split; auto. cbn [s_vehicles with_vehicles]. rewrite sm_get_set, key_eqb_refl.
    replace (sm_mem (s_vehicles s) k) with true by (symmetry; apply sm_mem_get; eauto). reflexivity.
  Qed.
End Calls.

(** ** C30: the shortest-path search *)
(** In every graph without negative costs, whichever of several cheapest entries is taken first: a
    route that is found leads to a goal and no route to a goal costs less; if none is found there is none. *)
Theorem C30_least_cost :
  forall (succ : key -> res (list (key * Z))) goal start fuel pick,
    (forall a es b w, succ a = Ok es -> In (b, w) es -> (0 <= w)%Z) ->
    match dijkstra fuel pick start succ goal with
    | Ok (Some (p, c)) => (exists b, goal b = true /\ route succ start p b c) /\ forall p' b' c', goal b' = true -> route succ start p' b' c' -> (c <= c')%Z
    | Ok None => forall p b c, route succ start p b c -> goal b = false
    | _ => True
    end.
Proof.
  intros succ goal start fuel pick W. destruct (dijkstra fuel pick start succ goal) as [[(p, c)|]| |] eqn:E; auto.
  - destruct (dijkstra_some succ goal start W _ _ _ _ E) as ((k & Hk) & Mn). split; [eauto|]. intros p' b' c' Hg Hr. eapply Mn; eauto.
  - intros p b c Hr. eapply (dijkstra_none succ goal start W); eauto.
Qed.
Print Assumptions C30_least_cost.
(** It ends, after at most as many rounds as there are edges, plus two: the fuel, which limits the rounds and the length
    of the route, is not what stops it. *)
Theorem C30_ends :
  forall (succ : key -> res (list (key * Z))) goal start nodes fuel pick,
    (forall a es b w, succ a = Ok es -> In (b, w) es -> (0 <= w)%Z) ->
    NoDup nodes -> In start nodes ->
    (forall a, In a nodes -> exists es, succ a = Ok es /\ forall b w, In (b, w) es -> In b nodes) ->
    1 + list_sum (map (fun a => match succ a with Ok es => length es | _ => 0 end) nodes) < fuel -> length nodes < fuel ->
    match dijkstra fuel pick start succ goal with Ok _ => True | Panic p => p = POverflow | OutOfFuel => False end.
Proof.
  intros succ goal start nodes fuel pick W Nd Hs Hn F1 F2. destruct (dijkstra fuel pick start succ goal) as [r|p|] eqn:E; auto.
  - eapply (dijkstra_panic succ goal (fun a => In a nodes)); [exact Hs| |exact E]. intros a Ha. destruct (Hn a Ha) as (es & Ee & He). rewrite Ee. split; [congruence|].
    intros es' b w Eq Hb. injection Eq as <-. eauto.
  - revert E. apply (dijkstra_ends succ goal start W nodes); auto.
    + intros a es b w Ha Ee Hb. destruct (Hn a Ha) as (es' & E' & He). rewrite Ee in E'. injection E' as <-. eauto.
    + intros a Ha. destruct (Hn a Ha) as (es' & E' & _). congruence.
Qed.
Print Assumptions C30_ends.
(** On the roads a history of calls has built, whose groups do not overlap: the search from a link to the lanes from which
    lane changes lead to the destination finds the cheapest drive, and finds one if and only if the
    destination can be reached. *)
Theorem C30_roads :
  forall (A : Arith) ops s fuel pick src dst l goals, @cast_in_range A -> history sim_new ops s -> groups_apart ops ->
    valid (s_links s) src -> link_at s dst = Some l -> reachable_from_lanes l = Ok goals ->
    match dijkstra fuel pick src (successors (s_links s)) (fun k => key_mem k goals) with
    | Ok (Some (p, c)) =>
        leads (s_links s) src dst /\ (exists b, drive (s_links s) src p b c /\ changes (s_links s) b dst) /\
        forall p' b' c', drive (s_links s) src p' b' c' -> changes (s_links s) b' dst -> (c <= c')%Z
    | Ok None => ~ leads (s_links s) src dst
    | Panic p => p = POverflow
    | OutOfFuel => True
    end.
Proof.
  intros A ops s fuel pick src dst l goals Cast Hist Ap V G E.
  pose proof (search_ok ops s (s_links s) Hist (same_net_refl _) Ap (costs_ok ops s Hist Cast _ (same_net_refl _)) fuel pick src dst l goals V G E) as S.
  destruct (dijkstra fuel pick src (successors (s_links s)) (fun k => key_mem k goals)) as [[(p, c)|]|p|]; auto.
  destruct S as ((b & D & Hb) & Mn). split; [|split; eauto]. apply leads_drive. eauto.
Qed.
Print Assumptions C30_roads.
Theorem C30_roads_end :
  forall (A : Arith) ops s, @cast_in_range A -> history sim_new ops s -> groups_apart ops ->
    exists n, forall fuel pick src goal, n <= fuel -> valid (s_links s) src -> dijkstra fuel pick src (successors (s_links s)) goal <> OutOfFuel.
Proof.
  intros A ops s Cast Hist Ap. exact (search_ends ops s (s_links s) Hist (same_net_refl _) Ap (costs_ok ops s Hist Cast _ (same_net_refl _))).
Qed.
Print Assumptions C30_roads_end.

(** ** C29: a destination that can be reached is routed *)
Theorem C29_routed :
  forall (A : Arith) ops e s k d s' v a, @cast_in_range A -> history sim_new ops s -> groups_apart ops ->
    exec e s (OSetDestination k d) = Ok s' -> vehicle_at s k = Some v -> v_link v = Some a -> leads (s_links s) a d ->
    exists v', vehicle_at s' k = Some v' /\ v_destination v' = d /\ v_link v' = Some a /\ routed v' a /\ exists p, In (a :: p) (candidates v').
Proof.
  intros A ops e s k d s' v a Cast Hist Ap H G L Ld. pose proof (history_Inv _ _ _ Hist Inv_new) as I. destruct (dest_there _ _ _ _ _ H) as (v0 & v' & G0 & G').
  destruct (dest_bound _ _ _ _ _ _ _ _ Hist Ap Cast H G G') as (El & Er & Es & Ed & Fo & Pl & _ & _). destruct (link_src _ _ _ _ I G L) as (Sa & Va).
  assert (v_link v' = Some a) as L' by (unfold v_link in *; rewrite Er; exact L).
  assert (routed v' a) as R by (unfold routed, found, inM in *; rewrite Es, Sa, Ed in Fo; auto).
  exists v'. split; auto. split; auto. split; auto. split; auto. eapply (found_candidate s'); eauto; [eapply exec_Inv; eauto|rewrite El; exact Pl].
Qed.
Print Assumptions C29_routed.
(** And so it is from then on, wherever the vehicle gets, as long as the roads stay the same and the destination is
    not changed: if its link leads to the destination there is a candidate path from it. *)
Theorem C29_later :
  forall (A : Arith) ops1 e s0 k d s1 ops2 s v a, @cast_in_range A -> history sim_new ops1 s0 -> exec e s0 (OSetDestination k d) = Ok s1 -> history s1 ops2 s ->
    groups_apart (ops1 ++ ops2) -> (forall o, In o ops2 -> redirects k o = false /\ builds o = false) ->
    vehicle_at s k = Some v -> v_link v = Some a ->
    v_destination v = d /\ (leads (s_links s) a d -> routed v a /\ exists p, In (a :: p) (candidates v)).
Proof.
  intros A ops1 e s0 k d s1 ops2 s v a Cast Hist H H2 Ap Ho G L.
  assert (history sim_new (ops1 ++ [OSetDestination k d]) s1) as Hist1 by (eapply history_app; [exact Hist|econstructor; [exact H|constructor]]).
  assert (groups_apart ((ops1 ++ [OSetDestination k d]) ++ ops2)) as Ap1 by (unfold groups_apart in *; rewrite !flat_map_app in *; simpl; rewrite app_nil_r; exact Ap).
  destruct (dest_there _ _ _ _ _ H) as (v0 & v1 & G0 & G1).
  destruct (dest_bound _ _ _ _ _ _ _ _ Hist (apart_app _ _ Ap) Cast H G0 G1) as (El & Er & Es & Ed & Fo & Pl & _ & _).
  assert (bound_for d found s1 k /\ bound_for d planned_all s1 k) as (B1 & B2).
  { unfold bound_for, vehicle_at in *. split; (split; [eapply issued_mem; exact G1|]); intros w Gw; rewrite G1 in Gw; injection Gw as <-; rewrite El; auto. }
  destruct (history_bound _ _ _ _ k d Hist1 H2 Ap1 Cast (fun o Hi => proj1 (Ho o Hi))) as (_ & K). destruct (K (fun o Hi => proj2 (Ho o Hi))) as (K1 & K2).
  destruct (K1 B1) as (_ & F). destruct (F _ G) as (Dd & Ff). destruct (K2 B2) as (_ & P). destruct (P _ G) as (_ & Pp).
  pose proof (history_Inv _ _ _ H2 (history_Inv _ _ _ Hist1 Inv_new)) as I. destruct (link_src _ _ _ _ I G L) as (Sa & Va). split; [exact Dd|].
  intros Ld. assert (routed v a) as R by (unfold found in Ff; rewrite Sa, Dd in Ff; apply Ff; exact Ld). split; auto. eapply found_candidate; eauto.
Qed.
Print Assumptions C29_later.

(** ** C28: the table leads to the destination *)
(** After a call that sends the vehicle to a destination it can reach, and after any further calls that
    do not redirect it, even if they extend the roads. *)
Theorem C28_leads :
  forall (A : Arith) ops1 e s0 k d s1 ops2 s v0 a v x, @cast_in_range A -> history sim_new ops1 s0 ->
    vehicle_at s0 k = Some v0 -> v_link v0 = Some a -> leads (s_links s0) a d -> exec e s0 (OSetDestination k d) = Ok s1 -> history s1 ops2 s ->
    groups_apart (ops1 ++ ops2) -> (forall o, In o ops2 -> redirects k o = false) ->
    vehicle_at s k = Some v -> routed v x -> v_destination v = d /\ leads (s_links s) x d.
Proof.
  intros A ops1 e s0 k d s1 ops2 s v0 a v x Cast Hist G0 L0 Ld H H2 Ap Ho G R.
  assert (history sim_new (ops1 ++ [OSetDestination k d]) s1) as Hist1 by (eapply history_app; [exact Hist|econstructor; [exact H|constructor]]).
  assert (groups_apart ((ops1 ++ [OSetDestination k d]) ++ ops2)) as Ap1 by (unfold groups_apart in *; rewrite !flat_map_app in *; simpl; rewrite app_nil_r; exact Ap).
  destruct (dest_there _ _ _ _ _ H) as (v0' & v1 & _ & G1).
  destruct (dest_bound _ _ _ _ _ _ _ _ Hist (apart_app _ _ Ap) Cast H G0 G1) as (El & Er & Es & Ed & _ & _ & So & _).
  destruct (link_src _ _ _ _ (history_Inv _ _ _ Hist Inv_new) G0 L0) as (Sa & _). rewrite Sa in So. specialize (So Ld).
  assert (bound_for d sound s1 k) as B. { unfold bound_for, vehicle_at in *. split; [eapply issued_mem; exact G1|]; intros w Gw; rewrite G1 in Gw; injection Gw as <-; rewrite El; auto. }
  destruct (history_bound _ _ _ _ k d Hist1 H2 Ap1 Cast Ho) as (K & _). destruct (K B) as (_ & F). destruct (F _ G) as (Dd & Ff). split; [exact Dd|]. rewrite <- Dd. apply Ff. exact R.
Qed.
Print Assumptions C28_leads.
(** If the destination cannot be reached, the call silently keeps the table of the previous destination. *)
Theorem C28_unreachable_keeps_table :
  forall (A : Arith) ops e s k d s' v v' a, @cast_in_range A -> history sim_new ops s -> groups_apart ops ->
    exec e s (OSetDestination k d) = Ok s' -> vehicle_at s k = Some v -> v_link v = Some a -> valid (s_links s) d -> ~ leads (s_links s) a d ->
    vehicle_at s' k = Some v' -> v_destination v' = d /\ forall x, routed v' x <-> routed v x.
Proof.
  intros A ops e s k d s' v v' a Cast Hist Ap H G L Vd NL G'. destruct (dest_bound _ _ _ _ _ _ _ _ Hist Ap Cast H G G') as (_ & _ & _ & Ed & _ & _ & _ & K).
  destruct (link_src _ _ _ _ (history_Inv _ _ _ Hist Inv_new) G L) as (Sa & _). rewrite Sa in K. split; [exact Ed|]. unfold routed. rewrite (K NL Vd). tauto.
Qed.
Print Assumptions C28_unreachable_keeps_table.

(** ** C27: the candidate paths *)
(** Over every history: the candidate paths of a vehicle on link [a] are all the planned paths from [a], over its
    table and the roads as they were after some first part of the history, and no others; those that end in its
    destination, and only those, allow it to leave there. *)
Theorem C27_planned :
  forall (A : Arith) ops s k v a, history sim_new ops s -> vehicle_at s k = Some v -> v_link v = Some a ->
    (exists ops1 ops2 s0, ops = ops1 ++ ops2 /\ history sim_new ops1 s0 /\ history s0 ops2 s /\ forall p, In p (candidates v) <-> planned (s_links s0) (routed v) a p) /\
    forall p, In p (pf_paths (v_pathfind v)) -> (pt_exit p = true <-> last (pt_links p) null_key = v_destination v).
Proof.
  intros A ops s k v a Hist G L. destruct (history_planned _ _ Hist _ _ G) as (ops1 & ops2 & s0 & E & H1 & H2 & P1 & P2).
  destruct (link_src _ _ _ _ (history_Inv _ _ _ Hist Inv_new) G L) as (Sa & _). rewrite Sa in *. split; [|intros p Hp; apply P1; auto].
  exists ops1, ops2, s0. split; auto. split; auto. split; auto. intros p. split; [|apply P2]. unfold candidates. rewrite in_map_iff. intros (q & <- & Hq). apply P1. auto.
Qed.
Print Assumptions C27_planned.
(** In particular each has 1 to 8 links, starts on the vehicle's link or on a lane it may change to, follows [links_out()] and stays on the
    links of the table. *)
Theorem C27_bounds :
  forall (A : Arith) ops s k v a p, history sim_new ops s -> vehicle_at s k = Some v -> v_link v = Some a -> In p (candidates v) ->
    1 <= length p <= 8 /\ (exists b, hd_error p = Some b /\ (b = a \/ chg_of (s_links s) a b)) /\ chain (s_links s) p /\ forall x, In x p -> routed v x.
Proof.
  intros A ops s k v a p Hist G L Hp. destruct (C27_planned _ _ _ _ _ _ Hist G L) as ((ops1 & ops2 & s0 & _ & H1 & H2 & P) & _). pose proof Hp as Hq. apply P in Hp. destruct Hp as (b & Hb & Pl). 
  assert (forall r dist b p, plan (s_links s0) (routed v) r dist b p -> length p <= S r /\ hd_error p = Some b) as K1.
  { clear. induction 1; simpl; split; auto; try lia. }
  destruct (K1 _ _ _ _ Pl) as (Len & Hd). split; [split; [destruct p; [discriminate Hd|simpl; lia]|lia]|].
  pose proof (history_Inv _ _ _ Hist Inv_new) as I. destruct (link_src _ _ _ _ I G L) as (Sa & _). pose proof (vb_paths _ _ _ _ (st_veh _ _ _ (i_st _ I) _ _ G)) as F.
  unfold candidates in Hq. apply in_map_iff in Hq. destruct Hq as (q & <- & Hq). rewrite Forall_forall in F. destruct (F _ Hq) as (f & (F1 & F2 & _) & F3).
  split; [|split].
  - exists f. rewrite <- Sa. auto.
  - exact F1.
  - intros x Hx. eapply plan_in; eauto.
Qed.
Print Assumptions C27_bounds.
(** ** C56: a routed vehicle does not get lost *)
(** From the call that sends it to a destination it can reach, made when the vehicle's route is just the link it is on
    (as it is after it was added), until it is sent elsewhere, is made to change lane by the user or has left: the destination can be
    reached from the vehicle's link and from every link of its planned route, even if roads are added. *)
Theorem C56_never_lost :
  forall (A : Arith) ops1 e s0 k d s1 ops2 s v0 a v x, @cast_in_range A -> history sim_new ops1 s0 ->
    vehicle_at s0 k = Some v0 -> v_route v0 = [a] -> leads (s_links s0) a d -> exec e s0 (OSetDestination k d) = Ok s1 -> history s1 ops2 s ->
    groups_apart (ops1 ++ ops2) -> (forall o, In o ops2 -> redirects k o = false /\ moves k o = false) ->
    vehicle_at s k = Some v -> v_link v = Some x \/ In x (v_route v) -> leads (s_links s) x d.
Proof.
  intros A ops1 e s0 k d s1 ops2 s v0 a v x Cast Hist G0 R0 Ld H H2 Ap Ho G Hx.
  assert (v_link v0 = Some a) as L0 by (unfold v_link; rewrite R0; reflexivity). pose proof (history_Inv _ _ _ Hist Inv_new) as I0.
  assert (In x (v_route v)) as Hr by (destruct Hx as [Hx|Hx]; auto; unfold v_link in Hx; destruct (v_route v); [discriminate Hx|injection Hx as ->; left; auto]). clear Hx.
  destruct (dest_there _ _ _ _ _ H) as (v0' & v1 & _ & G1).
  destruct (dest_bound _ _ _ _ _ _ _ _ Hist (apart_app _ _ Ap) Cast H G0 G1) as (El & Er & Es & Ed & Fo & Pl & _ & _).
  destruct (link_src _ _ _ _ I0 G0 L0) as (Sa & _).
  assert (on_track (pf_matrix (v_pathfind v)) v) as (_ & T & _).
  { assert (on_track (pf_matrix (v_pathfind v1)) v1) as T1.
    { split; auto. split; [|intros p y Hp Hy; eapply planned_in; eauto]. intros y Hy. rewrite Er, R0 in Hy. destruct Hy as [<-|[]]. unfold found in Fo. rewrite Es, Ed, Sa in Fo. auto. }
    pose proof (history_track s1 ops2 s (pf_matrix (v_pathfind v1)) k H2 (exec_Inv _ _ _ _ I0 H) Ho) as K. unfold vehicle_at in *.
    destruct (K (issued_mem _ _ _ G1) ltac:(intros w Gw; rewrite G1 in Gw; injection Gw as <-; exact T1) _ G) as (E & K2). rewrite E. split; auto. }
  eapply C28_leads; eauto; [intros o Hi; apply (Ho o Hi)|]. apply T. exact Hr.
Qed.
Print Assumptions C56_never_lost.

(** The same with the roads as they are, if they were not changed since the vehicle was sent to its destination. *)
Theorem C27_current :
  forall (A : Arith) ops1 e s0 k d s1 ops2 s v a, @cast_in_range A -> history sim_new ops1 s0 -> exec e s0 (OSetDestination k d) = Ok s1 -> history s1 ops2 s ->
    groups_apart (ops1 ++ ops2) -> (forall o, In o ops2 -> redirects k o = false /\ builds o = false) ->
    vehicle_at s k = Some v -> v_link v = Some a -> forall p, In p (candidates v) <-> planned (s_links s) (routed v) a p.
Proof.
  intros A ops1 e s0 k d s1 ops2 s v a Cast Hist H H2 Ap Ho G L.
  assert (history sim_new (ops1 ++ [OSetDestination k d]) s1) as Hist1 by (eapply history_app; [exact Hist|econstructor; [exact H|constructor]]).
  assert (groups_apart ((ops1 ++ [OSetDestination k d]) ++ ops2)) as Ap1 by (unfold groups_apart in *; rewrite !flat_map_app in *; simpl; rewrite app_nil_r; exact Ap).
  destruct (dest_there _ _ _ _ _ H) as (v0 & v1 & G0 & G1).
  destruct (dest_bound _ _ _ _ _ _ _ _ Hist (apart_app _ _ Ap) Cast H G0 G1) as (El & Er & Es & Ed & Fo & Pl & _ & _).
  assert (bound_for d planned_all s1 k) as B.
  { unfold bound_for, vehicle_at in *. split; [eapply issued_mem; exact G1|]; intros w Gw; rewrite G1 in Gw; injection Gw as <-; rewrite El; auto. }
  destruct (history_bound _ _ _ _ k d Hist1 H2 Ap1 Cast (fun o Hi => proj1 (Ho o Hi))) as (_ & K). destruct (K (fun o Hi => proj2 (Ho o Hi))) as (_ & K2).
  destruct (K2 B) as (_ & P). destruct (P _ G) as (_ & P1 & P2).
  destruct (link_src _ _ _ _ (history_Inv _ _ _ H2 (history_Inv _ _ _ Hist1 Inv_new)) G L) as (Sa & _). rewrite Sa in *.
  intros p. split; [|apply P2]. unfold candidates. rewrite in_map_iff. intros (q & <- & Hq). apply P1. auto.
Qed.
Print Assumptions C27_current.

(** ** The cases the theorems speak of occur *)
Definition has_change (s : @sim F64) (a b : key) : bool := match sm_get (s_links s) a with Some l => existsb (key_eqb b) (lk_changes l) | None => false end.
Definition has_out (s : @sim F64) (a b : key) : bool := match sm_get (s_links s) a with Some l => existsb (key_eqb b) (lk_out l) | None => false end.
Definition route_is (s : @sim F64) (k : key) (r : list key) : bool := match sm_get (s_vehicles s) k with Some v => keys_eqb (v_route v) r | None => false end.
Definition has_candidate (s : @sim F64) (k : key) (r : list key) : bool :=
  match sm_get (s_vehicles s) k with Some v => existsb (fun p => keys_eqb p r) (candidates v) | None => false end.
Definition in_table (s : @sim F64) (k x : key) : bool :=
  match sm_get (s_vehicles s) k with Some v => match mx_get (pf_matrix (v_pathfind v)) x with Some _ => true | None => false end | None => false end.
Definition dead_end (s : @sim F64) (a : key) : bool := match sm_get (s_links s) a with Some l => match lk_out l, lk_changes l with [], [] => true | _, _ => false end | None => false end.
Definition ex_before : list (@op F64) := Eval cbv [firstn ex_setup] in firstn 11 ex_setup.
Lemma ex_route_ok :
  okb (run ex_env sim_new ex_before) (fun s0 => has_change s0 lane2 lane1 && has_out s0 lane1 exit1 && route_is s0 car1 [lane2] && negb (in_table s0 car1 lane2) &&
  okb (exec ex_env s0 (OSetDestination car1 exit1)) (fun s1 => in_table s1 car1 lane2 && in_table s1 car1 lane1 && in_table s1 car1 exit1 &&
    has_candidate s1 car1 [lane2] && has_candidate s1 car1 [lane1; exit1] &&
  okb (run ex_env s1 (ex_steps 2)) (fun s2 => route_is s2 car1 [lane1; exit1]) &&
  okb (exec ex_env s1 (OSetDestination car1 exit2)) (fun s3 => in_table s3 car1 exit1 && negb (in_table s3 car1 exit2) && dead_end s3 exit1))) = true.
Proof. vm_compute. reflexivity. Qed.
Lemma has_change_ok s a b : has_change s a b = true -> chg_of (s_links s) a b.
Proof. unfold has_change, chg_of. destruct (sm_get (s_links s) a) as [l|]; [|discriminate]. intros H. exists l. split; auto. apply existsb_key in H. auto. Qed.
Lemma has_out_ok s a b : has_out s a b = true -> succ_of (s_links s) a b.
Proof. unfold has_out, succ_of. destruct (sm_get (s_links s) a) as [l|]; [|discriminate]. intros H. exists l. split; auto. apply existsb_key in H. auto. Qed.
Lemma route_is_ok s k r : route_is s k r = true -> exists v, vehicle_at s k = Some v /\ v_route v = r.
Proof. unfold route_is, vehicle_at. destruct (sm_get (s_vehicles s) k) as [v|]; [|discriminate]. intros H. exists v. split; auto. apply keys_eqb_eq. auto. Qed.
Lemma ex_apart : groups_apart ex_before.
Proof. unfold groups_apart. cbn [ex_before flat_map app]. repeat constructor; simpl; intuition discriminate. Qed.

(** A car on the second of two lanes; its destination follows the first.  The hypotheses of [C27_current], [C28_leads], [C29_routed], [C29_later]
    and [C56_never_lost] hold, and after two steps the car has changed lane. *)
Example C27_C28_C29_C56_example : exists s0 v0 s1 s2 v2,
  history (@sim_new F64) ex_before s0 /\ vehicle_at s0 car1 = Some v0 /\ v_route v0 = [lane2] /\ leads (s_links s0) lane2 exit1 /\
  exec ex_env s0 (OSetDestination car1 exit1) = Ok s1 /\ history s1 (ex_steps 2) s2 /\ groups_apart (ex_before ++ ex_steps 2) /\
  (forall o, In o (ex_steps 2) -> redirects car1 o = false /\ moves car1 o = false /\ builds o = false) /\
  vehicle_at s2 car1 = Some v2 /\ v_route v2 = [lane1; exit1].
Proof.
  destruct (okb_ok _ _ ex_route_ok) as (s0 & H0 & H). bsplit H. destruct (okb_ok _ _ B) as (s1 & H1 & Hb). bsplit Hb. destruct (okb_ok _ _ B4) as (s2 & H2 & Hc).
  destruct (route_is_ok _ _ _ B1) as (v0 & G0 & R0). destruct (route_is_ok _ _ _ Hc) as (v2 & G2 & R2).
  exists s0, v0, s1, s2, v2. split; [eapply run_history; exact H0|]. split; [exact G0|]. split; [exact R0|]. split.
  { eapply rt_trans; apply rt_step; [right; apply has_change_ok; eassumption|left; apply has_out_ok; eassumption]. }
  split; [exact H1|]. split; [eapply run_history; exact H2|]. split; [exact ex_apart|].
  split; [|auto]. intros o Ho. apply repeat_spec in Ho. subst o. auto.
Qed.

(** Without the condition that the destination can be reached, the table may contain a link from which it cannot. *)
Lemma dead_end_ok s a b : dead_end s a = true -> leads (s_links s) a b -> b = a.
Proof.
  unfold dead_end. intros H L. apply clos_rt_rt1n in L. destruct L as [|y z [(l & G & Hy)|(l & G & Hy)] _]; auto; rewrite G in H; destruct (lk_out l), (lk_changes l); try discriminate H; destruct Hy.
Qed.
Theorem C28_stale_table_refuted : exists ops s v x, history (@sim_new F64) ops s /\ groups_apart ops /\ vehicle_at s car1 = Some v /\
  routed v x /\ valid (s_links s) (v_destination v) /\ ~ leads (s_links s) x (v_destination v).
Proof.
  destruct (okb_ok _ _ ex_route_ok) as (s0 & H0 & H). bsplit H. destruct (okb_ok _ _ B) as (s1 & H1 & Hb). bsplit Hb. destruct (okb_ok _ _ B3) as (s3 & H3 & Hc). bsplit Hc.
  assert (history (@sim_new F64) (ex_before ++ [OSetDestination car1 exit1] ++ [OSetDestination car1 exit2]) s3) as Hh.
  { eapply history_app; [eapply run_history; exact H0|]. eapply history_app; econstructor; [exact H1|constructor|exact H3|constructor]. }
  pose proof (history_Inv _ _ _ Hh Inv_new) as I. destruct (dest_there _ _ _ _ _ H3) as (v1 & v & G1 & G).
  exists (ex_before ++ [OSetDestination car1 exit1] ++ [OSetDestination car1 exit2]), s3, v, exit1. split; [exact Hh|]. split; [exact ex_apart|].
  split; [exact G|]. assert (v_destination v = exit2) as Ed.
  { eapply (dest_bound (ex_before ++ [OSetDestination car1 exit1]) ex_env s1 car1 exit2 s3 v1 v); [|exact ex_apart|apply F64_cast|exact H3|exact G1|exact G].
    eapply history_app; [eapply run_history; exact H0|econstructor; [exact H1|constructor]]. }
  split; [unfold in_table in Hc; unfold vehicle_at in G; rewrite G in Hc; unfold routed; destruct (mx_get _ exit1); [congruence|discriminate Hc]|].
  split; [destruct (vehicle_dst _ _ _ I G) as [D|D]; [unfold v_destination in Ed; rewrite D in Ed; discriminate Ed|exact D]|].
  intros L. apply (dead_end_ok _ _ _ B9) in L. rewrite Ed in L. discriminate L.
Qed.
Print Assumptions C28_stale_table_refuted.

(** The search on these roads, from the second lane to the exit. *)
Lemma ex_search_ok : okb (run ex_env sim_new ex_before) (fun s =>
  match sm_get (s_links s) exit1 with
  | Some l => okb (reachable_from_lanes l) (fun goals => okb (dijkstra 20 (fun _ => 0) lane2 (successors (s_links s)) (fun k => key_mem k goals)) (fun r =>
      match r with Some (p, c) => keys_eqb p [lane2; exit1] && Z.ltb 0 c | None => false end))
  | None => false end) = true.
Proof. vm_compute. reflexivity. Qed.
Example C30_example : exists s l goals c, history (@sim_new F64) ex_before s /\ groups_apart ex_before /\ link_at s exit1 = Some l /\ reachable_from_lanes l = Ok goals /\
  dijkstra 20 (fun _ => 0) lane2 (successors (s_links s)) (fun k => key_mem k goals) = Ok (Some ([lane2; exit1], c)) /\ (0 < c)%Z.
Proof.
  destruct (okb_ok _ _ ex_search_ok) as (s & H0 & H). destruct (sm_get (s_links s) exit1) as [l|] eqn:G; [|discriminate H]. destruct (okb_ok _ _ H) as (goals & Hg & H'). destruct (okb_ok _ _ H') as (r & Hr & Hc).
  destruct r as [(p, c)|]; [|discriminate Hc]. bsplit Hc. apply keys_eqb_eq in Hc. subst p. apply Z.ltb_lt in B. exists s, l, goals, c. split; [eapply run_history; exact H0|]. split; [exact ex_apart|]. auto.
Qed.
(** Two routes of the same cost, and one that is cheaper although it has more links: whichever heap order. *)
Definition ex_graph (k : key) : res (list (key * Z)) :=
  Ok (if key_eqb k (Key 1 1) then [(Key 2 1, 1%Z); (Key 3 1, 1%Z); (Key 4 1, 5%Z)]
      else if key_eqb k (Key 2 1) then [(Key 4 1, 2%Z)] else if key_eqb k (Key 3 1) then [(Key 4 1, 2%Z)] else []).
Example C30_graph_example :
  (forall a es b w, ex_graph a = Ok es -> In (b, w) es -> (0 <= w)%Z /\ In b [Key 1 1; Key 2 1; Key 3 1; Key 4 1]) /\
  dijkstra 20 (fun _ => 0) (Key 1 1) ex_graph (fun k => key_eqb k (Key 4 1)) = Ok (Some ([Key 1 1; Key 2 1; Key 4 1], 3%Z)) /\
  dijkstra 20 (fun _ => 1) (Key 1 1) ex_graph (fun k => key_eqb k (Key 4 1)) = Ok (Some ([Key 1 1; Key 3 1; Key 4 1], 3%Z)).
Proof.
  split; [|split; vm_compute; reflexivity]. intros a es b w H. unfold ex_graph in H. injection H as <-.
  destruct (key_eqb a (Key 1 1)), (key_eqb a (Key 2 1)), (key_eqb a (Key 3 1)); simpl; intros Hb; intuition; try match goal with H : (_, _) = (_, _) |- _ => injection H as <- <- end; auto; lia.
Qed.
