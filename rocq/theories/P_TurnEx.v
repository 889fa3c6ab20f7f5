(** * A concrete case of C79: a car stands in a crossing, another one comes *)
From Coq Require Import List Bool ZArith NArith Arith Lia Reals Lra.
From Verif Require Import Arith RealArith Base BaseProofs SlotMap Util Geom Light Accel Net Path Vehicle LinkOps Sim SpecSim SpecMotion SlotMapProofs Safe NetInv SimInv AccSafe SimSafe StepSafe OpSafe Evo StepEvo SimProofs StepProofs Ord LogProofs Motion RFacts NetEvo LineProofs RaExample P_Motion P_Limit SpecRoute SpecNet EndsProofs ProgProofs SpecCheap SpecProg P_Prog SpecEnter P_Enter SpecAhead SpecConf SpecGap GapKin GapProofs StopProofs P_Gap SpecQueue QueueProofs P_Queue P_Coord P_Curve P_Table P_QueueEx P_SignEx SpecCross TurnProofs P_Turn.
Import ListNotations.
Local Open Scope R_scope.

(** ** Where two straight links cross *)
Definition hits (a1 u1 a2 u2 : @pt RA) (x : R) : bool :=
  @nltb RA (@nsub RA (@distance RA (on_line a1 u1 x) (on_line a2 u2 (@dot RA (vsub (on_line a1 u1 x) a2) u2))) (@nmul RA LINK_RADIUS (@nabs RA (@dot RA u1 u2)))) LINK_RADIUS.
Lemma cpl_bounds (c1 c2 : @link_curve RA) a1 u1 a2 u2 (lo hi : R) : unit u1 -> unit u2 -> straight c1 a1 u1 -> straight c2 a2 u2 -> (forall x, 0 <= x -> hits a1 u1 a2 u2 x = true -> lo <= x <= hi) ->
  forall fuel (own : R) o mn mx mn' mx', 0 <= own -> @cpl_loop RA fuel c1 c2 own o mn mx = Ok (mn', mx') ->
  (forall m, mn = Some m -> lo - / 4 <= m <= hi - / 4) -> (forall m, mx = Some m -> lo + / 4 <= m <= hi + / 4) ->
  (forall m, mn' = Some m -> lo - / 4 <= m <= hi - / 4) /\ (forall m, mx' = Some m -> lo + / 4 <= m <= hi + / 4).
Proof.
  intros U1 U2 S1 S2 Hh. induction fuel as [|fuel IH]; intros own o mn mx mn' mx' Po H Bn Bx; [discriminate H|]. cbn [cpl_loop] in H.
  destruct (@nltb RA own (lc_length c1)) eqn:E; [|injection H as <- <-; split; assumption].
  cbv zeta in H. rewrite (straight_sample c1 a1 u1) in H by assumption. cbn [sm_pos sm_tan] in H. rewrite (line_found c2 a2 u2) in H by assumption. cbn [bind] in H. rewrite (straight_sample c2 a2 u2) in H by assumption. cbn [sm_pos sm_tan] in H.
  fold (hits a1 u1 a2 u2 own) in H. assert (0 <= @nadd RA own STEP) as Po' by (unfold STEP, lit; unR; lra).
  destruct (hits a1 u1 a2 u2 own) eqn:Eh; eapply (IH _ _ _ _ _ _ Po' H); try assumption.
  - destruct mn as [m0|]; [exact Bn|]. intros m Em. injection Em as <-. specialize (Hh _ Po Eh). unfold STEP, lit. unR. lra.
  - intros m Em. injection Em as <-. specialize (Hh _ Po Eh). unfold STEP, lit. unR. lra.
Qed.
Lemma cpl_order (c1 c2 : @link_curve RA) : forall fuel (own : R) o mn mx mn' mx', @cpl_loop RA fuel c1 c2 own o mn mx = Ok (mn', mx') ->
  match mn, mx with Some m, Some M => m + / 2 <= M <= own | None, None => True | _, _ => False end ->
  match mn', mx' with Some m, Some M => m + / 2 <= M | None, None => True | _, _ => False end.
Proof.
  induction fuel as [|fuel IH]; intros own o mn mx mn' mx' H B; [discriminate H|]. cbn [cpl_loop] in H.
  destruct (@nltb RA own (lc_length c1)) eqn:E; [|injection H as <- <-; destruct mn, mx; tauto]. cbv zeta in H.
  destruct (project_point_onto_curve _ _ _ _) as [o'| |]; cbn [bind] in H; [|discriminate H|discriminate H].
  destruct (match o' with None => _ | Some _ => _ end); eapply (IH _ _ _ _ _ _ H).
  - destruct mn as [m|], mx as [M|]; try contradiction; unfold STEP, lit; unR; lra.
  - destruct mn as [m|], mx as [M|]; try contradiction; [|exact Logic.I]. unfold STEP, lit; unR; lra.
Qed.
Lemma cpl_between (a b : @link RA) a1 u1 a2 u2 fuel id x1 x2 (lo hi : R) : unit u1 -> unit u2 -> straight (lk_curve a) a1 u1 -> straight (lk_curve b) a2 u2 -> (forall x, 0 <= x -> hits a1 u1 a2 u2 x = true -> lo <= x <= hi) ->
  cpl_new fuel a b = Ok (Some (@CPL RA id x1 x2)) -> lo - / 4 <= x1 <= hi - / 4 /\ lo + / 4 <= x2 <= hi + / 4 /\ x1 + / 2 <= x2.
Proof.
  intros U1 U2 S1 S2 Hh H. unfold cpl_new in H. destruct (cpl_loop fuel (lk_curve a) (lk_curve b) n0 None None None) as [[mn mx]| |] eqn:E; cbn [bind] in H; try discriminate H.
  destruct (cpl_bounds _ _ _ _ _ _ lo hi U1 U2 S1 S2 Hh fuel 0 None None None mn mx (Rle_refl 0) E) as (B1 & B2); [discriminate|discriminate|].
  pose proof (cpl_order _ _ _ _ _ _ _ _ _ E Logic.I) as B3. destruct mn as [m1|]; [|discriminate H]. destruct mx as [m2|]; [|discriminate H]. injection H as _ <- <-. auto.
Qed.

(** The second road leads north; a short road that ends begins in the middle of it. *)
Definition short_id : key := Key 1 1.
Definition north_id : key := Key 2 1.
Definition short_line : @curve RA := @ls_curve RA (@LineSeg RA (@Pt RA 15 0) (@Pt RA 1 0) 4).
Definition north_line : @curve RA := @ls_curve RA (@LineSeg RA (@Pt RA 15 (-15)) (@Pt RA 0 1) 30).
Definition turn_ops : list (@op RA) := [OAddLink short_line 10; OAddLink north_line 10; OAddConvergence short_id north_id; OAddVehicle ra_car short_id; OAddVehicle ra_car north_id].
Lemma abs_dist (x y : R) : sqrt (x * x + y * y) < 9 / 5 -> - (9 / 5) <= x <= 9 / 5 /\ - (9 / 5) <= y <= 9 / 5.
Proof.
  intros H. assert (0 <= x * x) by nra. assert (0 <= y * y) by nra.
  assert (x * x + y * y < 9 / 5 * (9 / 5)). { rewrite <- (sqrt_sqrt (x * x + y * y)) by lra. pose proof (sqrt_pos (x * x + y * y)). apply Rmult_le_0_lt_compat; lra. }
  split; split; nra.
Qed.
Lemma turn_cpoint (a b : @link RA) : straight (lk_curve a) (@Pt RA 15 0) (@Pt RA 1 0) -> straight (lk_curve b) (@Pt RA 15 (-15)) (@Pt RA 0 1) -> 3 < lk_length a <= 4 -> 29 < lk_length b <= 30 ->
  exists x1 x2 y1 y2 d, cpoint_new 200 a b = Ok (Some (CPoint (CPL (lk_id a) x1 x2) (CPL (lk_id b) y1 y2) d)) /\ - / 4 <= x1 <= 2 - / 4 /\ / 4 <= x2 /\ 12 <= y1 <= 17 /\ y1 <= y2.
Proof.
  intros S1 S2 L1 L2. assert (unit (@Pt RA 1 0)) as U1 by (unfold unit; cbn; lra). assert (unit (@Pt RA 0 1)) as U2 by (unfold unit; cbn; lra).
  assert (INR 60 * / 4 = 15) as E60 by (rewrite INR_IZR_INZ; cbn [Z.of_nat Pos.of_succ_nat Pos.succ]; lra). assert (INR 199 = 199) as E199 by (rewrite INR_IZR_INZ; reflexivity).
  unfold cpoint_new. destruct (cpl_crossing a b _ _ _ _ 199 0 U1 U2 S1 S2) as (x1 & x2 & Ea); [lra|cbn [INR]; lra| |].
  { cbn [INR]. unfold meets. apply pt_ext; cbn; unR; lra. }
  destruct (cpl_crossing b a _ _ _ _ 199 60 U2 U1 S2 S1) as (y1 & y2 & Eb); [lra|lra| |].
  { rewrite E60. unfold meets. apply pt_ext; cbn; unR; lra. }
  assert (0 - / 4 <= x1 <= 9 / 5 - / 4 /\ 0 + / 4 <= x2 <= 9 / 5 + / 4 /\ x1 + / 2 <= x2) as (B1 & B2 & _).
  { refine (cpl_between _ _ _ _ _ _ _ _ _ _ 0 (9 / 5) U1 U2 S1 S2 _ Ea).
    intros x Px Hx. unfold hits in Hx. apply ltb_R in Hx. revert Hx. unfold LINK_RADIUS, lit, distance, magnitude, magnitude2, dot, on_line, vsub, vadd, vmul. cbn [px py]. unR. intros Hx.
    match type of Hx with sqrt (?p * ?p + ?q * ?q) - 9 / 5 * Rabs ?z < 9 / 5 => assert (z = 0) as Ez by ring; assert (sqrt (p * p + q * q) < 9 / 5) as Hy by (rewrite Ez, Rabs_R0 in Hx; lra); destruct (abs_dist p q Hy) end. lra. }
  assert (66 / 5 - / 4 <= y1 <= 84 / 5 - / 4 /\ 66 / 5 + / 4 <= y2 <= 84 / 5 + / 4 /\ y1 + / 2 <= y2) as (B3 & _ & B4).
  { refine (cpl_between _ _ _ _ _ _ _ _ _ _ (66 / 5) (84 / 5) U2 U1 S2 S1 _ Eb).
    intros x Px Hx. unfold hits in Hx. apply ltb_R in Hx. revert Hx. unfold LINK_RADIUS, lit, distance, magnitude, magnitude2, dot, on_line, vsub, vadd, vmul. cbn [px py]. unR. intros Hx.
    match type of Hx with sqrt (?p * ?p + ?q * ?q) - 9 / 5 * Rabs ?z < 9 / 5 => assert (z = 0) as Ez by ring; assert (sqrt (p * p + q * q) < 9 / 5) as Hy by (rewrite Ez, Rabs_R0 in Hx; lra); destruct (abs_dist p q Hy) end. lra. }
  rewrite Ea. cbn [bind]. rewrite Eb. cbn [bind]. eexists _, _, _, _, _. split; [reflexivity|]. lra.
Qed.

Lemma turn_ok : exists (s : @sim RA) (la lb : @link RA) (v1 v2 : @vehicle RA) (c c' : @link_conflict RA), run ra_env (@sim_new RA) turn_ops = Ok s /\ sm_keys (s_links s) = [short_id; north_id] /\ link_at s short_id = Some la /\ link_at s north_id = Some lb /\
  List.Forall (fun (l : @link RA) => lk_in l = [] /\ lk_out l = [] /\ lk_changes l = [] /\ lk_group l = None /\ (lk_limit l : R) = 10 /\ 3 < lk_length l <= 30 /\ lk_cost l = link_cost (lk_length l) 10) [la; lb] /\ lk_length la <= 4 /\ 29 < lk_length lb /\
  straight (lk_curve la) (@Pt RA 15 0) (@Pt RA 1 0) /\ straight (lk_curve lb) (@Pt RA 15 (-15)) (@Pt RA 0 1) /\ lk_vehicles la = [first_car] /\ lk_vehicles lb = [second_car] /\
  lk_conflicts la = [c] /\ lk_conflicts lb = [c'] /\ cf_link c = north_id /\ cf_link c' = short_id /\ - / 4 <= cf_min c' <= 2 - / 4 /\ / 4 <= cf_max c' /\ 12 <= cf_min c <= 17 /\ cf_min c <= cf_max c /\
  sm_keys (s_lights s) = [] /\ sm_keys (s_vehicles s) = [first_car; second_car] /\ vehicle_at s first_car = Some v1 /\ vehicle_at s second_car = Some v2 /\
  List.Forall (fun (v : @vehicle RA) => (v_pos v : R) = 0 /\ (v_vel v : R) = 0 /\ v_entered v = 1%nat /\ v_destination v = null_key /\ spec_of v = attr_spec ra_car) [v1; v2].
Proof.
  assert (unit (@Pt RA 1 0)) as U by (unfold unit; cbn; lra). assert (unit (@Pt RA 0 1)) as U2 by (unfold unit; cbn; lra).
  assert (121 < INR 200) as F by (rewrite INR_IZR_INZ; cbn -[IZR]; apply IZR_lt; reflexivity).
  destruct (line_curve (@Pt RA 15 0) (@Pt RA 1 0) 4 U 200) as (lc & Hlc & H1 & H2 & H3 & H4); [lra|lra|].
  destruct (line_curve (@Pt RA 15 (-15)) (@Pt RA 0 1) 30 U2 200) as (ld & Hld & J1 & J2 & J3 & J4); [lra|lra|].
  cbn [run turn_ops exec]. unfold add_link. cbn [e_fuel ra_env]. unfold link_new at 1 2. unfold short_line, north_line. rewrite Hlc, Hld. cbn [bind fst].
  unfold add_link_convergance. cbn -[link_cost sample_centre add_vehicle cpoint_new link_conflicts foldM].
  match goal with |- context [cpoint_new 200 ?a ?b] => destruct (turn_cpoint a b) as (x1 & x2 & y1 & y2 & dir & E & Z) end;
    [exact H4|exact J4|unfold lk_length; cbn [lk_curve]; lra|unfold lk_length; cbn [lk_curve]; lra|]. rewrite E. clear E.
  unfold link_conflicts, upd_link, get_link. cbn -[link_cost sample_centre add_vehicle].
  unfold add_vehicle, set_location, set_origin, upd_link, get_link. cbn -[link_cost sample_centre update_coords insert_vehicle].
  unfold update_coords. cbn -[link_cost sample_centre vsub rot90 calc_direction vadd long_offset nmin nmax dot insert_vehicle].
  unfold insert_vehicle. cbn -[link_cost sample_centre vsub rot90 calc_direction vadd long_offset nmin nmax dot].
  eexists _, _, _, _, _, _, _. split; [reflexivity|]. cbn -[link_cost sample_centre vsub rot90 calc_direction vadd long_offset nmin nmax dot straight].
  do 3 (split; [reflexivity|]). split.
  { repeat (apply List.Forall_cons; [repeat (split; [first [reflexivity|unfold lk_length; cbn [lk_curve set_vehicles add_conflict]; lra]|]); reflexivity|]). apply List.Forall_nil. }
  split; [unfold lk_length; cbn [lk_curve set_vehicles add_conflict]; lra|]. split; [unfold lk_length; cbn [lk_curve set_vehicles add_conflict]; lra|]. split; [exact H4|]. split; [exact J4|].
  do 6 (split; [reflexivity|]). destruct Z as (Z1 & Z2 & Z3 & Z4). split; [exact Z1|]. split; [exact Z2|]. split; [exact Z3|]. split; [exact Z4|]. do 4 (split; [reflexivity|]).
  repeat (apply List.Forall_cons; [repeat (split; [reflexivity|]); reflexivity|]). apply List.Forall_nil.
Qed.

(** The two cars, each alone on its link. *)
Section There.
  Variables (la lb : @link RA) (c c' : @link_conflict RA).
  Hypothesis Fa : List.Forall (fun (l : @link RA) => lk_in l = [] /\ lk_out l = [] /\ lk_changes l = [] /\ lk_group l = None /\ (lk_limit l : R) = 10 /\ 3 < lk_length l <= 30 /\ lk_cost l = link_cost (lk_length l) 10) [la; lb].
  Hypothesis (La : lk_length la <= 4) (Sa : straight (lk_curve la) (@Pt RA 15 0) (@Pt RA 1 0)) (Sb : straight (lk_curve lb) (@Pt RA 15 (-15)) (@Pt RA 0 1)).
  Hypothesis (Ca : lk_conflicts la = [c]) (Cb : lk_conflicts lb = [c']) (Cl : cf_link c = north_id) (Cl' : cf_link c' = short_id).
  Hypothesis (Z1 : - / 4 <= cf_min c' <= 2 - / 4) (Z2 : / 4 <= cf_max c') (Z3 : 12 <= cf_min c <= 17) (Z4 : cf_min c <= cf_max c).

  Record there (t : @sim RA) : Prop := {
    th_st : St (s_links t) (s_vehicles t) (s_seq t);
    th_links : exists ta tb, link_at t short_id = Some ta /\ link_at t north_id = Some tb /\ lk_static ta = lk_static la /\ lk_static tb = lk_static lb /\ lk_vehicles ta = [first_car] /\ lk_vehicles tb = [second_car];
    th_plain : plain_road t short_id /\ plain_road t north_id;
    th_cars : exists w1 w2, vehicle_at t first_car = Some w1 /\ vehicle_at t second_car = Some w2 /\ 0 <= (v_pos w1 : R) <= 2 /\ 0 <= (v_pos w2 : R) <= cf_min c - 1 /\ v_half_len w1 = 2 /\ v_half_len w2 = 2 /\ (v_vel w1 : R) <= 10 /\ (v_vel w2 : R) <= 10
  }.

  Lemma there_on (t : @sim RA) k x (l : @link RA) (w : @vehicle RA) : St (s_links t) (s_vehicles t) (s_seq t) -> link_at t x = Some l -> In k (lk_vehicles l) -> vehicle_at t k = Some w -> v_link w = Some x /\ heads_to w 0 x /\ In x (entered_links w) /\ (0 < v_entered w)%nat.
  Proof.
    intros St0 Gl Hk Gw. destruct (st_occ _ _ _ St0 _ _ Gl) as (_ & Oc). apply Oc in Hk. unfold at_of, vehicle_at in *. rewrite Gw in Hk. split; [exact Hk|]. pose proof (vb_ent _ _ _ _ (st_veh _ _ _ St0 _ _ Gw)) as En.
    unfold heads_to, entered_links, v_link in *. destruct (v_route w) as [|y r]; [discriminate Hk|]. cbn in Hk. injection Hk as ->. cbn [nth_error]. split; [reflexivity|]. split; [|lia]. destruct (v_entered w) as [|n]; [lia|]. left. reflexivity.
  Qed.
  Lemma there_near (t : @sim RA) k x (l : @link RA) (w : @vehicle RA) (zmin zmax : R) : St (s_links t) (s_vehicles t) (s_seq t) -> link_at t x = Some l -> lk_vehicles l = [k] -> vehicle_at t k = Some w -> (lk_limit l : R) = 10 -> zmin - 50 <= pos_front w -> (pos_rear w : R) < zmax ->
    near_zone t x zmin zmax (@Arrival RA k w x zmin).
  Proof.
    intros St0 Gl El Gw Lm Fw Rw. destruct (there_on t k x l w St0 Gl) as (Lw & Hh & He & Pe); auto. { rewrite El. left. reflexivity. }
    split; [reflexivity|]. split; [unfold ar_rear; cbn [ar_veh ar_dist]; apply ltb_R; change ((pos_rear w : R) - zmin < zmax - zmin); lra|]. exists 0%nat. apply appr_here with (la := l) (behind := []) (ahead := []); cbn [ar_key ar_veh]; auto.
    - exists k, w. auto.
    - intros k' [].
    - split; [|intros _; left; exact Pe]. unfold within. apply ltb_R_false. rewrite Lm. change (zmin - 5 * 10 <= pos_front w). lra.
  Qed.
  Lemma there_taken (t : @sim RA) : there t -> taken 10 short_id north_id 0 (cf_min c') (cf_max c') (cf_min c) (cf_max c) second_car t.
  Proof.
    intros T. inversion Fa as [|? ? (_ & _ & _ & _ & A5 & _) F1]; subst. inversion F1 as [|? ? (B1 & _ & _ & _ & B5 & _) _]; subst.
    destruct (th_links _ T) as (ta & tb & Gta & Gtb & Ea & Eb & Va & Vb). unfold lk_static in Ea, Eb. injection Ea as _ _ Ea1 _ _ _ Ea2 Ea3 _. injection Eb as _ _ Eb1 Eb4 _ _ Eb2 Eb3 _.
    destruct (th_cars _ T) as (w1 & w2 & G1 & G2 & P1 & P2 & L1 & L2 & V1 & V2).
    assert ((pos_front w1 : R) = v_pos w1 + 2 /\ (pos_rear w1 : R) = v_pos w1 - 2 /\ (pos_front w2 : R) = v_pos w2 + 2 /\ (pos_rear w2 : R) = v_pos w2 - 2) as (Q1 & Q2 & Q3 & Q4) by (unfold pos_front, pos_rear; rewrite L1, L2; repeat split; unR; try reflexivity; ring).
    split; [|split].
    - split; [discriminate|]. exists ta, tb, c, c'. split; [exact Gta|]. split; [exact Gtb|]. unfold conflicts_with. rewrite Ea2, Eb2, Ca, Cb. cbn [filter]. rewrite Cl, Cl'. cbn [key_eqb nth_error]. repeat (split; [reflexivity|]).
      unfold same_direction, direction. rewrite Ea1, Eb1. assert (unit (@Pt RA 1 0)) as U1 by (unfold unit; cbn; lra). assert (unit (@Pt RA 0 1)) as U2 by (unfold unit; cbn; lra).
      rewrite !(straight_sample _ _ _ _ U1 Sa), !(straight_sample _ _ _ _ U2 Sb). cbn [sm_pos].
      apply ltb_R_false. unfold normalize, normalize_to, dot. cbn [vmul px py vsub on_line vadd]. unfold lit. unR.
      match goal with |- ?x <= _ => replace x with 0 by ring end. lra.
    - exists w2. split; [apply (th_plain _ T)|]. exists tb. split; [exact Gtb|]. split; [rewrite Vb; left; reflexivity|]. split; [exact G2|]. split; [exact V2|]. cbv zeta. split.
      + left. apply (there_near t _ _ tb); auto; [apply (th_st _ T)|congruence|lra|lra].
      + intros r (Er & _ & i & Ap). left. inversion Ap as [idx a0 la0 p0 bh k0 ah v0 Gl0 _ El0 _ Gv0 _ _ E1 E2|idx a0 la0 p0 b0 lb0 k0 v0 i0 d0 Gl0 _ _ _ Hin]; subst.
        * rewrite Gtb in Gl0. injection Gl0 as <-. rewrite Vb in El0. destruct bh as [|? [|]]; try discriminate El0. injection El0 as El0 _. destruct r as [rk rv rl rd]. cbn [ar_key ar_veh ar_link ar_dist] in *. subst. unfold vehicle_at in *. congruence.
        * exfalso. rewrite Gtb in Gl0. injection Gl0 as <-. rewrite Eb4, B1 in Hin. destruct Hin.
    - exists (@Arrival RA first_car w1 short_id (cf_min c')). split; [apply (there_near t _ _ ta); auto; [apply (th_st _ T)|congruence|lra|lra]|]. unfold ar_front. cbn [ar_veh ar_dist]. change (0 < (pos_front w1 : R) - cf_min c'). lra.
  Qed.

  (** The choice of lanes and routes changes nothing about that. *)
  Lemma there_choice e (t t1 : @sim RA) : Inv t -> there t -> calculate_lane_changes e t = Ok t1 -> there t1.
  Proof.
    intros I T H1. destruct I as [St0 F0 LW LI CP FR] eqn:EI. clear EI.
    destruct (safe_ok (fun _ => True) _ _ _ (calculate_lane_changes_safe (fun _ => True) e t St0 F0 (fun _ _ => Logic.I)) H1) as (St1 & _ & S1 & _).
    destruct (th_links _ T) as (ta & tb & Gta & Gtb & Ea & Eb & Va & Vb). destruct (th_plain _ T) as (Pa & Pb). destruct (th_cars _ T) as (w1 & w2 & G1 & G2 & P1 & P2 & L1 & L2 & V1 & V2).
    pose proof (lane_changes_other _ _ _ _ St0 H1 (proj2 Pa)) as Oa. pose proof (lane_changes_other _ _ _ _ St0 H1 (proj2 Pb)) as Ob.
    assert (forall x, plain_road t x -> plain_road t1 x) as Pl.
    { intros x (N1 & N2). assert (forall y lx, sm_get (s_links t1) y = Some lx -> exists l0, sm_get (s_links t) y = Some l0 /\ lk_out l0 = lk_out lx /\ lk_changes l0 = lk_changes lx) as Bk.
      { intros y lx Gx. destruct (same_net_get _ _ _ _ S1 Gx) as (l0 & G0 & Es). exists l0. split; [exact G0|]. unfold lk_static in Es. inversion Es. auto. }
      split; [intros (lx & Gx & Hin); destruct (Bk _ _ Gx) as (l0 & G0 & E1 & _); apply N1; exists l0; split; [exact G0|congruence]|].
      intros y. split; intros (lx & Gx & Hin); destruct (Bk _ _ Gx) as (l0 & G0 & _ & E2); [apply (proj1 (N2 y))|apply (proj2 (N2 y))]; (exists l0; split; [exact G0|rewrite E2; exact Hin]). }
    assert (forall k x l w, plain_road t x -> sm_get (s_links t) x = Some l -> In k (lk_vehicles l) -> sm_get (s_vehicles t) k = Some w -> exists w', sm_get (s_vehicles t1) k = Some w' /\ v_pos w' = v_pos w /\ v_half_len w' = v_half_len w /\ v_vel w' = v_vel w) as Car.
    { intros k x l w Pr Gl Hk Gw. destruct (there_on t k x l w St0 Gl Hk Gw) as (Lw & _).
      assert (exists w', sm_get (s_vehicles t1) k = Some w') as (w' & Gw').
      { rewrite <- (lane_changes_other _ _ _ _ St0 H1 (proj2 Pr)) in Gl. destruct (st_occ _ _ _ St1 _ _ Gl) as (_ & Oc). apply Oc in Hk. unfold at_of in Hk. destruct (sm_get (s_vehicles t1) k) as [w'|]; [eauto|discriminate Hk]. }
      exists w'. split; [exact Gw'|]. destruct (lane_changes_evo _ _ _ St0 H1 _ _ Gw') as (v0 & G0' & Rl). assert (v0 = w) by congruence. subst v0. clear G0'.
      destruct Rl as (B & [(_ & P0 & _)|(a0 & b0 & M1 & M2 & M3 & M4)] & _); [|exfalso; assert (a0 = x) by congruence; subst a0; exact (proj2 (proj2 Pr b0) M3)].
      apply body_spec in B. destruct B as (Sp & _ & Bv & _). destruct (spec_parts _ _ Sp) as (Eh & _). auto. }
    unfold link_at, vehicle_at in *.
    destruct (Car first_car short_id ta w1 Pa Gta ltac:(rewrite Va; left; reflexivity) G1) as (x1 & X1 & X2 & X3 & X4). destruct (Car second_car north_id tb w2 Pb Gtb ltac:(rewrite Vb; left; reflexivity) G2) as (x2 & Y1 & Y2 & Y3 & Y4).
    split.
    - exact St1.
    - exists ta, tb. unfold link_at. rewrite Oa, Ob. auto 8.
    - split; apply Pl; assumption.
    - exists x1, x2. unfold vehicle_at. rewrite X2, X3, X4, Y2, Y3, Y4. auto 10.
  Qed.
  Lemma there_settled (t : @sim RA) : Inv t -> there t -> settled (taken 10 short_id north_id 0 (cf_min c') (cf_max c') (cf_min c) (cf_max c) second_car) t.
  Proof. intros I T. split; [apply there_taken; exact T|]. intros e t1 H1. apply there_taken. exact (there_choice e t t1 I T H1). Qed.

  (** Nor does a step: the first car stops at the end of its road, the second one before the crossing. *)
  Record holding (t : @sim RA) : Prop := {
    ho_reach : reachable t;
    ho_there : there t;
    ho_a : queue 10 (1 / 10) short_id [first_car] t;
    ho_b : queue 10 (1 / 10) north_id [second_car] t;
    ho_out : kept_out (1 / 10) (cf_min c) second_car t
  }.
  Lemma holding_step e (t : @sim RA) (dt : R) t' : holding t -> 0 <= dt <= 1 / 10 -> step e t dt = Ok t' -> holding t'.
  Proof.
    intros [Rc T Qa Qb Ko] Hdt H. pose proof (reachable_Inv _ Rc) as I. pose proof (reach_call e t (@OStep RA dt) t' Rc H) as Rc'. pose proof (reachable_Inv _ Rc') as I'.
    inversion Fa as [|? ? (_ & A2 & A3 & _ & A5 & _) F1]; subst. inversion F1 as [|? ? (_ & B2 & B3 & _ & B5 & _) _]; subst.
    destruct (th_links _ T) as (ta & tb & Gta & Gtb & Ea & Eb & Va & Vb). destruct (th_plain _ T) as (Pa & Pb). destruct (th_cars _ T) as (w1 & w2 & G1 & G2 & P1 & P2 & L1 & L2 & V1 & V2).
    pose proof Ea as Ea0. pose proof Eb as Eb0. unfold lk_static in Ea, Eb. injection Ea as _ _ Ea1 _ Ea4 _ _ Ea5 _. injection Eb as _ _ Eb1 _ Eb4 _ _ Eb5 _.
    assert (queue 10 (1 / 10) short_id [first_car] t') as Qa'.
    { refine (queue_step 10 (1 / 10) short_id _ _ _ e t (@OStep RA dt) t' Qa _ Hdt H); try lra. left. intros x (lx & Gx & Hin). unfold link_at in Gta. assert (lx = ta) by congruence. subst lx. rewrite Ea4, A2 in Hin. destruct Hin. }
    assert (queue 10 (1 / 10) north_id [second_car] t') as Qb'.
    { refine (queue_step 10 (1 / 10) north_id _ _ _ e t (@OStep RA dt) t' Qb _ Hdt H); try lra. left. intros x (lx & Gx & Hin). unfold link_at in Gtb. assert (lx = tb) by congruence. subst lx. rewrite Eb4, B2 in Hin. destruct Hin. }
    pose proof (step_same_net _ _ _ _ I H) as Sn.
    destruct Qa' as ((ops & Hh & Fo) & Pos & Nwa & ta' & Gta' & Va' & Wa & Ka & Fka). destruct Qb' as (_ & _ & Nwb & tb' & Gtb' & Vb' & Wb & Kb & Fkb).
    assert (lk_static ta' = lk_static la /\ lk_static tb' = lk_static lb) as (Ea' & Eb').
    { unfold link_at in *. destruct (same_net_get _ _ _ _ Sn Gta') as (l0 & G0 & Es). destruct (same_net_get _ _ _ _ Sn Gtb') as (l1 & G1' & Es1). assert (l0 = ta) by congruence. assert (l1 = tb) by congruence. subst. split; congruence. }
    destruct (Wa first_car ltac:(left; reflexivity)) as (w1' & G1' & _). destruct (Wb second_car ltac:(left; reflexivity)) as (w2' & G2' & _).
    destruct (there_on t first_car short_id ta w1 (i_st _ I) Gta ltac:(rewrite Va; left; reflexivity) G1) as (Lw1 & _). destruct (there_on t second_car north_id tb w2 (i_st _ I) Gtb ltac:(rewrite Vb; left; reflexivity) G2) as (Lw2 & _).
    destruct (there_on t' first_car short_id ta' w1' (i_st _ I') Gta' ltac:(rewrite Va'; left; reflexivity) G1') as (Lw1' & _). destruct (there_on t' second_car north_id tb' w2' (i_st _ I') Gtb' ltac:(rewrite Vb'; left; reflexivity) G2') as (Lw2' & _).
    unfold link_at, vehicle_at in *.
    destruct (stay_step _ _ _ _ _ _ _ _ Rc H G1 G1' Lw1 Lw1' Pa) as (Sp1 & Ep1 & _). destruct (stay_step _ _ _ _ _ _ _ _ Rc H G2 G2' Lw2 Lw2' Pb) as (Sp2 & Ep2 & _).
    destruct (spec_parts _ _ Sp1) as (Eh1 & _). destruct (spec_parts _ _ Sp2) as (Eh2 & _).
    assert (0 <= (v_vel w1' : R) <= 10 /\ 0 <= (v_vel w2' : R) <= 10) as (V1' & V2').
    { split; (split; [eapply vel0_R; eauto|]); [apply (C10_speed_limit 10 (1 / 10) ops t' first_car w1')|apply (C10_speed_limit 10 (1 / 10) ops t' second_car w2')]; auto; lra. }
    pose proof (vel0_R _ _ _ Rc G1) as V01. pose proof (vel0_R _ _ _ Rc G2) as V02.
    assert ((v_pos w2 : R) + 2 <= cf_min c) as Out.
    { destruct Ko as (w & Gw & J). assert (w = w2) by congruence. subst w. assert (0 <= room_before (cf_min c) w2) as X by (destruct J as [(_ & X & _)|(r & _ & _ & X & _)]; exact X). unfold room_before, pos_front in X. rewrite L2 in X. revert X. unR. intros X. lra. }
    assert ((v_pos w1' : R) + 2 <= 4) as End.
    { destruct (Fka first_car) as (l0 & w & Gl0 & Gw & J); [exists []; exact Va'|]. assert (w = w1') by congruence. assert (l0 = ta') by congruence. subst w l0.
      assert (0 <= room_left ta' w1') as X by (destruct J as [(_ & X & _)|(r & _ & _ & X & _)]; exact X). unfold room_left, pos_front in X. rewrite Eh1, L1 in X. unfold lk_static in Ea'. injection Ea' as _ _ Ec _ _ _ _ _ _.
      assert (lk_length ta' = lk_length la) as El by (unfold lk_length; congruence). rewrite El in X. revert X. unR. intros X. lra. }
    assert (there t') as T'.
    { split.
      - exact (i_st _ I').
      - exists ta', tb'. auto 8.
      - split; (split; [apply Nwa || apply Nwb|intros x; split; apply (Nwa x) || apply (Nwb x)]).
      - exists w1', w2'. split; [exact G1'|]. split; [exact G2'|].
        assert (0 <= (v_vel w1 + v_vel w1') / 2 * dt) as Q1 by (apply Rmult_le_pos; lra). assert (0 <= (v_vel w2 + v_vel w2') / 2 * dt) as Q2 by (apply Rmult_le_pos; lra).
        assert ((v_vel w2 + v_vel w2') / 2 * dt <= 10 * (1 / 10)) as Q3 by (apply Rmult_le_compat; lra).
        rewrite Eh1, Eh2. split; [lra|]. split; [rewrite Ep2; lra|]. auto with real. split; [exact L1|]. split; [exact L2|]. lra. }
    split; auto.
    - split; [exists ops; auto|]. split; [exact Pos|]. split; [exact Nwa|]. exists ta'. auto.
    - split; [exists ops; auto|]. split; [exact Pos|]. split; [exact Nwb|]. exists tb'. auto.
    - pose proof (taken_turn _ _ _ _ _ _ _ _ _ _ _ Rc Ko (there_settled t I T)) as Tt.
      destruct Qb as (_ & _ & _ & l0 & Gl0 & _ & Wb0 & _). destruct (Wb0 second_car ltac:(left; reflexivity)) as (w & Gw & W). assert (w = w2) by congruence. assert (l0 = tb) by congruence. subst w l0.
      refine (turn_step 10 (1 / 10) e t (@OStep RA dt) t' _ _ _ _ _ _ _ _ tb w2 Rc Hdt H Tt _ Gtb G2 _ _ Ko).
      + apply (there_taken t' T').
      + apply W.
      + replace (lk_limit tb) with (10 : @num RA) by congruence. apply W.
  Qed.
End There.

(** The first car stands in the crossing for ever, as its road ends there.  However the steps are chosen, up to 0.1 s each, the
    hypotheses of C79 hold, and so the second car never enters the crossing. *)
Theorem C79_case : exists (s : @sim RA) lb v (amin amax bmin bmax : R), history (@sim_new RA) turn_ops s /\ List.Forall forward turn_ops /\ link_at s north_id = Some lb /\ vehicle_at s second_car = Some v /\ careful 10 (1 / 10) v /\
  room_to_react (max_acc v) (1 / 10) (v_vel v) 0 (room_before bmin v) /\ room_to_react (max_acc v) (1 / 10) 10 0 (5 * lk_limit lb) /\ 9 < room_before bmin v /\
  forall pick dts, List.Forall (fun dt => 0 <= dt <= 1 / 10) dts -> exists n s' v', run (Env n pick) s (map (@OStep RA) dts) = Ok s' /\
    throughout (settled (taken 10 short_id north_id 0 amin amax bmin bmax second_car)) (keep_lanes (1 / 10) [second_car]) s (map (@OStep RA) dts) s' /\
    vehicle_at s' second_car = Some v' /\ (pos_front v' : R) <= bmin.
Proof.
  destruct turn_ok as (s & la & lb & v1 & v2 & c & c' & H & Ks & Ga & Gb & Fa & La & Lb & Sa & Sb & Va & Vb & Ca & Cb & Cl & Cl' & Z1 & Z2 & Z3 & Z4 & Kl & Kv & G1 & G2 & Fv).
  pose proof Fa as Fa0. inversion Fa as [|? ? (A1 & A2 & A3 & A4 & A5 & A6 & A7) F1]; subst. inversion F1 as [|? ? (B1 & B2 & B3 & B4 & B5 & B6 & B7) _]; subst.
  inversion Fv as [|? ? (P1 & V1 & E1 & D1 & S1) F2]; subst. inversion F2 as [|? ? (P2 & V2 & E2 & D2 & S2) _]; subst. clear Fa F1 Fv F2.
  assert (history (@sim_new RA) turn_ops s) as Hh by (eapply run_history; exact H). assert (@reachable RA s) as Rc by (exact (history_reachable _ _ _ Hh (@reach_new RA))). pose proof (reachable_Inv _ Rc) as I.
  assert (forall k x, link_at s k = Some x -> k = short_id /\ x = la \/ k = north_id /\ x = lb) as Two.
  { intros k x G. assert (In k (sm_keys (s_links s))) as Hk by (apply in_keys; unfold link_at in G; unfold valid; apply sm_mem_get; eauto). rewrite Ks in Hk. destruct Hk as [<-|[<-|[]]]; [left|right]; split; congruence. }
  destruct (car_parts _ S1) as (X1 & X2 & X3 & X4). destruct (car_parts _ S2) as (Y1 & Y2 & Y3 & Y4).
  assert (List.Forall (one_limit 10 (1 / 10)) turn_ops) as Ol by (repeat constructor; cbn; lra).
  assert (forall x, no_way_in s x) as Nw. { intros lid x. split; [|split]; intros (lx & Gx & Hin); destruct (Two _ _ Gx) as [(_ & ->)|(_ & ->)]; rewrite ?A2, ?B2, ?A3, ?B3 in Hin; destruct Hin. }
  assert (forall k l, link_at s k = Some l -> 0 < lk_length l) as Pos. { intros k l G. destruct (Two _ _ G) as [(_ & ->)|(_ & ->)]; lra. }
  assert (room_to_react 2 (1 / 10) 10 0 (5 * 10)) as Far by (unfold room_to_react, refresh_time; lra).
  assert (pos_front v2 = 2) as Pf by (unfold pos_front; rewrite P2, Y1; unR; lra).
  assert (10 <= room_before (cf_min c) v2) as Rb by (unfold room_before; rewrite Pf; lra).
  assert (forall g : R, 1 <= g -> room_to_react 2 (1 / 10) 0 0 g) as Near by (intros g Hg; unfold room_to_react, refresh_time; lra).
  assert (room_to_react (max_acc v2) (1 / 10) (v_vel v2) 0 (room_before (cf_min c) v2)) as Rm by (rewrite Y3, V2; apply Near; lra).
  assert (List.Forall forward turn_ops) as Fw by (repeat constructor).
  assert (holding la lb c s) as Ho.
  { split; auto.
    - split; [exact (i_st _ I)|exists la, lb; auto 8| |].
      + split; (split; [apply Nw|intros x; split; apply (Nw _ x)]).
      + exists v1, v2. unfold vehicle_at in *. split; [exact G1|]. split; [exact G2|]. rewrite P1, P2, V1, V2. split; [lra|]. split; [lra|]. split; [exact X1|]. split; [exact Y1|]. lra.
    - rewrite <- Va. refine (queue_start 10 (1 / 10) short_id turn_ops s la _ _ Hh Ol Pos (Nw _) Ga _ _ _); try lra.
      + intros k w Hk G. rewrite Va in Hk. destruct Hk as [<-|[]]. unfold vehicle_at in *. assert (w = v1) by congruence. subst w. split; [apply car_careful; exact S1|]. rewrite X1, X3. split; [lra|]. split; [exact E1|]. split; [rewrite D1; discriminate|exact Far].
      + intros k k2 w w2 (pre & post & E) _ _. rewrite Va in E. destruct pre as [|? [|]]; discriminate E.
      + intros k w (bh & E) G. rewrite Va in E. destruct bh as [|? [|]]; try discriminate E. injection E as <-. unfold vehicle_at in *. assert (w = v1) by congruence. subst w. rewrite X3, V1. apply Near. unfold room_left, pos_front. rewrite P1, X1. unR. lra.
    - rewrite <- Vb. refine (queue_start 10 (1 / 10) north_id turn_ops s lb _ _ Hh Ol Pos (Nw _) Gb _ _ _); try lra.
      + intros k w Hk G. rewrite Vb in Hk. destruct Hk as [<-|[]]. unfold vehicle_at in *. assert (w = v2) by congruence. subst w. split; [apply car_careful; exact S2|]. rewrite Y1, Y3. split; [lra|]. split; [exact E2|]. split; [rewrite D2; discriminate|exact Far].
      + intros k k2 w w2 (pre & post & E) _ _. rewrite Vb in E. destruct pre as [|? [|]]; discriminate E.
      + intros k w (bh & E) G. rewrite Vb in E. destruct bh as [|? [|]]; try discriminate E. injection E as <-. unfold vehicle_at in *. assert (w = v2) by congruence. subst w. rewrite Y3, V2. apply Near. unfold room_left, pos_front. rewrite P2, Y1. unR. lra.
    - refine (kept_out_start _ _ _ _ _ _ Hh Fw _ G2 Rm). lra. }
  exists s, lb, v2, (cf_min c'), (cf_max c'), (cf_min c), (cf_max c). split; [exact Hh|]. split; [exact Fw|]. split; [exact Gb|]. split; [exact G2|]. split; [apply car_careful; exact S2|]. split; [exact Rm|]. split; [rewrite Y3, B5; exact Far|]. split; [|].
  { unfold room_before. rewrite Pf. lra. }
  intros pick dts Fd.
  destruct (C65_goes_on dts s pick Rc) as (n & s' & Hr).
  { intros k l G. destruct (Two _ _ G) as [(_ & ->)|(_ & ->)]; lra. }
  { intros k x G. destruct (Two k x G) as [(_ & ->)|(_ & ->)]; (split; [assumption|]); intros g Eg; congruence. }
  { intros k x G. assert (In k (sm_keys (s_lights s))) as Hk by (apply in_keys; unfold valid; apply sm_mem_get; eauto). rewrite Kl in Hk. destruct Hk. }
  { assert (forall x : R, 3 < x <= 30 -> (2 * @link_cost RA x 10%R <= usize_max)%Z) as Q.
    { intros x B. unfold link_cost. unR. assert (Raux.Ztrunc (10 * x / 10) <= 30)%Z. { rewrite Raux.Ztrunc_floor by lra. apply Z.lt_succ_r. apply lt_IZR. eapply Rle_lt_trans; [apply Raux.Zfloor_lb|]. cbn. lra. }
      change (@ncast RA usize_max (10 * x / 10)) with (Z.max 0 (Z.min usize_max (Raux.Ztrunc (10 * x / 10)))). unfold usize_max. lia. }
    intros x l G. rewrite Ks. change (Z.of_nat (length [short_id; north_id])) with 2%Z. destruct (Two x l G) as [(_ & ->)|(_ & ->)]; rewrite ?A7, ?B7; apply Q; assumption. }
  specialize (Hr n (le_n _)).
  assert (forall dts (t t' : @sim RA), holding la lb c t -> List.Forall (fun dt => 0 <= dt <= 1 / 10) dts -> run (Env n pick) t (map (@OStep RA) dts) = Ok t' ->
    throughout (settled (taken 10 short_id north_id 0 (cf_min c') (cf_max c') (cf_min c) (cf_max c) second_car)) (keep_lanes (1 / 10) [second_car]) t (map (@OStep RA) dts) t' /\ holding la lb c t') as Go.
  { clear -Fa0 La Sa Sb Ca Cb Cl Cl' Z1 Z2 Z3 Z4. induction dts as [|dt dts IH]; intros t t' Ht Fd Hr; cbn [map run] in Hr.
    - injection Hr as <-. split; [constructor|exact Ht]. eapply there_settled; eauto; [apply reachable_Inv, Ht|apply Ht].
    - bok Hr t1 H1. inversion Fd as [|? ? Hdt Fr]; subst. cbn [exec] in H1. assert (holding la lb c t1) as Ht1 by (eapply (holding_step la lb c c'); eauto).
      destruct (IH t1 t' Ht1 Fr Hr) as (T & Ht'). split; [|exact Ht']. econstructor; [eapply there_settled; eauto; [apply reachable_Inv, Ht|apply Ht]|exact Hdt|exact H1|exact T]. }
  destruct (Go dts s s' Ho Fd Hr) as (T & Ho'). destruct (ho_out _ _ _ _ Ho') as (v' & G' & J). exists n, s', v'. split; [exact Hr|]. split; [exact T|]. split; [exact G'|].
  assert (0 <= room_before (cf_min c) v') as X by (destruct J as [(_ & X & _)|(r & _ & _ & X & _)]; exact X). unfold room_before in X. lra.
Qed.
Print Assumptions C79_case.
