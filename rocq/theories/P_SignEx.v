(** * A concrete case of C77: a stop sign before a link that another link crosses *)
From Coq Require Import List Bool ZArith NArith Arith Lia Reals Lra Relation_Operators Operators_Properties.
From Verif Require Import Arith RealArith Base BaseProofs SlotMap Util Geom Light Accel Net Path Vehicle LinkOps Sim SpecSim SpecMotion SlotMapProofs Safe NetInv SimInv AccSafe SimSafe StepSafe OpSafe Evo StepEvo SimProofs StepProofs Ord LogProofs Motion RFacts NetEvo LineProofs RaExample P_Motion P_Limit SpecRoute SpecNet EndsProofs ProgProofs SpecCheap SpecProg P_Prog SpecArrive SpecLamp P_Coord P_Curve P_Table P_QueueEx P_RoadEx P_Arrive.
Import ListNotations.
Local Open Scope R_scope.

(** ** Looking for the conflict of two links always ends *)
Lemma nstep (x : R) n : x + INR (S n) * / 4 = x + / 4 + INR n * / 4.
Proof. rewrite S_INR. lra. Qed.
Lemma fin_projectA {A : Arith} c point err o : fin (@project_point_onto_curve A c point err o).
Proof.
  unfold project_point_onto_curve, initial_guess. apply fin_bind; [|intros t; apply fin_ok]. destruct o; [apply fin_ok|]. apply fin_bind; [|intros t; apply fin_ok]. generalize (seq 1 8). intros l. generalize 0%nat. intros i0.
  match goal with |- fin (min_by_snd ?b (map ?f l)) => generalize b; generalize (map f l) end. clear. induction l as [|y l IH]; intros b; [discriminate|]. cbn [min_by_snd]. destruct (_ || _); [discriminate|]. apply IH.
Qed.
Lemma settles_cpl (c1 c2 : @link_curve RA) : forall k (own : R) o mn mx, lc_length c1 <= own + INR k * / 4 -> settles (fun n => cpl_loop n c1 c2 own o mn mx).
Proof.
  induction k as [|k IH]; intros own o mn mx L.
  - exists 1%nat, (Ok (mn, mx)). split; [discriminate|]. intros fuel Lf. destruct fuel as [|fuel]; [lia|]. cbn [cpl_loop]. cbn [INR] in L.
    destruct (@nltb RA own (lc_length c1)) eqn:E; [apply ltb_R in E; lra|reflexivity].
  - apply (settles_late _ (fun n => match n with O => OutOfFuel | S n => cpl_loop (S n) c1 c2 own o mn mx end) 1); [intros [|n] Ln; [lia|reflexivity]|].
    assert (forall o' mn' mx', settles (fun n => cpl_loop n c1 c2 (own + @STEP RA) o' mn' mx')) as IH'. { intros o' mn' mx'. apply IH. rewrite nstep in L. unfold STEP, lit. unR. lra. }
    assert (settles (fun n => if @nltb RA own (lc_length c1) then
          let own_s := @sample_centre RA c1 own in
          bind (project_point_onto_curve (lc_curve c2) (sm_pos own_s) (lit 1 10) o) (fun other =>
            let hit := match other with
              | None => false
              | Some p => let other_s := sample_centre c2 p in let dist := distance (sm_pos own_s) (sm_pos other_s) in
                  let dist := nsub dist (nmul LINK_RADIUS (nabs (dot (sm_tan own_s) (sm_tan other_s)))) in nltb dist LINK_RADIUS
              end in
            if hit then @cpl_loop RA n c1 c2 (own + @STEP RA) other (match mn with Some m => Some m | None => Some (own - @STEP RA) end) (Some (own + @STEP RA))
            else @cpl_loop RA n c1 c2 (own + @STEP RA) other mn mx)
        else Ok (mn, mx))) as (m & r & Hr & H).
    { destruct (@nltb RA own (lc_length c1)); [|apply settles_ok]. cbv zeta. apply (settles_bind_fin _ (fun n other => _)); [apply fin_projectA|]. intros other _. destruct (match other with None => _ | Some _ => _ end); apply IH'. }
    exists (S m), r. split; [exact Hr|]. intros [|n] Ln; [lia|]. rewrite <- (H n) by lia. reflexivity.
Qed.
Lemma settles_cpl_new (a b : @link RA) : settles (fun n => cpl_new n a b).
Proof.
  unfold cpl_new. apply (settles_bind (fun n => cpl_loop n (lk_curve a) (lk_curve b) n0 None None None) (fun _ mm => match mm with (Some mn, Some mx) => Ok (Some (CPL (lk_id a) mn mx)) | _ => Ok None end)); [|intros [[mn|] [mx|]]; apply settles_ok].
  apply (settles_cpl _ _ (Z.to_nat (up (4 * lc_length (lk_curve a))))). unfold n0. unR. destruct (archimed (4 * lc_length (lk_curve a))) as (U & _).
  destruct (Z_le_gt_dec 0 (up (4 * lc_length (lk_curve a)))) as [P|P]; [rewrite INR_IZR_INZ, Z2Nat.id by exact P; lra|].
  replace (Z.to_nat (up (4 * lc_length (lk_curve a)))) with 0%nat by lia. cbn [INR]. apply Z.gt_lt in P. apply IZR_lt in P. lra.
Qed.
(** [add_link_convergance] always returns. *)
Theorem C65_convergence_returns :
  forall (s : @sim RA) a b pick, reachable s -> exists n s', forall fuel, (n <= fuel)%nat -> exec (Env fuel pick) s (OAddConvergence a b) = Ok s'.
Proof.
  intros s a b pick Rc.
  assert (settles (fun n => exec (Env n pick) s (OAddConvergence a b))) as (n & r & Hr & H).
  { cbn [exec]. unfold add_link_convergance. cbn [e_fuel]. destruct (key_eqb a b); [apply settles_ok|]. destruct (sm_get (s_links s) a) as [la|]; [|apply settles_ok]. destruct (sm_get (s_links s) b) as [lb|]; [|apply settles_ok].
    apply (settles_bind (fun n => cpoint_new n la lb) (fun _ o => _)).
    - unfold cpoint_new. apply (settles_bind (fun n => cpl_new n la lb) (fun n o => _)); [apply settles_cpl_new|]. intros [ca|]; [|apply settles_ok].
      apply (settles_bind (fun n => cpl_new n lb la) (fun n o => _)); [apply settles_cpl_new|]. intros [cb|]; apply settles_ok.
    - intros [cp|]; [|apply settles_ok]. apply settles_fin. apply fin_bind; [|intros l; apply fin_ok]. apply fin_foldM. intros l kc. unfold upd_link. apply fin_bind; [apply fin_get_link|]. intros x. apply fin_ok. }
  destruct r as [s'|p|]; [eauto| |contradiction].
  exfalso. assert (cause s (OAddConvergence a b) p) as (_ & x & C) by (eapply safe_panic; [apply (exec_safe (Env n pick) s (OAddConvergence a b)), reachable_Inv; exact Rc|exact (H n (le_n _))]).
  discriminate C.
Qed.
Print Assumptions C65_convergence_returns.

(** ** Two straight links that cross have a conflict *)
Lemma line_found (lc : @link_curve RA) b u point o : unit u -> straight lc b u -> project_point_onto_curve (lc_curve lc) point (lit 1 10) o = Ok (Some (@dot RA (vsub point b) u)).
Proof.
  intros U Sc. unfold project_point_onto_curve. destruct (guess_ok (lc_curve lc) point) as (g & ->).
  assert (forall t : R, c_sample (lc_curve lc) t = on_line b u t) as S1 by (intros t; cbn [lc_curve c_sample]; specialize (Sc t); destruct (lc_seg lc t); apply Sc).
  assert (forall t : R, c_dt (lc_curve lc) t = u) as S2 by (intros t; cbn [lc_curve c_dt]; specialize (Sc t); destruct (lc_seg lc t); apply Sc).
  destruct o as [t|]; cbn [bind]; (rewrite (newton_straight _ b u) by (auto; unfold lit; unR; lra); reflexivity).
Qed.
(** The position of the first line nearest to which the second line passes through it. *)
Definition meets (a1 u1 a2 u2 : @pt RA) (x : R) : Prop := on_line a2 u2 (@dot RA (vsub (on_line a1 u1 x) a2) u2) = on_line a1 u1 x.
Lemma distance_self (p : @pt RA) : @distance RA p p = 0.
Proof. unfold distance, magnitude, magnitude2, vsub, dot. cbn [px py]. unR. replace ((px p - px p) * (px p - px p) + (py p - py p) * (py p - py p)) with 0 by ring. apply sqrt_0. Qed.
Lemma cpl_straight (c1 c2 : @link_curve RA) a1 u1 a2 u2 : unit u1 -> unit u2 -> straight c1 a1 u1 -> straight c2 a2 u2 -> forall fuel (own : R) o mn mx, lc_length c1 <= own + INR fuel * / 4 ->
  exists mn' mx', @cpl_loop RA (S fuel) c1 c2 own o mn mx = Ok (mn', mx') /\
    ((mn <> None /\ mx <> None) \/ (exists n, own + INR n * / 4 < lc_length c1 /\ meets a1 u1 a2 u2 (own + INR n * / 4)) -> mn' <> None /\ mx' <> None).
Proof.
  intros U1 U2 S1 S2. induction fuel as [|fuel IH]; intros own o mn mx L.
  - exists mn, mx. cbn [INR] in L. cbn [cpl_loop]. destruct (@nltb RA own (lc_length c1)) eqn:E; [apply ltb_R in E; lra|]. split; [reflexivity|]. intros [Q|(n & Q & _)]; [exact Q|]. pose proof (pos_INR n). lra.
  - remember (S fuel) as k eqn:Ek. cbn [cpl_loop]. destruct (@nltb RA own (lc_length c1)) eqn:E.
    + cbv zeta. rewrite (straight_sample c1 a1 u1) by assumption. cbn [sm_pos sm_tan]. rewrite (line_found c2 a2 u2) by assumption. cbn [bind]. rewrite (straight_sample c2 a2 u2) by assumption. cbn [sm_pos sm_tan].
      set (h := @nltb RA _ _). assert (lc_length c1 <= own + @STEP RA + INR fuel * / 4) as L' by (rewrite Ek, nstep in L; unfold STEP, lit; unR; lra).
      subst k. assert (meets a1 u1 a2 u2 own -> h = true) as Hh.
      { intros M. unfold h. unfold meets in M. rewrite M, distance_self. apply ltb_R. unfold LINK_RADIUS, lit. unR. pose proof (Rabs_pos (@dot RA u1 u2)). lra. }
      assert (forall n, own + INR (S n) * / 4 = own + @STEP RA + INR n * / 4) as Es by (intros n; rewrite nstep; unfold STEP, lit; unR; lra).
      destruct h.
      * match goal with |- exists _ _, cpl_loop _ _ _ _ ?o' ?mn' ?mx' = _ /\ _ => destruct (IH (@nadd RA own STEP) o' mn' mx' L') as (m1 & m2 & -> & Q) end. exists m1, m2. split; [reflexivity|]. intros _. apply Q. left. split; [destruct mn; discriminate|discriminate].
      * match goal with |- exists _ _, cpl_loop _ _ _ _ ?o' ?mn' ?mx' = _ /\ _ => destruct (IH (@nadd RA own STEP) o' mn' mx' L') as (m1 & m2 & -> & Q) end. exists m1, m2. split; [reflexivity|]. intros [P|([|n] & P1 & P2)]; apply Q.
        -- left. exact P.
        -- exfalso. cbn [INR] in P2. replace (own + 0 * / 4) with own in P2 by lra. specialize (Hh P2). discriminate Hh.
        -- right. exists n. rewrite <- Es. auto.
    + exists mn, mx. split; [reflexivity|]. apply ltb_R_false in E. intros [P|(n & P & _)]; [exact P|]. pose proof (pos_INR n). lra.
Qed.
Lemma cpl_crossing (a b : @link RA) a1 u1 a2 u2 fuel n : unit u1 -> unit u2 -> straight (lk_curve a) a1 u1 -> straight (lk_curve b) a2 u2 -> lk_length a <= INR fuel * / 4 -> INR n * / 4 < lk_length a -> meets a1 u1 a2 u2 (INR n * / 4) ->
  exists x1 x2, cpl_new (S fuel) a b = Ok (Some (CPL (lk_id a) x1 x2)).
Proof.
  intros U1 U2 S1 S2 L Ln M. unfold cpl_new. destruct (cpl_straight _ _ _ _ _ _ U1 U2 S1 S2 fuel 0 None None None) as (mn & mx & E & Q).
  { rewrite Rplus_0_l. exact L. }
  change (@n0 RA) with 0. rewrite E. cbn [bind]. destruct Q as (Q1 & Q2); [right; exists n; rewrite Rplus_0_l; auto|]. destruct mn as [x1|]; [|contradiction]. destruct mx as [x2|]; [|contradiction]. eauto.
Qed.
Lemma cross_cpoint (a b : @link RA) : straight (lk_curve a) (@Pt RA 30 0) (@Pt RA 1 0) -> straight (lk_curve b) (@Pt RA 45 (-15)) (@Pt RA 0 1) -> 29 < lk_length a <= 30 -> 29 < lk_length b <= 30 ->
  exists x1 x2 y1 y2 d, cpoint_new 200 a b = Ok (Some (CPoint (CPL (lk_id a) x1 x2) (CPL (lk_id b) y1 y2) d)).
Proof.
  intros S1 S2 L1 L2. assert (unit (@Pt RA 1 0)) as U1 by (unfold unit; cbn; lra). assert (unit (@Pt RA 0 1)) as U2 by (unfold unit; cbn; lra).
  assert (INR 60 * / 4 = 15) as E60 by (rewrite INR_IZR_INZ; cbn [Z.of_nat Pos.of_succ_nat Pos.succ]; lra). assert (INR 199 = 199) as E199 by (rewrite INR_IZR_INZ; reflexivity).
  unfold cpoint_new. destruct (cpl_crossing a b _ _ _ _ 199 60 U1 U2 S1 S2) as (x1 & x2 & ->); [lra|lra| |].
  { rewrite E60. unfold meets. apply pt_ext; cbn; unR; lra. }
  cbn [bind]. destruct (cpl_crossing b a _ _ _ _ 199 60 U2 U1 S2 S1) as (y1 & y2 & ->); [lra|lra| |].
  { rewrite E60. unfold meets. apply pt_ext; cbn; unR; lra. }
  cbn [bind]. eexists _, _, _, _, _. reflexivity.
Qed.

(** ** A car, a stop sign and a crossing *)
Definition side : key := Key 4 1.
Definition lone_car : key := Key 1 1.
Definition side30 : @curve RA := @ls_curve RA (@LineSeg RA (@Pt RA 45 (-15)) (@Pt RA 0 1) 30).
Definition sign_ops : list (@op RA) := [OAddLink (line30 0) 10; OAddLink (line30 30) 10; OAddLink (line30 60) 10; OAddLink side30 10; OAddConnection part1 part2; OAddConnection part2 part3;
  OAddConvergence part2 side; OSetControl part2 (@CYield RA 4 true 1); OAddVehicle ra_car part1].
Lemma sign_ok : exists (s : @sim RA) (l1 l2 l3 l4 : @link RA) (v : @vehicle RA) (c2 c4 : @link_conflict RA), run ra_env (@sim_new RA) sign_ops = Ok s /\ sm_keys (s_links s) = [part1; part2; part3; side] /\ link_at s part1 = Some l1 /\ link_at s part2 = Some l2 /\ link_at s part3 = Some l3 /\ link_at s side = Some l4 /\
  lk_out l1 = [part2] /\ lk_out l2 = [part3] /\ lk_out l3 = [] /\ lk_out l4 = [] /\
  lk_control l1 = COpen /\ lk_control l2 = @CYield RA 4 true 1 /\ lk_control l3 = COpen /\ lk_control l4 = COpen /\
  lk_conflicts l1 = [] /\ lk_conflicts l2 = [c2] /\ lk_conflicts l3 = [] /\ lk_conflicts l4 = [c4] /\ cf_link c2 = side /\ cf_link c4 = part2 /\
  List.Forall (fun (l : @link RA) => lk_group l = None /\ lk_changes l = [] /\ (lk_limit l : R) = 10 /\ 29 < lk_length l <= 30 /\ lk_cost l = link_cost (lk_length l) 10) [l1; l2; l3; l4] /\
  sm_keys (s_lights s) = [] /\ sm_keys (s_vehicles s) = [lone_car] /\ vehicle_at s lone_car = Some v /\ v_route v = [part1] /\ v_lane_change v = None /\ (v_pos v : R) = 0 /\ spec_of v = attr_spec ra_car /\ s_frozen s = [].
Proof.
  assert (unit (@Pt RA 1 0)) as U by (unfold unit; cbn; lra). assert (unit (@Pt RA 0 1)) as U2 by (unfold unit; cbn; lra).
  assert (121 < INR 200) as F by (rewrite INR_IZR_INZ; cbn -[IZR]; apply IZR_lt; reflexivity).
  destruct (line_curve (@Pt RA 0 0) (@Pt RA 1 0) 30 U 200) as (lc & Hlc & H1 & H2 & H3 & H4); [lra|lra|].
  destruct (line_curve (@Pt RA 30 0) (@Pt RA 1 0) 30 U 200) as (ld & Hld & J1 & J2 & J3 & J4); [lra|lra|].
  destruct (line_curve (@Pt RA 60 0) (@Pt RA 1 0) 30 U 200) as (le & Hle & K1 & K2 & K3 & K4); [lra|lra|].
  destruct (line_curve (@Pt RA 45 (-15)) (@Pt RA 0 1) 30 U2 200) as (lf & Hlf & M1 & M2 & M3 & M4); [lra|lra|].
  cbn [run sign_ops exec]. unfold add_link. cbn [e_fuel ra_env]. unfold link_new at 1 2 3 4. unfold line30, side30. rewrite Hlc, Hld, Hle, Hlf. cbn [bind fst].
  unfold add_link_connection, upd_link, get_link. cbn -[link_cost sample_centre add_vehicle add_link_convergance set_link_control].
  unfold add_link_convergance. cbn -[link_cost sample_centre add_vehicle cpoint_new link_conflicts foldM set_link_control].
  match goal with |- context [cpoint_new 200 ?a ?b] => destruct (cross_cpoint a b) as (x1 & x2 & y1 & y2 & dir & E) end;
    [exact J4|exact M4|unfold lk_length; cbn [lk_curve add_link_in add_link_out]; lra|unfold lk_length; cbn [lk_curve add_link_in add_link_out]; lra|]. rewrite E. clear E.
  unfold link_conflicts, set_link_control, upd_link, get_link. cbn -[link_cost sample_centre add_vehicle].
  unfold add_vehicle, set_location, set_origin, upd_link, get_link. cbn -[link_cost sample_centre update_coords insert_vehicle].
  unfold update_coords. cbn -[link_cost sample_centre vsub rot90 calc_direction vadd long_offset nmin nmax dot insert_vehicle].
  unfold insert_vehicle. cbn -[link_cost sample_centre vsub rot90 calc_direction vadd long_offset nmin nmax dot].
  eexists _, _, _, _, _, _, _, _. split; [reflexivity|]. cbn -[link_cost sample_centre vsub rot90 calc_direction vadd long_offset nmin nmax dot].
  do 19 (split; [reflexivity|]). split; [|repeat split].
  repeat (apply List.Forall_cons; [repeat (split; [first [reflexivity|unfold lk_length; cbn [lk_curve set_vehicles set_control add_conflict add_link_in add_link_out]; lra]|]); reflexivity|]). apply List.Forall_nil.
Qed.
(** Sent to the third link, the car stops at the sign, passes it and the crossing, and leaves, whatever the lengths of the
    time steps up to 0.1 s: after enough time it is gone. *)
Theorem C77_case : forall pick, exists (s0 s1 : @sim RA) e T, history (@sim_new RA) sign_ops s0 /\ vehicle_at s0 lone_car <> None /\ has_sign s0 part2 /\ (exists l c, link_at s0 part2 = Some l /\ In c (lk_conflicts l) /\ cf_link c = side) /\
  exec e s0 (OSetDestination lone_car part3) = Ok s1 /\
  forall dts, List.Forall (fun dt => 0 <= dt <= 1 / 10) dts -> T <= total dts ->
    exists n s, (forall fuel, (n <= fuel)%nat -> run (Env fuel pick) s1 (map (@OStep RA) dts) = Ok s) /\ vehicle_at s lone_car = None.
Proof.
  intros pick. destruct sign_ok as (s0 & l1 & l2 & l3 & l4 & v & c2 & c4 & H & Ks & G1 & G2 & G3 & G4 & O1 & O2 & O3 & O4 & N1 & N2 & N3 & N4 & D1 & D2 & D3 & D4 & Y2 & Y4 & F & Kl & Kv & Gv & Rv & Lv & Pv & Sv & Fz).
  inversion F as [|? ? (A3 & A4 & A5 & A6 & A7) F1]; subst. inversion F1 as [|? ? (B3 & B4 & B5 & B6 & B7) F2]; subst. inversion F2 as [|? ? (C3 & C4 & C5 & C6 & C7) F3]; subst. inversion F3 as [|? ? (E3 & E4 & E5 & E6 & E7) _]; subst. clear F F1 F2 F3.
  assert (history (@sim_new RA) sign_ops s0) as Hh by (eapply run_history; exact H). assert (reachable s0) as Rc by (eapply history_reachable; [exact Hh|constructor]).
  assert (forall k x, link_at s0 k = Some x -> k = part1 /\ x = l1 \/ k = part2 /\ x = l2 \/ k = part3 /\ x = l3 \/ k = side /\ x = l4) as Four.
  { intros k x G. assert (In k (sm_keys (s_links s0))) as Hk by (apply in_keys; unfold link_at in G; unfold valid; apply sm_mem_get; eauto). rewrite Ks in Hk.
    destruct Hk as [<-|[<-|[<-|[<-|[]]]]]; [left|right; left|right; right; left|right; right; right]; split; congruence. }
  assert (List.Forall (one_limit 10 (1 / 10)) sign_ops) as Ol by (repeat constructor; cbn; lra).
  assert (forall a b, succ_of (s_links s0) a b -> a = part1 /\ b = part2 \/ a = part2 /\ b = part3) as Su.
  { intros a b (l & G & Hb). destruct (Four a l G) as [(-> & ->)|[(-> & ->)|[(-> & ->)|(-> & ->)]]]; [rewrite O1 in Hb|rewrite O2 in Hb|rewrite O3 in Hb|rewrite O4 in Hb]; [destruct Hb as [<-|[]]; auto|destruct Hb as [<-|[]]; auto|destruct Hb|destruct Hb]. }
  assert (forall a b, clos_refl_trans key (succ_of (s_links s0)) a b -> (k_idx a <= k_idx b)%nat /\ (a = side -> b = side) /\ (b = side -> a = side)) as Far.
  { intros a b T. induction T as [a b T|a|a b c _ (I1 & I2 & I3) _ (I4 & I5 & I6)]; [destruct (Su a b T) as [(-> & ->)|(-> & ->)]; (split; [cbn; lia|]); split; discriminate|auto|]. split; [lia|]. auto. }
  destruct (car_parts _ Sv) as (X1 & X2 & X3 & X4).
  assert (no_lights s0) as Nl. { intros k. destruct (sm_get (s_lights s0) k) as [l|] eqn:G; [|reflexivity]. assert (In k (sm_keys (s_lights s0))) as Hk by (apply in_keys; unfold valid; apply sm_mem_get; eauto). rewrite Kl in Hk. destruct Hk. }
  assert (small_costs s0) as Co.
  { assert (forall x : R, 29 < x <= 30 -> (4 * @link_cost RA x 10%R <= usize_max)%Z) as Q.
    { intros x B. unfold link_cost. unR. assert (Raux.Ztrunc (10 * x / 10) <= 30)%Z. { rewrite Raux.Ztrunc_floor by lra. apply Z.lt_succ_r. apply lt_IZR. eapply Rle_lt_trans; [apply Raux.Zfloor_lb|]. cbn. lra. }
      change (@ncast RA usize_max (10 * x / 10)) with (Z.max 0 (Z.min usize_max (Raux.Ztrunc (10 * x / 10)))). unfold usize_max. lia. }
    intros x l G. rewrite Ks. change (Z.of_nat (length [part1; part2; part3; side])) with 4%Z. destruct (Four x l G) as [(_ & ->)|[(_ & ->)|[(_ & ->)|(_ & ->)]]]; rewrite ?A7, ?B7, ?C7, ?E7; apply Q; assumption. }
  assert (has_sign s0 part2) as Hs by (eexists l2, _, _, _; split; [exact G2|]; split; [exact N2|lra]).
  assert (forall x, ~ controlled s0 x) as Nc by (intros x (kl & l & i & Q & _); rewrite Nl in Q; discriminate Q).
  destruct (C65_destination_returns s0 lone_car part3 pick Rc Co) as (n & s1 & H1); [congruence|congruence|]. specialize (H1 n (le_n _)).
  destruct (C77_alone_arrives sign_ops s0 lone_car v part1 part3 (Env n pick) s1 (1 / 10) 10) as (T & HT); auto; try lra.
  - constructor.
  - discriminate.
  - apply rt_trans with part2; apply rt_step; left; [exists l1; split; [exact G1|rewrite O1]|exists l2; split; [exact G2|rewrite O2]]; left; reflexivity.
  - intros k2 w Q. assert (In k2 (sm_keys (s_vehicles s0))) as Hk by (apply in_keys; unfold vehicle_at in Q; unfold valid; apply sm_mem_get; eauto). rewrite Kv in Hk. destruct Hk as [<-|[]]. reflexivity.
  - unfold get_vehicle_frozen. rewrite Fz. reflexivity.
  - intros x l G. destruct (Four x l G) as [(_ & ->)|[(_ & ->)|[(_ & ->)|(_ & ->)]]]; auto.
  - intros x l c G Hc. destruct (Four x l G) as [(-> & ->)|[(-> & ->)|[(-> & ->)|(-> & ->)]]]; [rewrite D1 in Hc; destruct Hc|rewrite D2 in Hc; destruct Hc as [<-|[]]|rewrite D3 in Hc; destruct Hc|rewrite D4 in Hc; destruct Hc as [<-|[]]].
    + rewrite Y2. split; intros Q; destruct (Far _ _ Q) as (_ & Q1 & Q2); [specialize (Q2 eq_refl); discriminate Q2|specialize (Q1 eq_refl); discriminate Q1].
    + rewrite Y4. split; intros Q; destruct (Far _ _ Q) as (_ & Q1 & Q2); [specialize (Q1 eq_refl); discriminate Q1|specialize (Q2 eq_refl); discriminate Q2].
  - intros a Q. assert (forall x y, clos_trans key (succ_of (s_links s0)) x y -> (k_idx x < k_idx y)%nat) as Up2. { intros x y Tc. induction Tc as [x y Tc|x y z _ IH1 _ IH2]; [destruct (Su _ _ Tc) as [(-> & ->)|(-> & ->)]; cbn; lia|lia]. } specialize (Up2 _ _ Q). lia.
  - intros k l G. rewrite Nl in G. discriminate G.
  - intros x Lx. left. split; [|apply Nc]. assert (x = part1 \/ x = part2 \/ x = part3) as [->|[->| ->]]; [|left; eauto|right; exact Hs|left; eauto].
    apply clos_rt_rt1n in Lx. destruct Lx as [|y z [St|(l & G & Hl)] _]; [auto|destruct (Su _ _ St) as [(-> & _)|(-> & _)]; auto|].
    exfalso. destruct (Four x l G) as [(_ & ->)|[(_ & ->)|[(_ & ->)|(_ & ->)]]]; rewrite ?A4, ?B4, ?C4, ?E4 in Hl; destruct Hl.
  - intros a b c _ _ _ _ Cb. destruct (Nc _ Cb).
  - intros x l G. destruct (Four x l G) as [(_ & ->)|[(_ & ->)|[(_ & ->)|(_ & ->)]]]; rewrite X1; lra.
  - rewrite (factor_one 10 (1 / 10) sign_ops s0 lone_car v Hh Ol Gv). lra.
  - exists s0, s1, (Env n pick), T. split; [exact Hh|]. split; [congruence|]. split; [exact Hs|]. split; [exists l2, c2; split; [exact G2|]; split; [rewrite D2; left; reflexivity|exact Y2]|]. split; [exact H1|]. intros dts Fd Tt.
    destruct (set_same _ _ _ _ _ H1) as (El & Eg & _).
    destruct (C65_goes_on dts s1 pick) as (n2 & s & Hs2).
    + exact (reach_call _ _ _ _ Rc H1).
    + intros x l G. unfold link_at in G. rewrite El in G. destruct (Four x l G) as [(_ & ->)|[(_ & ->)|[(_ & ->)|(_ & ->)]]]; lra.
    + intros x l G. unfold link_at in G. rewrite El in G. destruct (Four x l G) as [(_ & ->)|[(_ & ->)|[(_ & ->)|(_ & ->)]]]; (split; [assumption|]); intros g Eq; congruence.
    + intros k l G. rewrite Eg, Nl in G. discriminate G.
    + unfold small_costs, link_at in *. rewrite El. exact Co.
    + exists n2, s. split; [exact Hs2|]. apply (HT dts s Fd Tt). eapply run_history. exact (Hs2 n2 (le_n _)).
Qed.
Print Assumptions C77_case.
