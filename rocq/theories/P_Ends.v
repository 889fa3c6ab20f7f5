(** * The searches of an acceleration update end (C50) *)
From Coq Require Import List Bool ZArith NArith Arith Lia Reals Lra Psatz.
From Flocq Require Import Core.
From Verif Require Import Arith F64 RealArith Base BaseProofs SlotMap SlotMapProofs Util Geom Light Accel Net Path Vehicle LinkOps Sim SpecLight SpecSim Safe NetInv SimInv StepSafe OpSafe Evo StepEvo SimProofs RFacts SimExample P_Sim NetEvo P_Motion EndsProofs LineProofs RaExample.
Import ListNotations.
Local Open Scope R_scope.

(** ** Following an obstacle round a bend *)
Lemma cubic_below (a3 a2 a1 a0 : R) : a3 < 0 -> exists t0, forall t, t0 <= t -> a3 * t^3 + a2 * t^2 + a1 * t + a0 <= 0.
Proof.
  intros H. set (K := Rabs a2 + Rabs a1 + Rabs a0). exists (Rmax 1 (K / - a3)). intros t Ht.
  assert (1 <= t) as T1 by (eapply Rle_trans; [apply Rmax_l|exact Ht]). assert (K / - a3 <= t) as T2 by (eapply Rle_trans; [apply Rmax_r|exact Ht]).
  assert (K <= - a3 * t) as T3 by (apply (Rmult_le_compat_r (- a3)) in T2; [|lra]; unfold Rdiv in T2; rewrite Rmult_assoc, Rinv_l in T2 by lra; lra).
  pose proof (Rle_abs a2) as A2. pose proof (Rle_abs a1) as A1. pose proof (Rle_abs a0) as A0. pose proof (Rabs_pos a1). pose proof (Rabs_pos a0).
  assert (t <= t * t) as S1 by nra. assert (1 <= t * t) as S0 by nra.
  assert (a2 * (t * t) <= Rabs a2 * (t * t)) by (apply Rmult_le_compat_r; lra). assert (a1 * t <= Rabs a1 * (t * t)) by nra. assert (a0 <= Rabs a0 * (t * t)) by nra.
  assert (K * (t * t) <= (- a3 * t) * (t * t)) as T4 by (apply Rmult_le_compat_r; lra). unfold K in T4. cbn [pow]. nra.
Qed.
(** Far enough along a curve of degree two, a given point is not ahead. *)
Lemma behind_at_last (ax ay bx by_ cx cy qx qy : R) :
  exists t0, forall t, t0 <= t -> (qx - (ax + bx * t + cx * t^2)) * (bx + 2 * cx * t) + (qy - (ay + by_ * t + cy * t^2)) * (by_ + 2 * cy * t) <= 0.
Proof.
  destruct (Req_dec (cx * cx + cy * cy) 0) as [C0|C0].
  - assert (cx = 0 /\ cy = 0) as (-> & ->) by nra.
    destruct (Req_dec (bx * bx + by_ * by_) 0) as [B0|B0].
    + assert (bx = 0 /\ by_ = 0) as (-> & ->) by nra. exists 0. intros t _. lra.
    + set (N := bx * bx + by_ * by_) in *. assert (0 < N) as HN by (unfold N in *; nra). set (M := (qx - ax) * bx + (qy - ay) * by_). exists (M / N). intros t Ht.
      assert (M <= t * N) by (apply (Rmult_le_compat_r N) in Ht; [|lra]; unfold Rdiv in Ht; rewrite Rmult_assoc, Rinv_l in Ht by lra; lra). unfold M, N in *. lra.
  - assert (0 < cx * cx + cy * cy) as HC by nra.
    destruct (cubic_below (-2 * (cx * cx + cy * cy)) (- 3 * (bx * cx + by_ * cy)) (2 * ((qx - ax) * cx + (qy - ay) * cy) - (bx * bx + by_ * by_)) ((qx - ax) * bx + (qy - ay) * by_)) as (t0 & Ht0); [lra|].
    exists t0. intros t Ht. specialize (Ht0 t Ht). cbn [pow] in *. lra.
Qed.
Section Pass.
  Variable lc : @link_curve RA.
  Hypothesis Scale : lc_scale lc = 1.
  Definition ahead (p : @pt RA) (pos : R) : R := py (project_local p (sm_pos (sample_centre lc pos)) (rot90 (sm_tan (sample_centre lc pos))) (sm_tan (sample_centre lc pos))).
  Lemma ahead_at_last p : exists s0, forall pos, s0 <= pos -> ahead p pos <= 0.
  Proof.
    set (i := Nat.min (Z.to_nat u32_max) (length (lc_segments lc) - 1)). set (seg := nth i (lc_segments lc) (QBez vzero vzero vzero)).
    destruct seg as [[x0 y0] [x1 y1] [x2 y2]] eqn:Es.
    destruct (behind_at_last x0 y0 (2 * (x1 - x0)) (2 * (y1 - y0)) (x0 - 2 * x1 + x2) (y0 - 2 * y1 + y2) (px p) (py p)) as (t0 & Ht0).
    exists (Rmax (IZR u32_max) (t0 + INR i)). intros pos Hpos.
    assert (IZR u32_max <= pos) as P1 by (eapply Rle_trans; [apply Rmax_l|exact Hpos]). assert (t0 + INR i <= pos) as P2 by (eapply Rle_trans; [apply Rmax_r|exact Hpos]).
    assert (lc_seg lc pos = (QBez (Pt x0 y0) (Pt x1 y1) (Pt x2 y2), pos - INR i)) as E.
    { unfold lc_seg, lc_sample_index. rewrite Scale. replace (@nmul RA pos 1) with pos by (change (pos = pos * 1); lra).
      replace (@ncast RA u32_max pos) with u32_max; [fold i; rewrite <- INR_IZR_INZ; fold seg; rewrite Es; reflexivity|].
      cbn [ncast RA]. assert (u32_max <= Ztrunc pos)%Z as T; [|unfold u32_max in *; lia].
      rewrite Ztrunc_floor by (eapply Rle_trans; [|exact P1]; apply IZR_le; unfold u32_max; lia). apply Zfloor_lub. exact P1. }
    unfold ahead, sample_centre. rewrite E. set (t := pos - INR i). assert (t0 <= t) as Ht by (unfold t; lra). specialize (Ht0 t Ht).
    unfold project_local. cbn [sm_pos sm_tan py]. unfold normalize, normalize_to, dot. cbn [vsub vmul px py].
    set (sg := QBez (Pt x0 y0) (Pt x1 y1) (Pt x2 y2)). set (d := @qb_dt RA sg t). set (k := @ndiv RA n1 (magnitude d)).
    assert (0 <= k) as Kp.
    { unfold k, magnitude. change (0 <= 1 / sqrt (magnitude2 d)). destruct (Req_dec (sqrt (magnitude2 d)) 0) as [->|N]; [unfold Rdiv; rewrite Rinv_0; lra|].
      apply Rlt_le. apply Rdiv_lt_0_compat; [lra|]. pose proof (sqrt_pos (magnitude2 d)). lra. }
    assert (forall a b c e : R, (a * (b * k) + c * (e * k))%R = (k * (a * b + c * e))%R) as Fk by (intros; ring).
    unR. rewrite Fk. clear Fk.
    assert ((px p - px (@qb_sample RA sg t)) * px d + (py p - py (@qb_sample RA sg t)) * py d <= 0) as Hle.
    { unfold d, sg, qb_sample, qb_dt, n2, n1. cbn [vadd vscale px py q0 q1 q2]. unR. cbn [pow] in Ht0. lra. }
    nra.
  Qed.
  Lemma settles_pass_from s0 : forall (m : nat) k (o : @obstacle RA), (forall pos, s0 <= pos -> ahead (fst (o_rear o)) pos <= 0) -> s0 <= o_pos o + INR m * (1 / 10) ->
    settles (fun n => @pass_loop RA (n - k) lc o).
  Proof.
    induction m as [|m IH]; intros k o Ha Hm.
    - eapply settles_late with (n := S k); [intros fuel L; replace (fuel - k)%nat with (S (fuel - S k)) by lia; cbn [pass_loop]; reflexivity|].
      match goal with |- context [@nltb ?A ?x ?y] => replace (@nltb A x y) with true; [apply settles_ok|] end. symmetry. apply ltb_R. rewrite min_R.
      eapply Rle_lt_trans; [apply Rmin_l|]. cbn [INR] in Hm. specialize (Ha (o_pos o) ltac:(lra)). unfold ahead in Ha. unfold lit. unR. lra.
    - eapply settles_late with (n := S k); [intros fuel L; replace (fuel - k)%nat with (S (fuel - S k)) by lia; cbn [pass_loop]; reflexivity|].
      match goal with |- context [@nltb ?A ?x ?y] => destruct (@nltb A x y) eqn:E; [apply settles_ok|] end. apply ltb_R_false in E.
      apply IH; [exact Ha|]. cbn [o_pos]. rewrite S_INR in Hm. unfold lit in E. unR. lra.
  Qed.
  Lemma settles_pass (o : @obstacle RA) : settles (fun n => @pass_loop RA n lc o).
  Proof.
    destruct (ahead_at_last (fst (o_rear o))) as (s0 & Hs). destruct (nat_above ((s0 - o_pos o) * 10)) as (m & Hm).
    refine (settles_late _ _ 0%nat _ (settles_pass_from s0 m 0 o Hs _)); [intros fuel _; rewrite Nat.sub_0_r; reflexivity|lra].
  Qed.
End Pass.

(** ** All links have been built by [add_link] *)
Definition curve_built {A : Arith} (l : link) : Prop := lc_scale (lk_curve l) = ndiv nhalf nhalf /\ lc_segments (lk_curve l) <> [].
Lemma link_new_built {A : Arith} fuel k c lim l : link_new fuel k c lim = Ok l -> curve_built l.
Proof.
  unfold link_new, lc_new, lc_with_step, curve_built. intros H. bok H cv Hc. injection H as <-. bok Hc pl Hpl. cbn [lk_curve]. destruct (segments_of _) eqn:E; [discriminate Hc|]. injection Hc as <-. split; [reflexivity|discriminate].
Qed.
Lemma reachable_curve_built {A : Arith} s : reachable s -> forall k l, link_at s k = Some l -> curve_built l.
Proof.
  induction 1 as [|e s o s' R IH H]; intros k l G.
  - unfold link_at in G. cbn [sim_new s_links] in G. rewrite sm_get_empty in G. discriminate G.
  - destruct (exec_built _ _ _ _ _ _ (reachable_Inv _ R) H G) as [(l0 & G0 & E & _)|(c & lim & _ & _ & E)].
    + specialize (IH k l0 G0). unfold geo in E. unfold curve_built in *. injection E as E1 E2 E3 E4. rewrite E2. exact IH.
    + exact (link_new_built _ _ _ _ _ E).
Qed.

(** ** The acceleration update *)
Section Update.
  Variables (links : @linkset RA) (delta V : R).
  Hypothesis Hdelta : 0 < delta.
  Hypothesis Hlinks : forall k l, sm_get links k = Some l -> delta <= lk_length l /\ 0 < lk_limit l <= V.
  Hypothesis Hscale : forall k l, sm_get links k = Some l -> lc_scale (lk_curve l) = 1.
  Lemma settles_obstacle (self : @link RA) o log r : lc_scale (lk_curve self) = 1 -> settles (fun n => @obstacle_cb RA n self o log r).
  Proof.
    intros Hs. unfold obstacle_cb. eapply settles_bind; [|intros [|p v]; apply settles_ok]. unfold can_pass. destruct (is_clear _ _); [apply settles_ok|].
    eapply settles_bind; [apply settles_pass; exact Hs|]. intros o'. apply settles_ok.
  Qed.
  Lemma settles_obstacles vs (self : @link RA) p ids : lc_scale (lk_curve self) = 1 -> lk_limit self <= V -> forall skip log, settles (fun n => @follow_obstacles RA n links vs self p ids skip log).
  Proof.
    intros Hs Hl. induction ids as [|id ids IH]; intros skip log; [apply settles_ok|]. cbn [follow_obstacles].
    apply settles_bind_fin; [apply fin_get_vehicle|]. intros v _. apply settles_bind_fin; [apply fin_project|]. intros o _. apply settles_bind_fin; [apply fin_count_ahead|]. intros cnt _.
    eapply settles_bind; [|intros log'; apply IH]. apply (settles_process' links delta V Hdelta Hlinks (fun n => obstacle_cb n self o)); [|exact Hl]. intros s r. apply settles_obstacle. exact Hs.
  Qed.
  Lemma settles_accelerations vs (l : @link RA) log : lk_limit l <= V -> settles (fun n => @apply_accelerations RA n links vs l log).
  Proof.
    intros Hl. unfold apply_accelerations. apply settles_bind_fin; [apply fin_follow_on|]. intros log1 _.
    eapply settles_bind; [apply (settles_process' links delta V Hdelta Hlinks (fun _ => entering_cb vs l)); [intros s r; apply settles_fin, fin_entering|exact Hl]|].
    intros log2. destruct (lk_group l) as [g|]; [|apply settles_ok]. apply settles_bind_fin; [apply fin_projections|]. intros ps _.
    eapply (settles_foldM (fun n s p => _)). intros lg p _. cbv beta. apply settles_bind_fin; [apply fin_get_link|]. intros l2 G. unfold get_link in G. apply of_option_ok in G.
    apply settles_obstacles; [eapply Hscale; exact G|apply (Hlinks _ _ G)].
  Qed.
  Lemma settles_find vs c buf : settles (fun n => @find_vehicles RA n links vs c buf).
  Proof.
    unfold find_vehicles. apply settles_bind_fin; [apply fin_get_link|]. intros l G. unfold get_link in G. apply of_option_ok in G.
    apply (settles_process' links delta V Hdelta Hlinks (fun _ buf r => Ok (if nltb (rv_rear r) (nsub (cpl_max c) (cpl_min c)) then buf ++ [r] else buf, true))); [intros s r; apply settles_ok|apply (Hlinks _ _ G)].
  Qed.
  Lemma settles_conflict vs c log : settles (fun n => @cp_apply RA n links vs c log).
  Proof.
    unfold cp_apply. eapply settles_bind; [apply settles_find|]. intros [|r b1]; [apply settles_ok|]. eapply settles_bind; [apply settles_find|]. intros b2. apply settles_fin. destruct (Nat.eqb _ _); [discriminate|].
    apply fin_bind; [apply fin_sort|discriminate].
  Qed.
  Lemma settles_update vs cps : settles (fun n => bind (sim_stoplines n links vs []) (fun log => sim_link_accelerations n links vs cps log)).
  Proof.
    assert (forall l, In l (sm_values links) -> lk_limit l <= V) as Hv by (intros l Hl; apply in_values in Hl; destruct Hl as (k & G); apply (Hlinks _ _ G)).
    eapply settles_bind.
    - unfold sim_stoplines. eapply (settles_foldM (fun n s l => _)). intros log l Hl. cbv beta. unfold apply_stoplines.
      apply (settles_process' links delta V Hdelta Hlinks (fun n => stopline_cb n links vs l)); [|exact (Hv l Hl)]. intros s r. apply (settles_stopline links delta V Hdelta Hlinks).
    - intros log. unfold sim_link_accelerations. eapply settles_bind; [eapply (settles_foldM (fun n s l => _)); intros lg l Hl; cbv beta; apply settles_accelerations; exact (Hv l Hl)|].
      intros lg. eapply (settles_foldM (fun n s c => _)). intros lg2 c _. cbv beta. apply settles_conflict.
  Qed.
End Update.
(** In a network of finitely many links, lengths are bounded below and limits above. *)
Lemma network_bounds (links : @linkset RA) : (forall k l, sm_get links k = Some l -> 0 < lk_length l /\ 0 < lk_limit l) ->
  exists delta V, 0 < delta /\ forall k l, sm_get links k = Some l -> delta <= lk_length l /\ 0 < lk_limit l <= V.
Proof.
  intros H. assert (exists delta V, 0 < delta /\ forall l, In l (sm_values links) -> delta <= lk_length l /\ lk_limit l <= V) as (d & V & Hd & K).
  { assert (forall l, In l (sm_values links) -> 0 < lk_length l) as P by (intros l Hl; apply in_values in Hl; destruct Hl as (k & G); apply (H _ _ G)).
    induction (sm_values links) as [|l ls IH]; [exists 1, 0; split; [lra|intros ? []]|].
    destruct IH as (d & V & Hd & K); [intros l' Hl'; apply P; right; exact Hl'|]. exists (Rmin d (lk_length l)), (Rmax V (lk_limit l)). split; [apply Rmin_glb_lt; [exact Hd|apply P; left; reflexivity]|].
    intros l' [<-|Hl']; [split; [apply Rmin_r|apply Rmax_r]|]. destruct (K l' Hl') as (K1 & K2). split; [eapply Rle_trans; [apply Rmin_l|exact K1]|eapply Rle_trans; [exact K2|apply Rmax_l]]. }
  exists d, V. split; [exact Hd|]. intros k l G. destruct (K l) as (K1 & K2); [apply in_values; eauto|]. destruct (H _ _ G). auto.
Qed.

(** In exact arithmetic, in every state that can be reached and whose links all have positive length and speed limit, the acceleration
    update of a step ends, on every network, cyclic ones included: there is a number of rounds after which none of its loops and recursions goes on,
    and its result does not depend on where they would be cut off later.  [s1] is the state after the lane changes at the start of the step. *)
Theorem C50_update_ends :
  forall (s s1 : @sim RA) e0, reachable s -> (forall k l, link_at s k = Some l -> 0 < lk_length l /\ 0 < lk_limit l) -> calculate_lane_changes e0 s = Ok s1 ->
    exists n r, r <> OutOfFuel /\ forall e, (n <= e_fuel e)%nat -> sim_apply_accelerations e s1 = r.
Proof.
  intros s s1 e0 R H H1. destruct (reachable_Inv _ R) as [St0 F0 LW LI CP FR].
  destruct (safe_ok (fun _ => True) _ _ _ (calculate_lane_changes_safe (fun _ => True) e0 s St0 F0 (fun _ _ => I)) H1) as (St1 & F1 & S0 & _).
  unfold sim_apply_accelerations. destruct (nltb _ _); [exists 0%nat, (Ok s1); split; [discriminate|reflexivity]|].
  assert (fin (activate_all (with_acc_update s1 n0))) as F by apply fin_activate_all.
  destruct (activate_all (with_acc_update s1 n0)) as [(links & vs)|p|] eqn:E; [|exists 0%nat, (Panic p); split; [discriminate|reflexivity]|contradiction]. cbn [bind].
  destruct (safe_ok (fun _ => True) _ _ _ (activate_all_safe (fun _ => True) (with_acc_update s1 n0) (fun k v Hk => vb_chain _ _ _ _ (st_veh _ _ _ St1 k v Hk))) E) as (S1 & _). cbn [fst with_acc_update s_links] in S1.
  assert (forall k l, sm_get links k = Some l -> exists l0, link_at s k = Some l0 /\ lk_curve l = lk_curve l0 /\ lk_limit l = lk_limit l0) as Same.
  { intros k l G. destruct (same_net_get _ _ _ _ (same_net_trans _ _ _ S0 S1) G) as (l0 & G0 & Es). exists l0. split; [exact G0|]. unfold lk_static in Es. injection Es as E1 E2 E3 E4 E5 E6 E7 E8 E9. auto. }
  destruct (network_bounds links) as (d & V & Hd & Hb).
  { intros k l G. destruct (Same k l G) as (l0 & G0 & Ec & El). unfold lk_length. rewrite Ec, El. exact (H k l0 G0). }
  destruct (settles_update links d V Hd Hb) with (vs := vs) (cps := s_conflicts s1) as (n & r & Hr & Hn).
  { intros k l G. destruct (Same k l G) as (l0 & G0 & Ec & _). rewrite Ec. destruct (reachable_curve_built _ R k l0 G0) as (-> & _). rewrite half_R. change (/2 / /2 = 1). field. }
  exists n. cbn [with_acc_update s_conflicts].
  exists (bind r (fun log => let '(links', vs') := apply_log (links, vs) log in let '(vs'', frozen) := apply_frozen vs' (s_frozen s1) in Ok (with_frozen (with_vehicles (with_links (with_acc_update s1 n0) links') vs'') frozen))).
  split.
  - destruct r as [log|p|]; [|discriminate|contradiction]. cbn [bind]. destruct (apply_log (links, vs) log) as (l' & v'). destruct (apply_frozen v' (s_frozen s1)). discriminate.
  - intros e Le. rewrite <- (Hn _ Le). destruct (sim_stoplines (e_fuel e) links vs []) as [log|p|]; reflexivity.
Qed.
Print Assumptions C50_update_ends.

(** How deep the recursions go.  The scan of the vehicles that come towards a point, [pos] beyond the start of the link [l], with links of
    length at least [delta] and limits of at most [V]: the look-ahead distance is [5 V], and the number of links on a path back from [l] that it
    follows is at most [(5 V - pos) / delta], plus one. *)
Lemma foldM_fin {S_ X} (f : S_ -> X -> res S_) xs : (forall s x, f s x <> OutOfFuel) -> forall s, foldM f xs s <> OutOfFuel.
Proof. intros H. induction xs as [|x xs IH]; intros s; [discriminate|]. cbn [foldM]. specialize (H s x). destruct (f s x) as [s'|p|]; cbn [bind]; [apply IH|discriminate|contradiction]. Qed.
Theorem C50_scan_depth :
  forall (S_ : Type) (links : @linkset RA) (delta V : R), 0 < delta -> (forall k l, sm_get links k = Some l -> delta <= lk_length l /\ lk_limit l <= V) ->
  forall (func : S_ -> @relveh RA -> res (S_ * bool)) vs (fuel : nat) (l : @link RA) route (pos : R) skip s, (forall s r, func s r <> OutOfFuel) -> lk_limit l <= V -> 5 * V - pos <= (INR fuel - 1) * delta -> (0 < fuel)%nat ->
    process_vehicles func fuel links vs l route pos skip s <> OutOfFuel.
Proof.
  intros S_ links delta V Hd Hb func vs fuel. induction fuel as [|fuel IH]; intros l route pos skip s Hf Hl Hp Lt; [lia|]. cbn [process_vehicles]. destruct (negb (lk_active l)); [discriminate|].
  assert (forall ids min_pos s, scan func vs (lk_length l) route pos min_pos ids s <> OutOfFuel) as Hs.
  { induction ids as [|id ids IHi]; intros mp s0; [discriminate|]. cbn [scan]. unfold get_vehicle. destruct (sm_get vs id) as [v|]; [|discriminate]. cbn [of_option bind]. destruct (nltb _ _); [discriminate|].
    destruct (get_route v (fst route)) as [(k & st)|]; [|apply IHi]. destruct (negb _); [apply IHi|].
    assert (bind (func s0 (RV id v (fst route) pos)) (fun sb => if snd sb then scan func vs (lk_length l) route pos mp ids (fst sb) else Ok (fst sb, Stop)) <> OutOfFuel) as G.
    { specialize (Hf s0 (RV id v (fst route) pos)). destruct (func s0 _) as [(s1 & [|])|p|]; cbn [bind fst snd]; [apply IHi|discriminate|discriminate|contradiction]. }
    destruct st; try destruct (nltb _ _); try discriminate; exact G. }
  match goal with |- bind (scan func vs ?a ?b ?c ?d ?e ?f) _ <> _ => specialize (Hs e d f); destruct (scan func vs a b c d e f) as [(s' & en)|p|]; cbn [bind fst snd]; [|discriminate|contradiction] end.
  destruct en; [discriminate|]. match goal with |- context [@nleb ?A ?x ?y] => destruct (@nleb A x y) eqn:E; [discriminate|] end. apply leb_R_false in E. unfold MAX_LOOKAHEAD in E. change (pos - 5 * lk_limit l < 0) in E.
  apply foldM_fin. intros s0 id. unfold get_link. destruct (sm_get links id) as [l'|] eqn:G; [|discriminate]. cbn [of_option bind]. destruct (Hb _ _ G) as (B1 & B2). rewrite S_INR in Hp.
  apply IH; [exact Hf|exact B2| |].
  - change (5 * V - (pos + lk_length l') <= (INR fuel - 1) * delta). lra.
  - destruct fuel as [|fuel]; [|lia]. cbn [INR] in Hp. lra.
Qed.
Print Assumptions C50_scan_depth.
(** The search for a gap: it goes back at most as far as a vehicle at the highest limit gets in [time]. *)
Theorem C50_gap_depth :
  forall (links : @linkset RA) (delta V : R), 0 < delta -> (forall k l, sm_get links k = Some l -> delta <= lk_length l /\ 0 < lk_limit l <= V) ->
  forall vs (fuel : nat) (l : @link RA) (p0 p1 time : R) q route (mv : R), 0 < lk_limit l <= V -> mv <= V -> Rmax time 0 * V - p0 < (INR fuel - 1) * delta -> (0 < fuel)%nat ->
    check_gap fuel links vs l (p0, p1) time q route mv <> OutOfFuel.
Proof.
  intros links delta V Hd Hb vs fuel. induction fuel as [|fuel IH]; intros l p0 p1 time q route mv Hl Hm Hp Lt; [lia|]. cbn [check_gap fst snd].
  pose proof (fin_skip_past vs p1 (rev (lk_vehicles l))) as F1. unfold fin in F1. destruct (skip_past vs p1 (rev (lk_vehicles l))) as [ids|p|]; cbn [bind]; [|discriminate|contradiction].
  match goal with |- context [gap_loop ?a ?b ?c ?d ?e ?f ?g] => pose proof (fin_gap_loop a b c d e f g) as F2; unfold fin in F2; destruct (gap_loop a b c d e f g) as [[b0|]|p|]; cbn [bind]; [discriminate| |discriminate|contradiction] end.
  match goal with |- context [@nltb ?A ?x ?y] => destruct (@nltb A x y) eqn:E; [discriminate|] end. apply ltb_R_false in E. rewrite max_R in E. change (p0 / Rmax mv (lk_limit l) <= time) in E.
  assert (0 < Rmax mv (lk_limit l) <= V) as HM by (split; [eapply Rlt_le_trans; [apply Hl|apply Rmax_r]|apply Rmax_lub; lra]).
  assert (p0 <= Rmax time 0 * V) as P0.
  { assert (p0 <= time * Rmax mv (lk_limit l)) as A0 by (apply (Rmult_le_compat_r (Rmax mv (lk_limit l))) in E; [|lra]; unfold Rdiv in E; rewrite Rmult_assoc, Rinv_l in E by lra; lra).
    assert (Rmax time 0 * Rmax mv (lk_limit l) <= Rmax time 0 * V) as Hx by (apply Rmult_le_compat_l; [apply Rmax_r|lra]).
    assert (time * Rmax mv (lk_limit l) <= Rmax time 0 * Rmax mv (lk_limit l)) as Hy by (apply Rmult_le_compat_r; [lra|apply Rmax_l]). lra. }
  rewrite S_INR in Hp.
  assert (forall ids, allM (fun id => bind (get_link links id) (fun l' => check_gap fuel links vs l' (@nadd RA p0 (lk_length l'), @nadd RA p1 (lk_length l')) time q (S (fst route), snd route) (@nmax RA mv (lk_limit l)))) ids <> OutOfFuel) as G; [|apply G].
  induction ids0 as [|id ids0 IHi]; [discriminate|]. cbn [allM].
  assert (bind (get_link links id) (fun l' => check_gap fuel links vs l' (@nadd RA p0 (lk_length l'), @nadd RA p1 (lk_length l')) time q (S (fst route), snd route) (@nmax RA mv (lk_limit l))) <> OutOfFuel) as G.
  { unfold get_link. destruct (sm_get links id) as [l'|] eqn:G; [|discriminate]. cbn [of_option bind]. destruct (Hb _ _ G) as (B1 & B2). apply IH; [exact B2| | |].
    - rewrite max_R. apply Rmax_lub; lra.
    - change (Rmax time 0 * V - (p0 + lk_length l') < (INR fuel - 1) * delta). lra.
    - destruct fuel as [|fuel]; [|lia]. cbn [INR] in Hp. lra. }
  destruct (bind (get_link links id) _) as [[|]|p|]; cbn [bind]; [exact IHi|discriminate|discriminate|contradiction].
Qed.
Print Assumptions C50_gap_depth.

(** A road that leads back to its own start, with a car. *)
Example C50_example : exists (s s1 : @sim RA) l v, run ra_env sim_new ring_ops = Ok s /\ reachable s /\ (forall k l, link_at s k = Some l -> 0 < lk_length l /\ 0 < lk_limit l) /\ calculate_lane_changes ra_env s = Ok s1 /\
  link_at s ring_id = Some l /\ lk_in l = [ring_id] /\ lk_vehicles l = [ring_id] /\ vehicle_at s ring_id = Some v.
Proof.
  destruct ring_ok as (s & l & v & H & G & Gs & Hlen & Hlim & Hin & Hout & Hv & Gv & _ & _ & Tl & _). exists s, s, l, v. split; [exact H|]. split; [exact (history_reachable _ _ _ (run_history _ _ _ _ H) (@reach_new RA))|]. split.
  - intros k l' G'. assert (In l' (sm_values (s_links s))) as Hl' by (apply in_values; eauto). rewrite Gs in Hl'. destruct Hl' as [<-|[]]. rewrite Hlim. lra.
  - split; [|auto]. unfold calculate_lane_changes. rewrite Tl.
    match goal with |- context [@nltb ?A ?x ?y] => replace (@nltb A x y) with true; [reflexivity|] end. symmetry. apply ltb_R. unfold LANE_CHANGE_UPDATE_SEC, lit. unR. lra.
Qed.
