(** * Positions and headings of vehicles (C44, C59) and lane changes (C36) *)
From Coq Require Import List Bool ZArith NArith Arith Lia Reals Lra Psatz.
From Flocq Require Import Core.Raux.
From Coquelicot Require Import Coquelicot.
From Verif Require Import Arith F64 RealArith Base BaseProofs SlotMap SlotMapProofs Util Geom Light Accel Net Path Vehicle LinkOps Sim SpecLight SpecSim SpecMotion SpecRoute Safe NetInv SimInv AccSafe SimSafe StepSafe OpSafe Evo StepEvo SimProofs StepProofs NetEvo SpecConf ConfProofs CoordEvo RFacts LineProofs RaExample SimExample P_Geom.
Import ListNotations.

(** ** C59: where a vehicle is shown *)
Section Place.
  Context {A : Arith}.
  (** The vehicle's [position()] is the point of its link's curve at its distance along the link,
      moved sideways during a lane change. *)
  Definition shown_on (s : sim) (v : vehicle) : Prop :=
    exists lid l, v_link v = Some lid /\ link_at s lid = Some l /\
      v_world_pos v = sm_pos (match v_lane_change v with
                              | None => sample_centre (lk_curve l) (v_pos v)
                              | Some c => lc_sample (lk_curve l) (v_pos v) (cubic_y (lch_offset c) (v_pos v))
                              end).
  Lemma place_shown l v : place l v = sm_pos (match v_lane_change v with None => sample_centre (lk_curve l) (v_pos v) | Some c => lc_sample (lk_curve l) (v_pos v) (cubic_y (lch_offset c) (v_pos v)) end).
  Proof. unfold place, lc_sample, sample_centre, lat_offset. destruct (v_lane_change v), (lc_seg (lk_curve l) (v_pos v)); reflexivity. Qed.
  Lemma step_curve e s dt s' k l : Inv s -> step e s dt = Ok s' -> sm_get (s_links s) k = Some l -> exists l', sm_get (s_links s') k = Some l' /\ lk_curve l' = lk_curve l.
  Proof. intros I H G. destruct (exec_geo e s (OStep dt) s' k l I H G) as (l' & G' & E). exists l'. split; auto. unfold geo in E. injection E. auto. Qed.
  Theorem C59_after_step :
    forall e s dt s' k v', reachable s -> step e s dt = Ok s' -> vehicle_at s' k = Some v' -> shown_on s' v'.
  Proof.
    intros e s dt s' k v' R H G. pose proof (reachable_Inv _ R) as I. destruct (step_track _ _ _ _ _ _ I H G) as (v & v1 & s1 & p & lid & l & lid' & l' & _ & _ & _ & _ & _ & _ & _ & _ & L' & G' & Wp & _).
    destruct (step_curve _ _ _ _ _ _ I H G') as (l2 & G2 & E2). exists lid', l2. split; auto. split; auto. rewrite Wp, place_shown, E2. reflexivity.
  Qed.
  Lemma exec_kept e s o s' k v' : Inv s -> exec e s o = Ok s' -> is_step o = false -> moves k o = false -> sm_get (s_vehicles s') k = Some v' ->
    (exists v, sm_get (s_vehicles s) k = Some v /\ v_link v' = v_link v /\ v_pos v' = v_pos v /\ v_lane_change v' = v_lane_change v /\ v_world_pos v' = v_world_pos v /\ v_world_dir v' = v_world_dir v) \/
    exists a lid v0, o = OAddVehicle a lid /\ k = sm_next_key (s_vehicles s) /\ update_coords (s_links s) v0 = Ok v' /\ v_world_dir v0 = vzero /\ v_link v0 = Some lid /\ v_pos v0 = n0 /\ v_lane_change v0 = None /\ v_wheel_base v0 = a_wheel_base a.
  Proof.
    intros I H Hs Hm G. set (P := exists v, sm_get (s_vehicles s) k = Some v /\ v_link v' = v_link v /\ v_pos v' = v_pos v /\ v_lane_change v' = v_lane_change v /\ v_world_pos v' = v_world_pos v /\ v_world_dir v' = v_world_dir v).
    assert (sm_get (s_vehicles s) k = Some v' -> P) as R1 by (intros Gv; exists v'; auto 10).
    assert (s_vehicles s' = s_vehicles s -> P) as R0 by (intros E; rewrite E in G; auto).
    destruct o; simpl in H; try discriminate Hs.
    - left. apply R0. bok H x Hx. unfold add_link in Hx. bok Hx l Hl. injection Hx as <-. injection H as <-. auto.
    - left. apply R0. unfold add_link_group in H. bok H x1 Hx1. bok H x2 Hx2. bok H x3 Hx3. bok H x4 Hx4. bok H x5 Hx5. injection H as <-. auto.
    - left. apply R0. unfold add_link_convergance in H. destruct (key_eqb _ _); [injection H as <-; auto|].
      destruct (sm_get _ a); [|injection H as <-; auto]. destruct (sm_get _ b); [|injection H as <-; auto].
      bok H x Hx. destruct x; [|injection H as <-; auto]. bok H y Hy. injection H as <-. auto.
    - left. apply R0. unfold add_link_connection in H. bok H x Hx. bok H y Hy. injection H as <-. auto.
    - left. apply R0. bok H x Hx. injection H as <-. auto.
    - bok H x Hx. destruct x as [s1 k1]. injection H as <-. simpl in G. unfold add_vehicle in Hx. bok Hx v0 Hv0. bok Hx v Hv. bok Hx links Hl.
      injection Hx as <- <-. simpl in G. rewrite sm_get_insert in G by apply I.
      destruct (key_eqb_spec (sm_next_key (s_vehicles s)) k); [|left; auto]. right. subst k. injection G as <-. exists a, link, v0. split; auto. split; auto. split; auto.
      destruct (set_location_body _ _ _ _ _ _ _ Hv0) as (B & L & Q & C & W1 & W2 & _). unfold body in B. injection B as B1 B2 B3 B4 B5 B6 B7 B8 B9 B10. rewrite W2, L, Q, C, B4. auto 10.
    - left. rewrite (remove_vehicle_ok _ _ _ I H) in G. destruct (key_eqb _ _); [discriminate G|]. auto.
    - left. unfold randomise_velocity_adjusts in H. bok H x Hx. destruct x as [u vs]. injection H as <-. simpl in G.
      destruct (sm_mapS_pointwise _ (fun _ => True) _ _ _ _ (fun _ _ _ _ _ _ _ _ => Logic.I) Logic.I Hx) as (_ & _ & K2).
      destruct (K2 _ _ G) as (u1 & u2 & v & _ & _ & Ho & Gv). injection Ho as _ <-. exists v. split; auto. simpl. repeat split; auto.
    - left. apply R0. injection H as <-. unfold set_vehicle_frozen. destruct frozen, (position _ _); auto.
    - left. unfold set_vehicle_destination in H. bok H v0 Hv0. bok H v1 Hv1. injection H as <-. simpl in G.
      rewrite sm_get_set in G. unfold get_vehicle in Hv0. destruct (sm_get (s_vehicles s) v) as [v2|] eqn:G2; [|discriminate Hv0]. injection Hv0 as ->.
      destruct (key_eqb_spec v k); simpl in G; [|auto]. subst v.
      replace (sm_mem (s_vehicles s) k) with true in G by (symmetry; apply sm_mem_get; eauto). injection G as <-. exists v0. split; auto.
      unfold set_destination in Hv1. bok Hv1 pf Hpf. injection Hv1 as <-. cbn. auto 10.
    - left. apply R0. unfold set_link_control in H. bok H x Hx. injection H as <-. auto.
    - left. apply do_lane_change_ok in H. destruct H as (v0 & v1 & links & l0 & pos & off & slope & G0 & _ & _ & _ & Hs' & Es). rewrite Es in G. simpl in G.
      rewrite sm_get_set in G. cbn [moves] in Hm. rewrite Hm in G. auto.
  Qed.
  (** Between the calls of a history in which the vehicle is not moved with [do_lane_change]. *)
  Theorem C59_shown :
    forall ops s k v, history sim_new ops s -> List.Forall (fun o => moves k o = false) ops -> vehicle_at s k = Some v -> shown_on s v.
  Proof.
    intros ops s k v H F. assert (forall v, vehicle_at s k = Some v -> shown_on s v) as K; [|exact (K v)]. clear v.
    assert (forall s0, reachable s0 -> (forall v, vehicle_at s0 k = Some v -> shown_on s0 v) -> history s0 ops s -> forall v, vehicle_at s k = Some v -> shown_on s v) as K.
    { clear H. induction F as [|o ops Ho F IH]; intros s0 R Hs H; inversion H; subst; [exact Hs|]. eapply IH; [eapply reach_call; eauto| |eassumption].
      match goal with E : exec ?e s0 o = Ok ?s1 |- _ => rename E into Ex; rename s1 into sn; rename e into en end. intros v G. pose proof (reachable_Inv _ R) as I. destruct (is_step o) eqn:St.
      - destruct o; try discriminate St. exact (C59_after_step _ _ _ _ _ _ R Ex G).
      - destruct (exec_kept _ _ _ _ _ _ I Ex St Ho G) as [(v0 & G0 & L & P & C & W & _)|(a & lid & v0 & -> & _ & Hu & _)].
        + destruct (Hs _ G0) as (lid & l & Ll & Gl & E). destruct (exec_geo _ _ _ _ _ _ I Ex Gl) as (l' & Gl' & Eg). exists lid, l'. split; [congruence|]. split; [exact Gl'|]. unfold geo in Eg. injection Eg as _ Ec _ _. rewrite W, P, C, Ec. exact E.
        + destruct (update_coords_exact _ _ _ Hu) as (lid' & l & Ll & Gl & E & _). destruct (exec_geo _ _ _ _ _ _ I Ex Gl) as (l' & Gl' & Eg). exists lid', l'. split; [exact Ll|]. split; [exact Gl'|]. unfold geo in Eg. injection Eg as _ Ec _ _. rewrite Ec, E. apply place_shown. }
    intros v G. refine (K sim_new (@reach_new A) _ H v G). intros v0 G0. unfold vehicle_at in G0. cbn [sim_new s_vehicles] in G0. rewrite sm_get_empty in G0. discriminate G0.
  Qed.
End Place.
Print Assumptions C59_after_step.
Print Assumptions C59_shown.

(** ** C44: headings *)
Local Open Scope R_scope.
Lemma direction_exact (pos dir new_pos : @pt RA) (r : R) : unit dir -> 0 < r -> @calc_direction RA pos dir new_pos r = normalize (vsub new_pos (vsub pos (@vscale RA r dir))).
Proof.
  intros U Hr. unfold calc_direction. f_equal. f_equal. set (h := @ndiv RA _ _). assert (h = 0) as ->.
  { unfold h, magnitude2, powi2, dot. cbn [vsub vscale px py]. unR. unfold unit in U. unR.
    replace ((px pos - (px pos - r * px dir)) * (px pos - (px pos - r * px dir)) + (py pos - (py pos - r * py dir)) * (py pos - (py pos - r * py dir)) - r * r) with (r * r * (px dir * px dir + py dir * py dir - 1)) by ring. rewrite U. unfold Rdiv. ring. }
  apply pt_ext; cbn [vadd vsub vscale px py]; unR; ring.
Qed.
Lemma scale_back (x m : R) : m <> 0 -> x = m * (x * (1 / m)).
Proof. intros N. field. exact N. Qed.
Lemma normalize_unit (w : @pt RA) : (px w : R) <> 0 \/ (py w : R) <> 0 -> unit (normalize w) /\ 0 < @magnitude RA w /\ w = @vscale RA (@magnitude RA w) (normalize w).
Proof.
  intros N. assert (@magnitude RA w <> 0) as M by (intros E; apply mag_0 in E; destruct E as (E1 & E2); destruct N as [N|N]; [exact (N E1)|exact (N E2)]).
  pose proof (mag_pos w) as M0. pose proof (mag_sq w) as M2. set (m := @magnitude RA w) in *.
  assert (normalize w = @Pt RA (px w * (1 / m)) (py w * (1 / m))) as -> by (unfold normalize, normalize_to, n1; fold m; cbn [vmul]; unR; reflexivity).
  split; [|split; [lra|]].
  - unfold unit. cbn [px py]. unR. replace (px w * (1 / m) * (px w * (1 / m)) + py w * (1 / m) * (py w * (1 / m))) with ((px w * px w + py w * py w) / (m * m)) by (field; exact M). rewrite <- M2. field. exact M.
  - apply pt_ext; cbn [vscale px py]; unR; exact (scale_back _ _ M).
Qed.
(** The new heading points from the place of the rear axle, [radius] behind the old position, to
    the new position: it is a unit vector, less than a quarter turn from the old heading, and turns
    to the side to which the vehicle moves. *)
Theorem C44_direction :
  forall (pos dir new_pos : @pt RA) (radius : R), unit dir -> 0 < radius -> 0 <= @dot RA (vsub new_pos pos) dir ->
    let d := @calc_direction RA pos dir new_pos radius in
    unit d /\ 0 < @dot RA dir d /\ exists k : R, 0 < k /\ vsub new_pos (vsub pos (@vscale RA radius dir)) = @vscale RA k d /\ k * @perp_dot RA dir d = @perp_dot RA dir (vsub new_pos pos).
Proof.
  intros pos dir np r U Hr Hd d. unfold d. rewrite direction_exact by assumption. set (w := vsub np (vsub pos (@vscale RA r dir))).
  assert (@dot RA dir w = @dot RA (vsub np pos) dir + r) as Hw.
  { unfold w, dot. cbn [vsub vscale px py]. unR. unfold unit in U. transitivity ((px np - px pos) * px dir + (py np - py pos) * py dir + r * (px dir * px dir + py dir * py dir)); [ring|]. rewrite U. ring. }
  assert ((px w : R) <> 0 \/ (py w : R) <> 0) as N. { destruct (Req_dec (px w) 0) as [E1|]; [|auto]. destruct (Req_dec (py w) 0) as [E2|]; [|auto]. exfalso. assert (@dot RA dir w = 0) as Z by (unfold dot; unR; rewrite E1, E2; ring). rewrite Z in Hw. clear - Hw Hd Hr. set (x := @dot RA (vsub np pos) dir) in *. clearbody x. cbn [num RA] in *. lra. }
  destruct (normalize_unit w N) as (Un & Mp & Ew). split; [exact Un|]. set (m := @magnitude RA w) in *. set (n := normalize w) in *.
  assert (m * @dot RA dir n = @dot RA dir w) as Em by (rewrite Ew; unfold dot; cbn [vscale px py]; unR; ring). split.
  - assert (0 < m * @dot RA dir n) by (rewrite Em, Hw; lra). apply (Rmult_lt_reg_l m); [exact Mp|]. lra.
  - exists m. split; [exact Mp|]. split; [exact Ew|]. transitivity (@perp_dot RA dir w); [rewrite Ew; unfold perp_dot; cbn [vscale px py]; unR; ring|]. unfold w, perp_dot. cbn [vsub vscale px py]. unR. ring.
Qed.
Print Assumptions C44_direction.
(** A vehicle that stands keeps its heading. *)
Theorem C44_standing : forall (pos dir : @pt RA) (radius : R), unit dir -> 0 < radius -> @calc_direction RA pos dir pos radius = dir.
Proof.
  intros pos dir r U Hr. rewrite direction_exact by assumption. assert (vsub pos (vsub pos (@vscale RA r dir)) = @vscale RA r dir) as -> by (apply pt_ext; cbn [vsub vscale px py]; unR; ring).
  unfold normalize, normalize_to. rewrite (magnitude_along dir (@vscale RA r dir) r); [|exact U|lra|reflexivity|reflexivity]. apply pt_ext; unfold n1; cbn [vmul vscale px py]; unR; field; lra.
Qed.
Print Assumptions C44_standing.
Lemma unit_not_zero (d : @pt RA) : unit d -> @neqb RA (px d) n0 && @neqb RA (py d) n0 = false.
Proof. unfold unit, n0. unR. intros U. destruct (Req_bool_spec (px d) 0) as [E1|]; [|reflexivity]. destruct (Req_bool_spec (py d) 0) as [E2|]; [|reflexivity]. rewrite E1, E2 in U. lra. Qed.
(** One step of the simulation. *)
Theorem C44_step :
  forall e (s s' : @sim RA) (dt : R) k v v', reachable s -> step e s dt = Ok s' -> vehicle_at s k = Some v -> vehicle_at s' k = Some v' ->
    0 < v_wheel_base v -> unit (v_world_dir v) -> 0 <= @dot RA (vsub (v_world_pos v') (v_world_pos v)) (v_world_dir v) ->
    unit (v_world_dir v') /\ 0 < @dot RA (v_world_dir v) (v_world_dir v') /\ v_wheel_base v' = v_wheel_base v.
Proof.
  intros e s s' dt k v v' R H G G' Hr U Hd. destruct (step_track _ _ _ _ _ _ (reachable_Inv _ R) H G') as (v0 & v1 & s1 & p & lid & l & lid' & l' & G0 & _ & _ & _ & _ & _ & _ & _ & _ & _ & _ & Wd & Ww).
  unfold vehicle_at in G. assert (v0 = v) by congruence. subst v0. unfold turned in Wd. rewrite (unit_not_zero _ U), Ww in Wd.
  destruct (C44_direction (v_world_pos v) (v_world_dir v) (v_world_pos v') (v_wheel_base v) U Hr Hd) as (K1 & K2 & _). rewrite Wd. auto.
Qed.
Print Assumptions C44_step.
(** A new vehicle looks along its link. *)
Theorem C44_new :
  forall e (s s' : @sim RA) a lid k v l, reachable s -> exec e s (OAddVehicle a lid) = Ok s' -> vehicle_at s k = None -> vehicle_at s' k = Some v ->
    link_at s lid = Some l -> 0 < a_wheel_base a -> unit (sm_tan (sample_centre (lk_curve l) 0)) ->
    v_world_dir v = sm_tan (sample_centre (lk_curve l) 0) /\ v_world_pos v = sm_pos (sample_centre (lk_curve l) 0).
Proof.
  intros e s s' a lid k v l R H N G Gl Hr U. destruct (exec_kept _ _ _ _ _ _ (reachable_Inv _ R) H eq_refl eq_refl G) as [(v0 & G0 & _)|(a' & lid' & v0 & Ea & _ & Hu & Z & L & P & C & Wb)]; [unfold vehicle_at in N; congruence|].
  injection Ea as <- <-. destruct (update_coords_exact _ _ _ Hu) as (lid' & l' & L' & G' & Wp & Wd & Ww). pose proof (update_coords_ok _ _ _ Hu) as (_ & _ & Pc & Rc & _ & _ & Cc).
  assert (lid' = lid) by (unfold v_link in L, L'; rewrite Rc in L'; congruence). subst lid'. unfold link_at in Gl. assert (l' = l) by congruence. subst l'.
  assert (v_pos v = 0) as P0 by (rewrite Pc, P; reflexivity). assert (v_lane_change v = None) as C0 by congruence.
  assert (v_world_pos v = sm_pos (sample_centre (lk_curve l) 0)) as Wp0 by (rewrite Wp; unfold place; rewrite C0, P0; reflexivity). split; [|exact Wp0].
  unfold turned in Wd. rewrite Z in Wd. cbn [vzero px py] in Wd. replace (@neqb RA n0 n0) with true in Wd by (symmetry; unfold n0; unR; destruct (Req_bool_spec 0 0); [reflexivity|lra]). cbn [andb] in Wd.
  rewrite Wd, P0, Wp0. set (tn := sm_tan (sample_centre (lk_curve l) 0)) in *. assert (0 < v_wheel_base v) as Hw by (rewrite Ww, Wb; exact Hr). rewrite direction_exact by assumption. set (r := v_wheel_base v) in *. set (q := sm_pos _).
  assert (vsub q (vsub (vsub q tn) (@vscale RA r tn)) = @vscale RA (1 + r) tn) as -> by (apply pt_ext; cbn [vsub vscale px py]; unR; ring).
  unfold normalize, normalize_to. rewrite (magnitude_along tn (@vscale RA (1 + r)%R tn) (1 + r)); [|exact U|lra|reflexivity|reflexivity]. apply pt_ext; unfold n1; cbn [vmul vscale px py]; unR; field; lra.
Qed.
Print Assumptions C44_new.

(** With a wheel base of 0 the heading becomes NaN in f64, already when the vehicle is added. *)
Definition no_base_car : @attrs F64 := Attrs (fz 2) (fz 4) (fz 0) (fz 2) (fz 2) (fz 2).
Definition no_base_ops : list (@op F64) := [OAddLink (ex_line 0 0 20 0) (fz 15); OAddVehicle no_base_car (nth_id 0)].
Lemma no_base_nan : okb (run ex_env sim_new no_base_ops) (fun s => match sm_get (s_vehicles s) (nth_id 0) with Some v => nnan (px (v_world_dir v)) && nnan (py (v_world_dir v)) && negb (nnan (px (v_world_pos v))) | None => false end) = true.
Proof. vm_compute. reflexivity. Qed.
Theorem C44_no_wheel_base_refuted :
  exists s v, history sim_new no_base_ops s /\ vehicle_at s (nth_id 0) = Some v /\ @nnan F64 (px (v_world_dir v)) = true /\ @nnan F64 (py (v_world_dir v)) = true.
Proof.
  destruct (okb_ok _ _ no_base_nan) as (s & H & F). destruct (sm_get (s_vehicles s) (nth_id 0)) as [v|] eqn:G; [|discriminate F]. apply andb_true_iff in F. destruct F as (F & _). apply andb_true_iff in F.
  exists s, v. split; [eapply run_history; exact H|]. split; [exact G|exact F].
Qed.
Print Assumptions C44_no_wheel_base_refuted.

(** ** C36: lane changes *)
(** A curve that runs straight from [a] in the direction [u]. *)
Definition straight (lc : @link_curve RA) (a u : @pt RA) : Prop :=
  forall pos : R, qb_sample (fst (lc_seg lc pos)) (snd (lc_seg lc pos)) = on_line a u pos /\ qb_dt (fst (lc_seg lc pos)) (snd (lc_seg lc pos)) = u /\ qb_dt2 (fst (lc_seg lc pos)) (snd (lc_seg lc pos)) = @Pt RA 0 0.
Lemma newton_straight (c : @curve RA) a u point (err t : R) n : unit u -> (forall t : R, c_sample c t = on_line a u t) -> (forall t : R, c_dt c t = u) -> 0 < err ->
  @newton RA c point err (S (S n)) t = Some (@dot RA (vsub point a) u).
Proof.
  intros U Sc D He. assert (forall t : R, @dot RA u (vsub point (on_line a u t)) / 1 = @dot RA (vsub point a) u - t) as E.
  { intros x. unfold dot, on_line. cbn [vsub px py]. unR. unfold unit in U. transitivity ((px point - px a) * px u + (py point - py a) * py u - x * (px u * px u + py u * py u)); [field|]. rewrite U. ring. }
  assert (@magnitude RA u = 1) as Mu by (apply (magnitude_along u u 1); [exact U|lra|lra|lra]).
  assert (forall t : R, @ndiv RA (@dot RA (c_dt c t) (vsub point (c_sample c t))) (magnitude (c_dt c t)) = @dot RA (vsub point a) u - t) as E1 by (intros x; rewrite Sc, D, Mu; exact (E x)).
  set (n1 := S n). cbn [newton]. rewrite E1. set (p := @dot RA (vsub point a) u). assert (@nadd RA t (p - t)%R = p) as Ea by (unR; ring). rewrite Ea. destruct (_ || _); [reflexivity|]. unfold n1. cbn [newton]. rewrite E1. fold p.
  assert (@nadd RA p (p - p)%R = p) as -> by (unR; ring). match goal with |- context [@nltb ?A ?x ?y] => replace (@nltb A x y) with true end; [reflexivity|]. symmetry. apply ltb_R. unR. rewrite Rminus_diag_eq by reflexivity. rewrite Rabs_R0. exact He.
Qed.
(** On a straight link the place beside a point is found exactly. *)
Theorem C36_straight :
  forall (lc : @link_curve RA) a u point (dir : @pt RA), unit u -> straight lc a u ->
    exists slope, inverse_sample lc point dir = Ok (Some (@dot RA (vsub point a) u, @dot RA (vsub point a) (rot90 u), slope)) /\
      sm_pos (lc_sample lc (@dot RA (vsub point a) u) (@dot RA (vsub point a) (rot90 u))) = point /\
      (@dot RA u dir <> 0 -> exists k : R, @vadd RA u (vscale slope (rot90 u)) = @vscale RA k dir).
Proof.
  intros lc a u point dir U Sc. assert (forall t : R, c_sample (lc_curve lc) t = on_line a u t) as S1 by (intros t; cbn [lc_curve c_sample]; specialize (Sc t); destruct (lc_seg lc t); apply Sc).
  assert (forall t : R, c_dt (lc_curve lc) t = u) as S2 by (intros t; cbn [lc_curve c_dt]; specialize (Sc t); destruct (lc_seg lc t); apply Sc).
  unfold inverse_sample, project_point_onto_curve. assert (exists t, initial_guess (lc_curve lc) point = Ok t) as (t & ->).
  { unfold initial_guess. assert (forall l b, exists x, @min_by_snd RA (@num RA) b l = Ok x) as K by (induction l as [|y l IH]; intros b; cbn [min_by_snd]; [eauto|]; unR; cbn [orb]; destruct (Rlt_bool _ _); apply IH). match goal with |- context [min_by_snd ?b ?l] => destruct (K l b) as (x & ->) end. cbn [bind]. eauto. }
  cbn [bind]. rewrite (newton_straight _ a u) by (auto; unfold lit; unR; lra). set (p := @dot RA (vsub point a) u). pose proof (Sc p) as (Sp1 & Sp2 & Sp3). unfold lc_sample. destruct (lc_seg lc p) as (sg & t1). cbn [fst snd] in Sp1, Sp2, Sp3. rewrite Sp1, Sp2, Sp3.
  assert (@magnitude RA u = 1) as Mu by (apply (magnitude_along u u 1); [exact U|lra|lra|lra]).
  unfold normalize_with_derivative, normalize, normalize_to, n1. rewrite Mu. cbn zeta.
  assert (@vdiv RA u 1%R = u) as -> by (apply pt_ext; cbn [vdiv px py]; unR; field). assert (@vmul RA u (@ndiv RA (@nofZ RA 1) 1%R) = u) as -> by (apply pt_ext; cbn [vmul px py]; unR; field).
  assert (forall x : R, @dot RA (vsub point (on_line a u p)) (rot90 u) = @dot RA (vsub point a) (rot90 u)) as E. { intros _. unfold dot, on_line, rot90. cbn [vsub px py]. unR. ring. }
  eexists. split; [rewrite (E 0); reflexivity|]. split.
  - cbn [sm_pos]. unfold p. unfold dot, on_line, rot90, unit in *. apply pt_ext; cbn [vadd vmul vsub px py]; unR.
    + transitivity (px a + (px point - px a) * (px u * px u + py u * py u)); [ring|]. rewrite U. ring.
    + transitivity (py a + (py point - py a) * (px u * px u + py u * py u)); [ring|]. rewrite U. ring.
  - intros Hd. unfold unit in U. exists (/ @dot RA u dir). unfold dot, rot90, perp_dot in *. cbn [vadd vsub vscale vmul vdiv px py] in *. unR.
    assert (- py u * py dir - px u * px dir <> 0) as Hd' by lra.
    apply pt_ext; cbn [vadd vsub vscale vmul vdiv px py]; unR.
    + apply (Rmult_eq_reg_r (px u * px dir + py u * py dir)); [|exact Hd]. transitivity (px dir * (px u * px u + py u * py u)); [field; exact Hd'|]. rewrite U. field. exact Hd.
    + apply (Rmult_eq_reg_r (px u * px dir + py u * py dir)); [|exact Hd]. transitivity (py dir * (px u * px u + py u * py u)); [field; exact Hd'|]. rewrite U. field. exact Hd.
Qed.
Print Assumptions C36_straight.

Lemma plus_mult_0 (a b : R) : a + b * 0 = a.
Proof. ring. Qed.
(** The sideways offset of a vehicle as a function of the distance along its route. *)
Definition offset_function (v : @vehicle RA) : R -> R := offset_at v.
(** A lane change that leads from the offset [off] and slope [slope] at [pos] to the centre line at
    [pos + dist], without a corner at either end. *)
Definition leads_in (f : R -> R) (pos off slope dist : R) : Prop :=
  f pos = off /\ derivable_pt_lim f pos slope /\ (forall x, pos + dist <= x -> f x = 0) /\ derivable_pt_lim f (pos + dist) 0.
Lemma leads_in_fit (v : @vehicle RA) (pos off slope dist : R) : 0 < dist ->
  v_lane_change v = Some (@LaneChg RA (pos + dist) (@cubic_fit RA pos off slope (pos + dist) 0 0)) -> leads_in (offset_function v) pos off slope dist.
Proof.
  intros Hd E. destruct (C35_fit pos off slope (pos + dist) 0 0) as (F1 & F2 & F3 & F4); [lra|]. set (g := @cubic_fit RA pos off slope (pos + dist) 0 0) in *.
  assert (forall x, x < pos + dist -> offset_function v x = cubic_y g x) as Below.
  { intros x Hx. unfold offset_function, offset_at, lc_filter. rewrite E. cbn [lch_end lch_offset]. match goal with |- context [@nltb ?A ?x ?y] => replace (@nltb A x y) with true by (symmetry; apply ltb_R; exact Hx) end. reflexivity. }
  assert (forall x, pos + dist <= x -> offset_function v x = 0) as Above.
  { intros x Hx. unfold offset_function, offset_at, lc_filter. rewrite E. cbn [lch_end lch_offset]. match goal with |- context [@nltb ?A ?x ?y] => replace (@nltb A x y) with false by (symmetry; apply ltb_R_false; exact Hx) end. reflexivity. }
  split; [rewrite Below by lra; exact F1|]. split; [|split; [exact Above|]].
  - intros eps He. destruct (F3 eps He) as ((d & Dp) & Hdl). cbn [RIneq.pos] in Hdl. assert (0 < Rmin d (dist / 2)) as Dp' by (apply Rmin_pos; lra). exists (mkposreal _ Dp'). cbn [RIneq.pos]. intros h Hh0 Hh.
    pose proof (Rmin_l d (dist / 2)) as M1. pose proof (Rmin_r d (dist / 2)) as M2. assert (Rabs h < dist / 2) as Hh2 by (eapply Rlt_le_trans; [exact Hh|exact M2]). apply Rabs_def2 in Hh2. rewrite !Below by lra. apply Hdl; [exact Hh0|]. eapply Rlt_le_trans; [exact Hh|exact M1].
  - intros eps He. destruct (F4 eps He) as (d & Hdl). exists d. intros h Hh0 Hh. specialize (Hdl h Hh0 Hh). rewrite (Above (pos + dist)) by lra. destruct (Rlt_le_dec h 0) as [Hn|Hn].
    + rewrite Below by lra. change (@n0 RA) with 0 in *. rewrite F2 in Hdl. exact Hdl.
    + rewrite Above by lra. replace ((0 - 0) / h - 0) with 0 by (field; exact Hh0). rewrite Rabs_R0. exact He.
Qed.

(** ** The start of a lane change *)
Lemma inverse_ok {A : Arith} (lc : link_curve) (point dir : pt) (pos off slope : num) : inverse_sample lc point dir = Ok (Some (pos, off, slope)) ->
  let sg := fst (lc_seg lc pos) in let t := snd (lc_seg lc pos) in let tt := normalize_with_derivative (qb_dt sg t) (qb_dt2 sg t) in
  off = dot (vsub point (qb_sample sg t)) (rot90 (fst tt)) /\ slope = ndiv (nneg (perp_dot (vadd (qb_dt sg t) (vmul (rot90 (snd tt)) off)) dir)) (perp_dot (rot90 (fst tt)) dir).
Proof.
  intros H. unfold inverse_sample in H. bok H o Ho. destruct o as [p|]; [|discriminate H]. destruct (lc_seg lc p) as (sg & t) eqn:Es. destruct (normalize_with_derivative (qb_dt sg t) (qb_dt2 sg t)) as (tn & tdp) eqn:En.
  injection H as <- <- <-. rewrite Es. cbn [fst snd]. rewrite En. cbn [fst snd]. split; reflexivity.
Qed.
Theorem C36_call :
  forall e (s s' : @sim RA) id lid (dist : R), reachable s -> exec e s (@OLaneChange RA id lid dist) = Ok s' -> 0 < dist ->
    exists v v' l (pos off slope : R), vehicle_at s id = Some v /\ vehicle_at s' id = Some v' /\ link_at s lid = Some l /\ v_link v' = Some lid /\
      inverse_sample (lk_curve l) (v_world_pos v) (v_world_dir v) = Ok (Some (pos, off, slope)) /\ v_pos v' = pos /\ leads_in (offset_function v') pos off slope dist.
Proof.
  intros e s s' id lid dist R H Hd. cbn [exec] in H. destruct (do_lane_change_track _ _ _ _ _ _ H) as (_ & v & v' & G & Es & _ & (lid' & l & pos & off & slope & L1 & Gl & Hi & P & C) & L). rewrite L in L1. injection L1 as <-.
  exists v, v', l, pos, off, slope. split; [exact G|]. split; [unfold vehicle_at; rewrite Es, sm_get_set, key_eqb_refl; cbn [andb]; replace (sm_mem (s_vehicles s) id) with true by (symmetry; apply sm_mem_get; eauto); reflexivity|].
  split; [exact Gl|]. split; [exact L|]. split; [exact Hi|]. split; [exact P|]. apply leads_in_fit; [exact Hd|exact C].
Qed.
Print Assumptions C36_call.
(** The place found for the vehicle on the other link is its place in the world, if that is
    straight beside the point of the link that was found (the search stops within 1 mm of it). *)
Theorem C36_no_jump :
  forall (lc : @link_curve RA) point dir (pos off slope : R), inverse_sample lc point dir = Ok (Some (pos, off, slope)) ->
    let c := sample_centre lc pos in
    unit (sm_tan c) -> @dot RA (vsub point (sm_pos c)) (sm_tan c) = 0 -> sm_pos (lc_sample lc pos off) = point.
Proof.
  intros lc point dir pos off slope H c U E. destruct (inverse_ok _ _ _ _ _ _ H) as (Hoff & _). clear H. unfold c, lc_sample, sample_centre in *. destruct (lc_seg lc pos) as (sg & t). cbn [sm_pos sm_tan fst snd] in *. set (q := qb_sample sg t) in *. set (d := qb_dt sg t) in *.
  change (fst (normalize_with_derivative d (qb_dt2 sg t))) with (@vdiv RA d (magnitude d)) in Hoff. clearbody q d. clear c.
  assert (@magnitude RA d <> 0) as M. { intros M. apply mag_0 in M. destruct M as (M1 & M2). unfold unit, normalize, normalize_to in U. cbn [vmul px py] in U. unR. rewrite M1, M2 in U. lra. }
  assert (@vdiv RA d (magnitude d) = normalize d) as En by (unfold normalize, normalize_to, n1; apply pt_ext; cbn [vdiv vmul px py]; unR; field; exact M).
  rewrite En in Hoff. set (u := normalize d) in *. clearbody u. subst off. unfold unit, dot, rot90 in *. cbn [vsub vadd vmul px py] in *. unR. apply pt_ext; cbn [vsub vadd vmul px py]; unR.
  - transitivity (px q + (px point - px q) * (px u * px u + py u * py u) - ((px point - px q) * px u + (py point - py q) * py u) * px u); [ring|]. rewrite U, E. ring.
  - transitivity (py q + (py point - py q) * (px u * px u + py u * py u) - ((px point - px q) * px u + (py point - py q) * py u) * py u); [ring|]. rewrite U, E. ring.
Qed.
Print Assumptions C36_no_jump.
(** The path along the link whose offset starts with the given slope starts in the vehicle's
    direction. *)
Theorem C36_no_corner :
  forall (lc : @link_curve RA) point dir (pos off slope : R), inverse_sample lc point dir = Ok (Some (pos, off, slope)) ->
    let (sg, t) := lc_seg lc pos in
    @magnitude RA (qb_dt sg t) <> 0 -> @perp_dot RA (rot90 (normalize (qb_dt sg t))) dir <> 0 ->
    forall f : R -> R, f t = off -> derivable_pt_lim f t slope ->
    exists w, vderive (fun x => vadd (qb_sample sg x) (@vmul RA (rot90 (normalize (qb_dt sg x))) (f x))) t w /\ @perp_dot RA w dir = 0.
Proof.
  intros lc point dir pos off slope H. destruct (inverse_ok _ _ _ _ _ _ H) as (_ & Hs). clear H. destruct (lc_seg lc pos) as (sg & t). cbn [fst snd] in Hs. intros M N f Ff Df. destruct (normalize_with_derivative (qb_dt sg t) (qb_dt2 sg t)) as (tn & tdp) eqn:En. cbn [fst snd] in Hs.
  destruct (C37_quadratic sg) as (_ & _ & D). destruct (D t) as ((Dx & Dy) & D2). destruct (C43_normalize (qb_dt sg) t (qb_dt2 sg t) D2 M) as (_ & E1 & (Nx & Ny)). rewrite En in *. cbn [fst snd] in *. subst tn.
  set (u := normalize (qb_dt sg t)) in *. set (c1 := qb_dt sg t) in *.
  exists (@Pt RA (px c1 + (- py tdp * off + - py u * slope))%R (py c1 + (px tdp * off + px u * slope))%R). split.
  - split; cbn [px py vadd vmul rot90].
    + apply (derivable_pt_lim_plus (fun x => px (qb_sample sg x))); [exact Dx|]. rewrite <- Ff. apply (derivable_pt_lim_mult (fun x => - py (normalize (qb_dt sg x)))); [apply derivable_pt_lim_opp; exact Ny|exact Df].
    + apply (derivable_pt_lim_plus (fun x => py (qb_sample sg x))); [exact Dy|]. rewrite <- Ff. apply (derivable_pt_lim_mult (fun x => px (normalize (qb_dt sg x)))); [exact Nx|exact Df].
  - clear - Hs N. clearbody c1 u. unfold perp_dot, rot90 in *. cbn [px py vadd vmul] in *. unR. rewrite Hs. field. exact N.
Qed.
Print Assumptions C36_no_corner.

(** ** A lane change during a step *)
(** The offset function before the motion: the one of the vehicle, or that of a new lane change. *)
Definition on_course (links : @linkset RA) (v : @vehicle RA) (f : R -> R) (start : R) : Prop :=
  (f = offset_function v /\ start = v_pos v) \/
  exists lid l (off slope : R), sm_get links lid = Some l /\ inverse_sample (lk_curve l) (v_world_pos v) (v_world_dir v) = Ok (Some (start, off, slope)) /\ leads_in f start off slope 30.
Theorem C36_step :
  forall e (s s' : @sim RA) (dt : R) k v v', reachable s -> step e s dt = Ok s' -> vehicle_at s k = Some v -> vehicle_at s' k = Some v' ->
    exists (f : R -> R) (start shift : R) lid' l', on_course (s_links s) v f start /\
      (shift = 0 \/ exists lid l, link_at s lid = Some l /\ shift = lk_length l) /\
      v_pos v' + shift = start + / 2 * (v_vel v + v_vel v') * dt /\
      (forall x, v_pos v' <= x -> offset_function v' x = f (x + shift)) /\
      v_link v' = Some lid' /\ link_at s lid' = Some l' /\ v_world_pos v' = sm_pos (lc_sample (lk_curve l') (v_pos v') (offset_function v' (v_pos v'))).
Proof.
  intros e s s' dt k v v' Re H G G'. destruct (step_track _ _ _ _ _ _ (reachable_Inv _ Re) H G') as (v0 & v1 & s1 & p & lid & l & lid' & l' & G0 & _ & _ & (W & Kl) & Ep & L1 & Gl & Kept & L' & Gl' & Wp & _).
  unfold vehicle_at in G. assert (v0 = v) by congruence. subst v0.
  assert (on_course (s_links s) v (offset_function v1) (v_pos v1)) as Oc.
  { destruct Kl as [(_ & Pv & Cv)|(lid1 & l1 & pos & off & slope & B1 & B2 & B3 & B4 & B5)].
    - left. split; [|exact Pv]. unfold offset_function, offset_at. rewrite Cv. reflexivity.
    - right. exists lid1, l1, off, slope. split; [exact B2|]. rewrite B4. split; [exact B3|]. apply leads_in_fit; [lra|]. exact B5. }
  assert (forall c (x : R), lc_filter c p = None -> p <= x -> lc_filter c x = None) as Late.
  { intros c x Hn Hx. unfold lc_filter in *. destruct c as [c|]; [|reflexivity]. match type of Hn with (if ?b then _ else _) = _ => destruct b eqn:E; [discriminate Hn|] end. apply ltb_R_false in E. match goal with |- context [@nltb ?A ?x ?y] => replace (@nltb A x y) with false; [reflexivity|] end. symmetry. apply ltb_R_false. eapply Rle_trans; eassumption. }
  assert (forall c, lc_filter c p = c \/ lc_filter c p = None) as Two by (intros c; unfold lc_filter; destruct c as [c|]; [destruct (nltb p (lch_end c)); auto|auto]).
  assert (exists shift : R, (shift = 0 \/ exists lid l, link_at s lid = Some l /\ shift = lk_length l) /\ v_pos v' + shift = p /\ forall x, v_pos v' <= x -> offset_function v' x = offset_function v1 (x + shift)) as (shift & Hs & Hp' & Hf).
  { destruct Kept as [(_ & _ & Pp & Cc)|(_ & Pp & Cc)].
    - exists 0. split; [auto|]. split; [rewrite Pp; lra|]. intros x Hx. rewrite Rplus_0_r. unfold offset_function, offset_at. rewrite Cc. destruct (Two (v_lane_change v1)) as [E|E]; [rewrite E; reflexivity|]. rewrite E. rewrite (Late _ x E); [reflexivity|]. rewrite <- Pp. exact Hx.
    - exists (lk_length l). unR. split; [right; exists lid, l; auto|]. split; [rewrite Pp; lra|]. intros x Hx. unfold offset_function, offset_at. rewrite Cc. destruct (Two (v_lane_change v1)) as [E|E].
      + rewrite E. destruct (v_lane_change v1) as [c|]; [|reflexivity]. cbn [lc_advance option_map lc_filter lch_end lch_offset].
        replace (@nltb RA x (@nsub RA (lch_end c) (lk_length l))) with (@nltb RA (x + lk_length l)%R (lch_end c)).
        * destruct (nltb _ _); [|reflexivity]. cbn [lch_offset]. apply C35_translate.
        * destruct (@nltb RA (x + lk_length l)%R (lch_end c)) eqn:E1; symmetry; [apply ltb_R in E1; apply ltb_R|apply ltb_R_false in E1; apply ltb_R_false]; unR; lra.
      + rewrite E. cbn [lc_advance option_map lc_filter]. rewrite (Late _ (x + lk_length l) E); [reflexivity|]. rewrite Pp in Hx. lra. }
  exists (offset_function v1), (v_pos v1), shift, lid', l'. split; [exact Oc|]. split; [exact Hs|]. split; [rewrite Hp', Ep, half_R; unR; lra|]. split; [exact Hf|]. split; [exact L'|]. split; [exact Gl'|].
  rewrite Wp. unfold place. destruct (v_lane_change v') as [c|] eqn:Ec.
  - assert (lc_filter (Some c) (v_pos v') = Some c) as Ef.
    { destruct Kept as [(_ & _ & Pp & Cc)|(_ & Pp & Cc)]; rewrite Ec in Cc.
      - rewrite Cc, Pp. destruct (Two (v_lane_change v1)) as [E|E]; rewrite E; [rewrite E; reflexivity|reflexivity].
      - destruct (lc_filter (v_lane_change v1) p) as [c1|] eqn:E1; [|discriminate Cc]. cbn [lc_advance option_map] in Cc. injection Cc as ->. cbn [lc_filter lch_end].
        unfold lc_filter in E1. destruct (v_lane_change v1) as [c0|]; [|discriminate E1]. destruct (nltb p (lch_end c0)) eqn:E2; [|discriminate E1]. injection E1 as <-. apply ltb_R in E2.
        match goal with |- context [@nltb ?A ?x ?y] => replace (@nltb A x y) with true; [reflexivity|] end. symmetry. apply ltb_R. rewrite Pp. unR. lra. }
    unfold offset_function, offset_at. rewrite Ec, Ef. unfold lc_sample, sample_centre, lat_offset. destruct (lc_seg _ _). reflexivity.
  - unfold offset_function, offset_at. rewrite Ec. cbn [lc_filter]. unfold lc_sample, sample_centre. destruct (lc_seg _ _). cbn [sm_pos]. apply pt_ext; unfold n0; cbn [vadd vmul px py]; unR; match goal with |- _ = ?a + ?b * 0 => symmetry; exact (plus_mult_0 a b) end.
Qed.
Print Assumptions C36_step.

(** ** A concrete case *)
(** Two lanes of 10 m, 3 m apart, and a car that is moved from the first to the second within 5 m. *)
Definition left_id : key := Key 2 1.
Definition left_line : @curve RA := @ls_curve RA (@LineSeg RA (@Pt RA 0 3) (@Pt RA 1 0) 10).
Definition lanes_ops : list (@op RA) := [OAddLink ring_line 10; OAddLink left_line 10; OAddVehicle ra_car ring_id].
Lemma lanes_ok : exists ld0, straight ld0 (@Pt RA 0 3) (@Pt RA 1 0) /\ exists s s' v v' l1 l2, run ra_env (@sim_new RA) lanes_ops = Ok s /\ vehicle_at s ring_id = Some v /\ v_world_pos v = @Pt RA 0 0 /\ v_world_dir v = @Pt RA 1 0 /\ v_wheel_base v = 3 /\
  exec ra_env s (@OLaneChange RA ring_id left_id 5) = Ok s' /\ vehicle_at s' ring_id = Some v' /\ v_link v' = Some left_id /\ v_pos v' = 0 /\ offset_function v' 0 = -3 /\
  link_at s' ring_id = Some l1 /\ link_at s' left_id = Some l2 /\ 9 < lk_length l2 /\ lk_curve l2 = ld0 /\
  exists s2 v2, exec ra_env s' (@OStep RA (1 / 10)) = Ok s2 /\ vehicle_at s2 ring_id = Some v2 /\ v_link v2 = Some left_id /\ v_pos v2 = 1 / 100.
Proof.
  assert (unit (@Pt RA 1 0)) as U by (unfold unit; cbn; lra).
  assert (2 * 10 < INR 200) as F by (rewrite INR_IZR_INZ; cbn -[IZR]; apply Rlt_trans with 21; [lra|]; apply IZR_lt; reflexivity).
  destruct (line_curve (@Pt RA 0 0) (@Pt RA 1 0) 10 U 200) as (lc & Hlc & H1 & H2 & H3 & H4); [lra|exact F|].
  destruct (line_curve (@Pt RA 0 3) (@Pt RA 1 0) 10 U 200) as (ld & Hld & J1 & J2 & J3 & J4); [lra|exact F|].
  destruct (C36_straight ld (@Pt RA 0 3) (@Pt RA 1 0) (@Pt RA 0 0) (@Pt RA 1 0) U J4) as (slope & Hi & _).

  assert (on_line (@Pt RA 0 0) (@Pt RA 1 0) 0 = @Pt RA 0 0) as E0 by (apply pt_ext; cbn [on_line px py]; lra).
  assert (@calc_direction RA (vsub (@Pt RA 0 0) (@Pt RA 1 0)) (@Pt RA 1 0) (@Pt RA 0 0) 3 = @Pt RA 1 0) as Ed.
  { rewrite direction_exact by (auto; lra). unfold normalize, normalize_to. rewrite (magnitude_along (@Pt RA 1 0) _ 4); [|exact U|lra| |]; try (cbn [vsub vscale px py]; unR; lra). apply pt_ext; unfold n1; cbn [vmul vsub vscale px py]; unR; field. }
    exists ld. split; [exact J4|]. cbn [run lanes_ops exec]. unfold add_link. cbn [e_fuel ra_env]. unfold link_new at 1 2. unfold ring_line, left_line. rewrite Hlc, Hld. cbn [bind fst].
    unfold upd_link, get_link. cbn -[link_cost sample_centre add_vehicle do_lane_change step].
    unfold add_vehicle, set_location, set_origin. cbn -[link_cost sample_centre update_coords insert_vehicle do_lane_change step].
    unfold update_coords. cbn -[link_cost sample_centre vsub rot90 calc_direction vadd long_offset nmin nmax dot insert_vehicle do_lane_change step].
    unfold insert_vehicle. cbn -[link_cost sample_centre vsub rot90 calc_direction vadd long_offset nmin nmax dot do_lane_change step].
    rewrite H3. cbn [sm_pos sm_tan]. rewrite E0. replace (Raux.Req_bool 0 0) with true by (symmetry; apply Raux.Req_bool_true; reflexivity). cbn [andb]. rewrite Ed.
    eexists _, _, _, _, _, _. split; [reflexivity|]. cbn -[link_cost sample_centre vsub rot90 calc_direction vadd long_offset nmin nmax dot do_lane_change step].
    split; [reflexivity|]. split; [reflexivity|]. split; [reflexivity|]. split; [reflexivity|].
    split.
    { unfold do_lane_change, get_vehicle, upd_link, get_link, set_location, set_origin. cbn -[link_cost inverse_sample vsub rot90 calc_direction vadd long_offset nmin nmax dot insert_vehicle cubic_fit step]. rewrite Hi.
      cbn -[link_cost inverse_sample vsub rot90 calc_direction vadd long_offset nmin nmax dot insert_vehicle cubic_fit step]. unfold insert_vehicle. cbn -[link_cost inverse_sample vsub rot90 calc_direction vadd long_offset nmin nmax dot cubic_fit step]. reflexivity. }
    cbn -[link_cost inverse_sample vsub rot90 calc_direction vadd long_offset nmin nmax dot cubic_fit offset_function step].
    split; [reflexivity|]. split; [reflexivity|]. 
    split; [cbn [v_pos]; unfold dot; cbn [vsub px py]; unR; lra|]. split.
    { unfold offset_function, offset_at. cbn [v_lane_change]. unfold lc_filter. cbn [lch_end lch_offset].
      assert (@dot RA (vsub (@Pt RA 0 0) (@Pt RA 0 3)) (@Pt RA 1 0) = 0) as -> by (unfold dot; cbn [vsub px py]; unR; lra).
      assert (@dot RA (vsub (@Pt RA 0 0) (@Pt RA 0 3)) (rot90 (@Pt RA 1 0)) = -3) as -> by (unfold dot, rot90; cbn [vsub px py]; unR; lra).
      match goal with |- context [@nltb ?A ?x ?y] => replace (@nltb A x y) with true end; [|symmetry; apply ltb_R; unR; lra]. cbn [lch_offset]. 
      assert (0 + 5 = 5) as E5 by lra. unR. rewrite E5. apply (C35_fit 0 (-3) slope 5 0 0). lra. }
    split; [reflexivity|]. split; [reflexivity|]. split; [unfold lk_length; cbn [lk_curve set_vehicles]; lra|]. split; [reflexivity|].
    unfold step, calculate_lane_changes, sim_apply_accelerations. match goal with |- context [@nltb ?A ?x ?y] => replace (@nltb A x y) with true end; [|symmetry; apply ltb_R; cbn [s_lc_update with_links with_vehicles sim_new]; unfold LANE_CHANGE_UPDATE_SEC, n0, lit; unR; lra]. cbn [bind].
    match goal with |- context [@nltb ?A ?x ?y] => replace (@nltb A x y) with true end; [|symmetry; apply ltb_R; cbn [s_acc_update with_links with_vehicles sim_new]; unfold ACCELERATION_UPDATE_SEC, n0, lit; unR; lra]. cbn [bind s_acc_update].
    unfold update_lights. cbn -[link_cost inverse_sample vsub rot90 calc_direction vadd long_offset nmin nmax dot cubic_fit sim_integrate advance_vehicles update_vehicle_coords].
    unfold sim_integrate. cbn -[link_cost inverse_sample vsub rot90 calc_direction vadd long_offset nmin nmax dot cubic_fit new_vel new_pos lc_filter advance_vehicles update_vehicle_coords].
    match goal with |- context [new_pos ?v ?d] => assert (new_pos v d = 1 / 100) as Ep end. { unfold new_pos, new_vel. cbn -[nmax]. rewrite max_R. unR. assert (@am_get RA (@accel_new RA 2 2 2) = 2) as -> by (unfold am_get, accel_new, MAX_DECEL; cbn [am_acc]; rewrite max_R; unR; apply Rmax_left; lra). rewrite Rmax_left by lra. field. }
    rewrite Ep.
    unfold advance_vehicles, sm_mapS. cbn [s_vehicles sm_slots slots_mapS]. unfold advance_one, advance. cbn -[link_cost inverse_sample vsub rot90 calc_direction vadd long_offset nmin nmax dot cubic_fit new_vel new_pos lc_filter update_vehicle_coords].

    match goal with |- context [Raux.Rlt_bool ?x (1 / 100)] => replace (Raux.Rlt_bool x (1 / 100)) with false end; [|symmetry; apply Raux.Rlt_bool_false; unfold lk_length; cbn [lk_curve set_vehicles]; lra].
    cbn -[link_cost inverse_sample vsub rot90 calc_direction vadd long_offset nmin nmax dot cubic_fit new_vel new_pos lc_filter update_vehicle_coords].
    unfold update_vehicle_coords, update_coords. cbn -[link_cost inverse_sample vsub rot90 calc_direction vadd long_offset nmin nmax dot cubic_fit new_vel new_pos lc_filter sample_centre lat_offset cubic_y].
    match goal with |- context [lc_filter ?a ?b] => destruct (lc_filter a b) as [c|] end; cbn -[link_cost inverse_sample vsub rot90 calc_direction vadd long_offset nmin nmax dot cubic_fit new_vel new_pos lc_filter sample_centre lat_offset cubic_y].
    all: eexists _, _; split; [reflexivity|]; split; [reflexivity|]; split; reflexivity.
Qed.

(** The hypotheses of C36_call, C36_no_jump, C36_step and C44_step hold in it: the car is moved to a
    lane 3 m away, keeps its place in the world, and starts to cross over in the next step. *)
Example C36_example :
  exists s s' s2 v v' v2 l2, history sim_new lanes_ops s /\ exec ra_env s (@OLaneChange RA ring_id left_id 5) = Ok s' /\ step ra_env s' (1 / 10) = Ok s2 /\
    vehicle_at s ring_id = Some v /\ vehicle_at s' ring_id = Some v' /\ vehicle_at s2 ring_id = Some v2 /\ link_at s' left_id = Some l2 /\
    offset_function v' 0 = -3 /\ offset_function v' 5 = 0 /\ v_world_pos v' = sm_pos (lc_sample (lk_curve l2) (v_pos v') (offset_function v' (v_pos v'))) /\
    0 < v_wheel_base v' /\ unit (v_world_dir v') /\ 0 <= @dot RA (vsub (v_world_pos v2) (v_world_pos v')) (v_world_dir v') /\ unit (v_world_dir v2).
Proof.
  destruct lanes_ok as (ld & J4 & s & s' & v & v' & l1 & l2 & H & G & Wp & Wd & Ww & He & G' & L' & P' & O' & Gl1 & Gl2 & Len & El & s2 & v2 & Hst & G2 & L2 & P2).
  assert (@reachable RA s) as Re by (exact (history_reachable _ _ _ (run_history _ _ _ _ H) (@reach_new RA))). pose proof (reach_call _ _ _ _ Re He) as Re'.
  destruct (do_lane_change_track _ _ _ _ _ _ He) as (_ & w & w' & Gw & Es & (K1 & K2 & K3) & _). unfold vehicle_at in *. assert (w = v) by congruence. subst w.
  assert (w' = v') as ->. { rewrite Es, sm_get_set, key_eqb_refl in G'. cbn [andb] in G'. replace (sm_mem (s_vehicles s) ring_id) with true in G' by (symmetry; apply sm_mem_get; eauto). congruence. }
  rewrite Wp in K1. rewrite Wd in K2. rewrite Ww in K3. assert (unit (@Pt RA 1 0)) as U by (unfold unit; cbn [px py]; unR; lra).
  assert (forall pos off : R, sm_pos (lc_sample ld pos off) = @Pt RA pos (3 + off)%R) as Ss.
  { intros pos off. unfold lc_sample. pose proof (J4 pos) as (S1 & S2 & _). destruct (lc_seg ld pos) as (sg & t). cbn [fst snd sm_pos] in *. rewrite S1, S2. unfold normalize, normalize_to. rewrite (magnitude_along (@Pt RA 1 0) (@Pt RA 1 0) 1); [|exact U|lra|cbn [px py]; lra|cbn [px py]; lra].
    apply pt_ext; unfold on_line, rot90, n1; cbn [vadd vmul px py]; unR; field. }
  destruct (C36_call ra_env s s' ring_id left_id 5 Re He ltac:(lra)) as (w & w' & lx & pos & off & slope & Gw1 & Gw2 & _ & _ & _ & Pw & (_ & _ & F & _)). unfold vehicle_at in *. assert (w' = v') by congruence. subst w'. rewrite P' in Pw. subst pos.
  assert (v_world_dir v' = @Pt RA 1 0) as K2' by exact K2. assert (0 < v_wheel_base v') as K3' by (rewrite K3; lra).
  destruct (C36_step ra_env s' s2 (1 / 10) ring_id v' v2 Re' Hst G' G2) as (f & start & shift & lid' & l' & _ & _ & _ & _ & Lx & Gx & Wx). assert (lid' = left_id) by congruence. subst lid'. assert (l' = l2) by congruence. subst l'.
  rewrite El, P2, Ss in Wx.
  assert (0 <= @dot RA (vsub (v_world_pos v2) (v_world_pos v')) (v_world_dir v')) as Hd. { rewrite K1, K2', Wx. unfold dot. cbn [vsub px py]. unR. lra. }
  exists s, s', s2, v, v', v2, l2. split; [eapply run_history; exact H|]. do 6 (split; [assumption|]). split; [exact O'|]. split; [apply F; lra|]. split; [rewrite El, Ss, P', O', K1; apply pt_ext; cbn [px py]; lra|]. split; [exact K3'|].
  split; [rewrite K2'; exact U|]. split; [exact Hd|]. apply (C44_step ra_env s' s2 (1 / 10) ring_id v' v2 Re' Hst G' G2 K3'); [rewrite K2'; exact U|exact Hd].
Qed.
(** A car that has just changed lanes by itself, in binary64. *)
Lemma ex_changing : okb (run ex_env sim_new (ex_setup ++ ex_steps 2)) (fun s => match sm_get (s_vehicles s) (nth_id 0) with Some v => match v_lane_change v with Some _ => true | None => false end | None => false end) = true.
Proof. vm_compute. reflexivity. Qed.
Example C59_example :
  exists s v, history sim_new (ex_setup ++ ex_steps 2) s /\ List.Forall (fun o => moves (nth_id 0) o = false) (ex_setup ++ ex_steps 2) /\ vehicle_at s (nth_id 0) = Some v /\ v_lane_change v <> None.
Proof.
  destruct (okb_ok _ _ ex_changing) as (s & H & F). destruct (sm_get (s_vehicles s) (nth_id 0)) as [v|] eqn:G; [|discriminate F]. exists s, v. split; [eapply run_history; exact H|].
  split; [repeat (constructor; [reflexivity|]); constructor|]. split; [exact G|]. intros E. rewrite E in F. discriminate F.
Qed.
