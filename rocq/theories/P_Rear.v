(** * The rear of a vehicle, as others see it (C84) *)
From Coq Require Import List Bool ZArith NArith Arith Lia Reals Lra Psatz.
From Verif Require Import Arith RealArith Base BaseProofs SlotMap SlotMapProofs Util Geom Light Accel Net Path Vehicle LinkOps Sim SpecSim Safe NetInv SimInv OpSafe Evo StepEvo RFacts LineProofs RaExample CoordEvo P_Coord P_Table P_Motion SpecMotion NetEvo ConfProofs LocStep SpecRear.
Import ListNotations.
Local Open Scope R_scope.

Section Exact.
  Context {AA : Arith}.
  Lemma rear_exact links (v v' : vehicle) : update_coords links v = Ok v' ->
    exists lid l off, v_link v' = Some lid /\ sm_get links lid = Some l /\
      let sa := sample_centre (lk_curve l) (v_pos v') in
      (v_world_pos v' = lat_offset sa off \/ (off = n0 /\ v_world_pos v' = sm_pos sa)) /\
      let r := nadd (nmul (nneg (dot (v_world_dir v') (rot90 (sm_tan sa)))) (v_half_len v')) off in
      v_rear_coords v' = (vadd (long_offset sa (nneg (v_half_len v'))) (vscale (nsub (nmin r n0) (v_half_wid v')) (rot90 (sm_tan sa))),
                          vadd (long_offset sa (nneg (v_half_len v'))) (vscale (nadd (nmax r n0) (v_half_wid v')) (rot90 (sm_tan sa)))).
  Proof.
    unfold update_coords. intros H. bok H lid Hl. bok H l Hgl. apply of_option_ok in Hl. unfold get_link in Hgl. apply of_option_ok in Hgl. exists lid, l.
    destruct (v_lane_change v) as [c|] eqn:Ec; injection H as <-; [exists (cubic_y (lch_offset c) (v_pos v))|exists n0]; (split; [exact Hl|split; [exact Hgl|]]); cbn [v_pos v_world_pos v_world_dir v_half_len v_half_wid v_rear_coords i_min i_max]; cbv zeta; (split; [auto|reflexivity]).
  Qed.
End Exact.

Lemma coords_rear links (v v' : @vehicle RA) : update_coords links v = Ok v' -> exists lid l, v_link v' = Some lid /\ sm_get links lid = Some l /\ rear_ok l v'.
Proof.
  intros H. destruct (rear_exact _ _ _ H) as (lid & l & off & L & G & Ep & Er). exists lid, l. split; [exact L|]. split; [exact G|]. clear H.
  unfold rear_ok, road_at, body, v_length, v_width. revert Ep Er. generalize (sample_centre (lk_curve l) (v_pos v')). intros sa Ep Er U. rewrite Er. clear Er. cbn [fst snd].
  revert Ep. generalize (v_world_pos v') (v_world_dir v') (v_half_len v') (v_half_wid v'). clear - U. intros pos dir hl hw Ep. revert U Ep. destruct sa as ((x, y), (tx, ty)), pos as (qx, qy), dir as (dx, dy). intros U Ep.
  change (tx * tx + ty * ty = 1) in U.
  assert (qx = x + - ty * off /\ qy = y + tx * off) as (-> & ->).
  { destruct Ep as [Ep|(-> & Ep)]; injection Ep as -> ->; unR; split; match goal with |- ?a = ?b => change (@eq R a b) end; unfold n0; unR; ring. }
  clear Ep. unfold ahead_of, left_of, long_offset, rot90, dot. cbn [sm_pos sm_tan vadd vscale vmul px py]. unfold n2, n0. unR. rewrite min_R, max_R.
  assert (forall x : R, 2 * x / 2 = x) as Two by (intros ?; field). rewrite !Two.
  match goal with |- context [Rmin 0 ?m] => assert (m = - (dx * - ty + dy * tx) * hl + off) as -> end.
  { transitivity (- (dx * - ty + dy * tx) * hl + off * (tx * tx + ty * ty)); [ring|rewrite U; ring]. }
  rewrite !(Rmin_comm 0), !(Rmax_comm 0). set (r := - (dx * - ty + dy * tx) * hl + off). generalize (Rmin r 0 - hw) (Rmax r 0 + hw). intros a b.
  repeat split; match goal with |- ?a = ?b => change (@eq R a b) end.
  - ring.
  - transitivity (- hl * (tx * tx + ty * ty)); [ring|rewrite U; ring].
  - transitivity (- hl * (tx * tx + ty * ty)); [ring|rewrite U; ring].
  - transitivity (a * (tx * tx + ty * ty)); [ring|rewrite U; ring].
  - transitivity (b * (tx * tx + ty * ty)); [ring|rewrite U; ring].
Qed.

(** After each step: the corners reported by [rear_coords()] lie on the line across the road half a length behind the vehicle's position, and reach sideways
    from half a width to the one side to half a width to the other side of both the centre line and the middle of the vehicle's rear. *)
Theorem C84_rear :
  forall e (s s' : @sim RA) dt k (v : @vehicle RA), reachable s -> step e s dt = Ok s' -> vehicle_at s' k = Some v ->
    exists lid l, v_link v = Some lid /\ link_at s' lid = Some l /\ rear_ok l v.
Proof.
  intros e s s' dt k v Rc H G. destruct (step_phases _ _ _ _ (reachable_Inv _ Rc) H) as (s1 & s2 & s3 & s4 & s5 & P). destruct (ends _ _ _ _ _ _ _ _ _ P) as (H6 & El & _).
  unfold update_vehicle_coords in H6. bok H6 r6 Hr6. destruct r6 as (u6 & vs6). injection H6 as H6. cbn [snd] in H6. unfold vehicle_at in G. rewrite <- H6 in G.
  destruct (sm_mapS_pointwise _ (fun _ : Datatypes.unit => True) _ _ _ _ (fun _ _ _ _ _ _ _ _ => Logic.I) Logic.I Hr6) as (_ & _ & K6). destruct (K6 _ _ G) as (x1 & x2 & v5 & _ & _ & Hc & G5). bok Hc v6 Hv6. injection Hc as _ ->.
  unfold link_at. rewrite El. exact (coords_rear _ _ _ Hv6).
Qed.
Print Assumptions C84_rear.

(** The same holds of a vehicle that has just been added. *)
Theorem C84_added :
  forall e (s s' : @sim RA) a lid id, reachable s -> add_vehicle e s a lid = Ok (s', id) ->
    exists v l, vehicle_at s' id = Some v /\ v_link v = Some lid /\ link_at s' lid = Some l /\ rear_ok l v.
Proof.
  intros e s s' a lid id Rc H. pose proof (reachable_Inv _ Rc) as Hi. pose proof (add_vehicle_ok _ _ _ _ _ _ H) as (-> & w & Ew & Lw & _). unfold add_vehicle in H. bok H v Hv. bok H v1 Hv1. bok H links Hk. injection H as <-. cbn [with_links with_vehicles s_vehicles s_links] in *.
  pose proof (st_wf _ _ _ (i_st _ Hi)) as Wf. assert (sm_get (sm_insert (s_vehicles s) v1) (sm_next_key (s_vehicles s)) = Some v1) as G1 by (rewrite (sm_get_insert _ _ _ Wf), key_eqb_refl; reflexivity).
  assert (w = v1) as ->. { pose proof G1 as E. rewrite Ew, (sm_get_insert _ _ _ Wf), key_eqb_refl in E. congruence. }
  destruct (coords_rear _ _ _ Hv1) as (lid' & l & L & G & Ok_). assert (lid' = lid) as -> by congruence. unfold upd_link, get_link in Hk. rewrite G in Hk. cbn [of_option bind] in Hk. bok Hk l' Hl'. injection Hk as <-.
  unfold insert_vehicle in Hl'. bok Hl' u Hu. bok Hl' i Hix. injection Hl' as <-. exists v1, (set_vehicles l (insert_at i (sm_next_key (s_vehicles s)) (lk_vehicles l))). split; [exact G1|]. split; [exact L|]. split; [|exact Ok_].
  unfold link_at. cbn [with_links with_vehicles s_links]. rewrite sm_get_set, key_eqb_refl. replace (sm_mem (s_links s) lid) with true by (symmetry; apply sm_mem_get; eauto). reflexivity.
Qed.
Print Assumptions C84_added.

(** So the whole rear of the vehicle is between the two corners, seen along the road, and the middle of the rear is not behind them. *)
Theorem C84_covers :
  forall e (s s' : @sim RA) dt k (v : @vehicle RA), reachable s -> step e s dt = Ok s' -> vehicle_at s' k = Some v ->
    directed (v_world_dir v) -> 0 <= v_length v ->
    exists lid l, v_link v = Some lid /\ link_at s' lid = Some l /\
      let c := road_at l v in directed (sm_tan c) ->
      (forall y : R, - (v_width v / 2) <= y <= v_width v / 2 ->
        left_of c (fst (v_rear_coords v)) <= left_of c (body v (- (v_length v / 2)) y) <= left_of c (snd (v_rear_coords v))) /\
      ahead_of c (fst (v_rear_coords v)) <= ahead_of c (body v (- (v_length v / 2)) 0) /\ ahead_of c (snd (v_rear_coords v)) <= ahead_of c (body v (- (v_length v / 2)) 0).
Proof.
  intros e s s' dt k v Rc H G Ud Hl. destruct (C84_rear e s s' dt k v Rc H G) as (lid & l & L & Gl & Ok_). exists lid, l. split; [exact L|]. split; [exact Gl|]. intros c Uc. destruct (Ok_ Uc) as (A0 & A1 & A2 & A3 & A4). fold c in A0, A1, A2, A3, A4.
  assert (-1 <= px (v_world_dir v) * px (sm_tan c) + py (v_world_dir v) * py (sm_tan c) <= 1) as Cs.
  { unfold directed in Ud, Uc. clear - Ud Uc. destruct (v_world_dir v) as (dx, dy). destruct (sm_tan c) as (tx, ty). cbn [px py num RA] in *. change (dx * dx + dy * dy = 1) in Ud. change (tx * tx + ty * ty = 1) in Uc. change (-1 <= dx * tx + dy * ty <= 1). assert (0 <= (dx + tx) * (dx + tx) + (dy + ty) * (dy + ty)) by (apply Rplus_le_le_0_compat; apply Rle_0_sqr). assert (0 <= (dx - tx) * (dx - tx) + (dy - ty) * (dy - ty)) by (apply Rplus_le_le_0_compat; apply Rle_0_sqr). split; lra. }
  set (q := px (v_world_dir v) * px (sm_tan c) + py (v_world_dir v) * py (sm_tan c)) in *. set (hl := v_length v / 2) in *. set (hw := v_width v / 2) in *. split.
  - intros y Hy. rewrite A3, A4.
    assert (left_of c (body v (- hl) y) = left_of c (body v (- hl) 0) + y * q) as E by (unfold left_of, body, q; cbn [px py]; unR; ring). rewrite E. set (r := left_of c (body v (- hl) 0)).
    pose proof (Rmin_r 0 r). pose proof (Rmax_r 0 r). assert (- hw <= y * q <= hw) by (split; nra). lra.
  - rewrite A1, A2. assert (ahead_of c (body v (- hl) 0) = ahead_of c (v_world_pos v) - hl * q) as E by (unfold ahead_of, body, q; cbn [px py]; unR; ring). rewrite E, A0. assert (0 <= hl) by (unfold hl; lra). assert (hl * q <= hl) by nra. lra.
Qed.
Print Assumptions C84_covers.

(** The hypotheses hold of a car that is crossing over from one straight lane to another, 3 m to the left. *)
Example C84_example :
  exists (s s' : @sim RA) (v : @vehicle RA) l, reachable s /\ step ra_env s (1 / 10) = Ok s' /\ vehicle_at s' ring_id = Some v /\ directed (v_world_dir v) /\ 0 <= v_length v /\
    v_link v = Some left_id /\ link_at s' left_id = Some l /\ directed (sm_tan (road_at l v)).
Proof.
  destruct lanes_ok as (ld & J4 & s & s' & v & v' & l1 & l2 & H & G & Wp & Wd & Ww & He & G' & L' & P' & O' & Gl1 & Gl2 & Len & El & s2 & v2 & Hst & G2 & L2 & P2).
  assert (@reachable RA s) as Re by (exact (history_reachable _ _ _ (run_history _ _ _ _ H) (@reach_new RA))). pose proof (reach_call _ _ _ _ Re He) as Re'. pose proof (reach_call _ _ _ _ Re' Hst) as Re2.
  assert (has_attributes v ra_car) as Ha.
  { change (run ra_env (@sim_new RA) lanes_ops) with (bind (exec ra_env (@sim_new RA) (OAddLink ring_line 10)) (fun sa => bind (exec ra_env sa (OAddLink left_line 10)) (fun sb => bind (exec ra_env sb (OAddVehicle ra_car ring_id)) (fun sc => Ok sc)))) in H.
    bok H sa Ha. bok H sb Hb. bok H sc Hc. injection H as <-. pose proof (reach_call _ _ _ _ (@reach_new RA) Ha) as Ra. pose proof (reach_call _ _ _ _ Ra Hb) as Rb. destruct (C54_added RA _ _ _ _ _ Rb Hc) as (w & Gw & Aw & _).
    assert (s_vehicles sb = s_vehicles (@sim_new RA)) as Es. { clear - Ha Hb. cbn [exec] in Ha, Hb. unfold add_link in Ha, Hb. bok Ha xa Hxa. bok Hxa ya Hya. bok Hb xb Hxb. bok Hxb yb Hyb. injection Hb as <-. injection Hxb as <-. injection Ha as <-. injection Hxa as <-. reflexivity. }
    rewrite Es in Gw. change (sm_next_key (s_vehicles (@sim_new RA))) with ring_id in Gw. congruence. }
  destruct (do_lane_change_track _ _ _ _ _ _ He) as (_ & w & w' & Gw & Es & (K1 & K2 & K3) & _). unfold vehicle_at in *. assert (w = v) by congruence. subst w.
  assert (w' = v') as ->. { rewrite Es, sm_get_set, key_eqb_refl in G'. cbn [andb] in G'. replace (sm_mem (s_vehicles s) ring_id) with true in G' by (symmetry; apply sm_mem_get; eauto). congruence. }
  rewrite Wp in K1. rewrite Wd in K2. rewrite Ww in K3. assert (unit (@Pt RA 1 0)) as U by (unfold unit; cbn [px py]; unR; lra).
  assert (forall pos off : R, sm_pos (lc_sample ld pos off) = @Pt RA pos (3 + off)%R) as Ss.
  { intros pos off. unfold lc_sample. pose proof (J4 pos) as (S1 & S2 & _). destruct (lc_seg ld pos) as (sg & t). cbn [fst snd sm_pos] in *. rewrite S1, S2. unfold normalize, normalize_to. rewrite (magnitude_along (@Pt RA 1 0) (@Pt RA 1 0) 1); [|exact U|lra|cbn [px py]; lra|cbn [px py]; lra].
    apply pt_ext; unfold on_line, rot90, n1; cbn [vadd vmul px py]; unR; field. }
  assert (v_world_dir v' = @Pt RA 1 0) as K2' by exact K2. assert (0 < v_wheel_base v') as K3' by (rewrite K3; lra).
  destruct (C36_step ra_env s' s2 (1 / 10) ring_id v' v2 Re' Hst G' G2) as (f & start & shift & lid' & l' & _ & _ & _ & _ & Lx & Gx & Wx). assert (lid' = left_id) by congruence. subst lid'. assert (l' = l2) by congruence. subst l'.
  rewrite El, P2, Ss in Wx.
  assert (0 <= @dot RA (vsub (v_world_pos v2) (v_world_pos v')) (v_world_dir v')) as Hd. { rewrite K1, K2', Wx. unfold dot. cbn [vsub px py]. unR. lra. }
  assert (unit (v_world_dir v2)) as U2 by (apply (C44_step ra_env s' s2 (1 / 10) ring_id v' v2 Re' Hst G' G2 K3'); [rewrite K2'; exact U|exact Hd]).
  assert (has_attributes v2 ra_car) as Ha2.
  { apply (C54_kept RA s [@OLaneChange RA ring_id left_id 5; @OStep RA (1 / 10)] s2 ring_id v v2 ra_car Re); auto. eapply hist_call; [exact He|]. eapply hist_call; [exact Hst|]. constructor. }
  destruct (C84_rear ra_env s' s2 (1 / 10) ring_id v2 Re' Hst G2) as (lid & l & L & Gl & _). assert (lid = left_id) by congruence. subst lid.
  destruct (exec_geo ra_env s' (@OStep RA (1 / 10)) s2 left_id l2 (reachable_Inv _ Re') Hst Gl2) as (lx & Glx & Eg). unfold link_at in Gl, Glx. assert (lx = l) by congruence. subst lx.
  exists s', s2, v2, l. split; [exact Re'|]. split; [exact Hst|]. split; [exact G2|]. split; [exact U2|]. split; [destruct Ha2 as (_ & Q & _); rewrite Q; cbn; lra|]. split; [exact L|]. split; [exact Gl|].
  unfold road_at. unfold geo in Eg. injection Eg as _ Ec _ _. rewrite Ec, El, (straight_sample _ (@Pt RA 0 3) (@Pt RA 1 0)) by auto. exact U.
Qed.
