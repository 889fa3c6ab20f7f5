(** * Coordinates and lane changes of a vehicle over one step *)
From Coq Require Import List Bool ZArith NArith Arith Lia.
From Verif Require Import Arith Base BaseProofs SlotMap SlotMapProofs Util Geom Light Accel Net Path Vehicle LinkOps Sim SpecSim Safe NetInv SimInv StepSafe OpSafe Evo StepEvo StepProofs.
Import ListNotations.

Section CoordEvo.
  Context {A : Arith}.

  (** The links as far as lane changes do not touch them. *)
  Definition curves_of (links0 links : linkset) : Prop := forall k l, sm_get links k = Some l -> exists l0, sm_get links0 k = Some l0 /\ lk_curve l = lk_curve l0.
  Lemma curves_refl links : curves_of links links. Proof. intros k l G. eauto. Qed.
  Lemma curves_trans a b c : curves_of a b -> curves_of b c -> curves_of a c.
  Proof. intros H1 H2 k l G. destruct (H2 _ _ G) as (l1 & G1 & E1). destruct (H1 _ _ G1) as (l0 & G0 & E0). exists l0. split; auto. congruence. Qed.
  Lemma curves_upd links k f links' : (forall l l', f l = Ok l' -> lk_curve l' = lk_curve l) -> upd_link links k f = Ok links' -> curves_of links links'.
  Proof.
    intros Hf H. unfold upd_link in H. bok H l Hl. bok H l' Hl'. injection H as <-. unfold get_link in Hl. apply of_option_ok in Hl. intros k1 l1 G. rewrite sm_get_set in G.
    destruct (key_eqb_spec k k1) as [<-|N]; cbn [andb] in G; [|eauto]. destruct (sm_mem links k); [|eauto]. injection G as <-. eauto.
  Qed.
  Lemma same_net_curves a b : same_net a b -> curves_of a b.
  Proof. intros S k l G. destruct (same_net_get _ _ _ _ S G) as (l0 & G0 & E). exists l0. split; auto. unfold lk_static in E. injection E. congruence. Qed.

  (** What lane changes do: the vehicle stays, or it is put beside its place in the world on another link, [dist] away from its end of a lane change. *)
  Definition begins (links : linkset) (dist : num) (v v' : vehicle) : Prop :=
    exists lid l pos off slope, v_link v' = Some lid /\ sm_get links lid = Some l /\ inverse_sample (lk_curve l) (v_world_pos v) (v_world_dir v) = Ok (Some (pos, off, slope)) /\
      v_pos v' = pos /\ v_lane_change v' = Some (LaneChg (nadd pos dist) (cubic_fit pos off slope (nadd pos dist) n0 n0)).
  Definition Kw (v v' : vehicle) : Prop := v_world_pos v' = v_world_pos v /\ v_world_dir v' = v_world_dir v /\ v_wheel_base v' = v_wheel_base v.
  Definition Klc (links : linkset) (v v' : vehicle) : Prop :=
    Kw v v' /\ ((v_link v' = v_link v /\ v_pos v' = v_pos v /\ v_lane_change v' = v_lane_change v) \/ begins links (nofZ 30) v v').
  Lemma Kw_refl v : Kw v v. Proof. repeat split. Qed.
  Lemma Kw_trans a b c : Kw a b -> Kw b c -> Kw a c.
  Proof. intros (A1 & A2 & A3) (B1 & B2 & B3). repeat split; congruence. Qed.

  Lemma do_lane_change_track e s id lid dist s' : do_lane_change e s id lid dist = Ok s' ->
    curves_of (s_links s) (s_links s') /\
    (exists v v', sm_get (s_vehicles s) id = Some v /\ s_vehicles s' = sm_set (s_vehicles s) id v' /\ Kw v v' /\ begins (s_links s) dist v v' /\ v_link v' = Some lid).
  Proof.
    unfold do_lane_change. intros H. bok H v Hv. bok H links Hl. bok H l Hgl. bok H o Ho. bok H x Hx. destruct x as ((pos & off) & slope). destruct o as [((p0 & o0) & s0)|]; [|discriminate Hx]. injection Hx as -> -> ->.
    bok H v' Hv'. bok H links2 Hl2. injection H as <-. cbn [with_links with_vehicles s_links s_vehicles].
    unfold get_vehicle in Hv. apply of_option_ok in Hv. unfold get_link in Hgl. apply of_option_ok in Hgl.
    assert (curves_of (s_links s) links) as C1.
    { destruct (v_link v) as [cur|]; [|injection Hl as <-; apply curves_refl]. eapply curves_upd; [|exact Hl]. intros a b E. injection E as <-. unfold remove_vehicle. destruct (rposition _ _); reflexivity. }
    split.
    - eapply curves_trans; [exact C1|]. eapply curves_upd; [|exact Hl2]. intros a b E. unfold insert_vehicle in E. bok E w Hw. bok E i Hi. injection E as <-. reflexivity.
    - destruct (set_location_body _ _ _ _ _ _ _ Hv') as (B & L & P & Lc & W1 & W2 & _ & _ & _). exists v, v'. split; auto. split; auto. unfold body in B. injection B as B1 B2 B3 B4 B5 B6 B7 B8 B9 B10.
      split; [repeat split; auto|]. split; [|exact L]. destruct (C1 _ _ Hgl) as (l0 & G0 & Ec). exists lid, l0, pos, off, slope. repeat split; auto. rewrite <- Ec. exact Ho.
  Qed.
  Lemma begins_from links dist v0 v v' : Kw v0 v -> begins links dist v v' -> begins links dist v0 v'.
  Proof. intros (W1 & W2 & _) (lid & l & pos & off & slope & B1 & B2 & B3 & B4). rewrite W1, W2 in B3. exists lid, l, pos, off, slope. auto. Qed.
  Lemma begins_curves links0 links dist v v' : curves_of links0 links -> begins links dist v v' -> begins links0 dist v v'.
  Proof. intros C (lid & l & pos & off & slope & B1 & B2 & B3 & B4). destruct (C _ _ B2) as (l0 & G0 & E). rewrite E in B3. exists lid, l0, pos, off, slope. auto. Qed.
  Lemma set_path_track links v v' p : hd_error (pt_links p) = v_link v' -> Klc links v v' -> Klc links v (set_path v' p).
  Proof.
    intros Hh (W & [(L & P & C)|(lid & l & pos & off & slope & B1 & B2 & B3 & B4 & B5)]); (split; [exact W|]).
    - left. split; [|split; auto]. rewrite <- L. exact Hh.
    - right. exists lid, l, pos, off, slope. split; [rewrite <- B1; exact Hh|]. auto.
  Qed.

  Lemma lane_changes_coords e s s' : St (s_links s) (s_vehicles s) (s_seq s) -> calculate_lane_changes e s = Ok s' ->
    forall k v', sm_get (s_vehicles s') k = Some v' -> exists v, sm_get (s_vehicles s) k = Some v /\ Klc (s_links s) v v'.
  Proof.
    intros S H. unfold calculate_lane_changes in H. destruct (nltb _ _).
    { injection H as <-. intros k v' G. exists v'. split; auto. split; [apply Kw_refl|left; auto]. }
    bok H x Hx. destruct x as [acc vs1]. cbn [fst snd with_lc_update s_links s_vehicles] in *.
    destruct (sm_mapS_pointwise (choose_one (s_links s)) (fun _ => True) (s_vehicles s) [] acc vs1 (fun _ _ _ _ _ _ _ _ => I) I Hx) as (_ & _ & K).
    assert (forall k v', sm_get vs1 k = Some v' -> exists v, sm_get (s_vehicles s) k = Some v /\ Klc (s_links s) v v') as K1.
    { intros k v' G. destruct (K _ _ G) as (a1 & a2 & v & _ & _ & Hc & G0). exists v. split; [exact G0|]. unfold choose_one in Hc. bok Hc o Ho.
      assert (Klc (s_links s) v v) as R0 by (split; [apply Kw_refl|left; auto]). destruct o as [p|]; [|injection Hc as _ <-; exact R0]. bok Hc cur Hcur. bok Hc new Hnew. apply of_option_ok in Hcur, Hnew.
      destruct (key_eqb_spec cur new) as [->|N]; cbn [negb] in Hc; injection Hc as _ <-; [|exact R0]. apply set_path_track; [congruence|exact R0]. }
    clear K Hx. set (s1 := with_vehicles (with_lc_update s n0) vs1) in *.
    assert (forall acc s2 s3, foldM (exec_change e) acc s2 = Ok s3 -> curves_of (s_links s) (s_links s2) -> (forall k v', sm_get (s_vehicles s2) k = Some v' -> exists v, sm_get (s_vehicles s) k = Some v /\ Klc (s_links s) v v') ->
      forall k v', sm_get (s_vehicles s3) k = Some v' -> exists v, sm_get (s_vehicles s) k = Some v /\ Klc (s_links s) v v') as G.
    { clear. induction acc as [|vp acc IH]; intros s2 s3 Hf C Hs; cbn [foldM] in Hf; [injection Hf as <-; exact Hs|]. bok Hf s4 H4. unfold exec_change in H4. bok H4 lid Hlid. bok H4 s5 H5. bok H4 v5 Hv5. injection H4 as <-.
      destruct (do_lane_change_track _ _ _ _ _ _ H5) as (C5 & v & v' & Gv & Es & W & B & Lv). apply of_option_ok in Hlid.
      assert (v5 = v') as ->. { unfold get_vehicle in Hv5. apply of_option_ok in Hv5. rewrite Es, sm_get_set, key_eqb_refl in Hv5. cbn [andb] in Hv5. replace (sm_mem (s_vehicles s2) (fst vp)) with true in Hv5 by (symmetry; apply sm_mem_get; eauto). congruence. }
      eapply IH; [exact Hf|exact (curves_trans _ _ _ C C5)|]. cbn [with_vehicles s_vehicles]. intros k w G. rewrite Es, !sm_get_set, sm_mem_set in G. destruct (key_eqb_spec (fst vp) k) as [<-|N]; cbn [andb] in G; [|exact (Hs _ _ G)].
      destruct (sm_mem (s_vehicles s2) (fst vp)); [|exact (Hs _ _ G)]. injection G as <-. destruct (Hs _ _ Gv) as (v0 & G0 & W0 & _). exists v0. split; [exact G0|]. apply set_path_track; [congruence|].
      split; [exact (Kw_trans _ _ _ W0 W)|]. right. apply (begins_from _ _ _ _ _ W0). exact (begins_curves _ _ _ _ _ C B). }
    eapply G; [exact H|apply curves_refl|exact K1].
  Qed.

  (** The position reported for a vehicle on the link [l]. *)
  Definition place (l : link) (v : vehicle) : pt :=
    match v_lane_change v with Some c => lat_offset (sample_centre (lk_curve l) (v_pos v)) (cubic_y (lch_offset c) (v_pos v)) | None => sm_pos (sample_centre (lk_curve l) (v_pos v)) end.
  Definition turned (l : link) (old v : vehicle) : pt :=
    let tan := sm_tan (sample_centre (lk_curve l) (v_pos v)) in
    if neqb (px (v_world_dir old)) n0 && neqb (py (v_world_dir old)) n0 then calc_direction (vsub (v_world_pos v) tan) tan (v_world_pos v) (v_wheel_base v)
    else calc_direction (v_world_pos old) (v_world_dir old) (v_world_pos v) (v_wheel_base v).
  Lemma update_coords_exact links v v' : update_coords links v = Ok v' ->
    exists lid l, v_link v' = Some lid /\ sm_get links lid = Some l /\ v_world_pos v' = place l v' /\ v_world_dir v' = turned l v v' /\ v_wheel_base v' = v_wheel_base v.
  Proof.
    unfold update_coords. intros H. bok H lid Hl. bok H l Hgl. apply of_option_ok in Hl. unfold get_link in Hgl. apply of_option_ok in Hgl. exists lid, l.
    destruct (v_lane_change v) as [c|] eqn:Ec; injection H as <-; unfold place, turned, v_link; cbn [v_route v_lane_change v_pos v_world_pos v_world_dir v_wheel_base]; rewrite ?Ec; repeat split; auto; destruct (_ && _); reflexivity.
  Qed.

  (** A step of one vehicle: [p] is how far along the link of [v1] it has got before it moves on to the next. *)
  Definition lane_change_kept (l : link) (p : num) (v1 v' : vehicle) : Prop :=
    nltb (lk_length l) p = false /\ v_link v' = v_link v1 /\ v_pos v' = p /\ v_lane_change v' = lc_filter (v_lane_change v1) p \/
    nltb (lk_length l) p = true /\ v_pos v' = nsub p (lk_length l) /\ v_lane_change v' = lc_advance (lk_length l) (lc_filter (v_lane_change v1) p).
  Lemma step_track e s dt s' k v' : Inv s -> step e s dt = Ok s' -> sm_get (s_vehicles s') k = Some v' ->
    exists v v1 s1 p lid l lid' l', sm_get (s_vehicles s) k = Some v /\ calculate_lane_changes e s = Ok s1 /\ sm_get (s_vehicles s1) k = Some v1 /\ Klc (s_links s) v v1 /\
      p = nadd (v_pos v1) (nmul (nmul nhalf (nadd (v_vel v) (v_vel v'))) dt) /\
      v_link v1 = Some lid /\ sm_get (s_links s) lid = Some l /\ lane_change_kept l p v1 v' /\
      v_link v' = Some lid' /\ sm_get (s_links s) lid' = Some l' /\ v_world_pos v' = place l' v' /\ v_world_dir v' = turned l' v v' /\ v_wheel_base v' = v_wheel_base v.
  Proof.
    intros I H G'. destruct (step_phases _ _ _ _ I H) as (s1 & s2 & s3 & s4 & s5 & P). pose proof (ph6 _ _ _ _ _ _ _ _ _ P) as (s6 & H6 & Es). rewrite Es in G'. cbn [s_vehicles] in G'.
    unfold update_vehicle_coords in H6. bok H6 r6 Hr6. injection H6 as <-. destruct r6 as (u6 & vs6). cbn [snd with_vehicles s_vehicles] in G'.
    destruct (sm_mapS_pointwise _ (fun _ : Datatypes.unit => True) _ _ _ _ (fun _ _ _ _ _ _ _ _ => Logic.I) Logic.I Hr6) as (_ & _ & K6). destruct (K6 _ _ G') as (x1 & x2 & v5 & _ & _ & Hc & G5). bok Hc v6 Hv6. injection Hc as _ ->.
    pose proof (ph5 _ _ _ _ _ _ _ _ _ P) as H5. destruct (advance_vehicles_evo _ _ _ H5) as (V1 & _ & _ & _). destruct (V1 _ _ G5) as (v4 & G4 & R4 & _).
    assert (Kw v4 v5) as W5.
    { unfold advance_vehicles in H5. bok H5 r5 Hr5. destruct r5 as ((lk5 & (adv & ex)) & vs5). bok H5 lk6 Hlk6. injection H5 as <-. cbn [with_links with_vehicles s_vehicles] in G5.
      destruct (sm_mapS_pointwise _ (fun _ => True) _ _ _ _ (fun _ _ _ _ _ _ _ _ => Logic.I) Logic.I Hr5) as (_ & _ & K5).
      assert (sm_get vs5 k = Some v5) as G5'. { clear - G5. revert vs5 G5. induction ex as [|x ex IH]; intros vs5 G; [exact G|]. cbn [fold_left] in G. apply IH in G. rewrite sm_get_remove in G. destruct (key_eqb x k); [discriminate G|exact G]. }
      destruct (K5 _ _ G5') as (y1 & y2 & v4' & _ & _ & Ha & G4'). assert (v4' = v4) by congruence. subst v4'. destruct y1 as (lks & (ad & exx)). unfold advance_one in Ha. bok Ha lid0 Hlid0. bok Ha bv Hbv.
      assert (v5 = snd bv) as ->. { destruct (fst bv); [bok Ha lks2 Hlks2; destruct (v_link (snd bv)); injection Ha as _ <-; reflexivity|injection Ha as _ <-; reflexivity]. }
      unfold advance in Hbv. destruct (v_route v4) as [|id rest]; [injection Hbv as <-; apply Kw_refl|]. bok Hbv l0 Hl0. destruct (nltb _ _); [|injection Hbv as <-; apply Kw_refl]. bok Hbv pf Hpf. destruct (v_entered v4); [discriminate Hbv|]. injection Hbv as <-. repeat split. }
    destruct (integrate_evo _ _ _ (ph4 _ _ _ _ _ _ _ _ _ P)) as (_ & K4 & _). destruct (K4 _ _ G4) as (v3 & q1 & q2 & G3 & Hi & _).
    rewrite (pv3 _ _ _ _ _ _ _ _ _ P) in G3. destruct (pk2 _ _ _ _ _ _ _ _ _ P _ _ G3) as (v1 & G1 & (a & f & Kp)).
    destruct (lane_changes_coords _ _ _ (i_st _ I) (ph1 _ _ _ _ _ _ _ _ _ P) _ _ G1) as (v & G0 & Kl).
    destruct (lane_changes_evo _ _ _ (i_st _ I) (ph1 _ _ _ _ _ _ _ _ _ P) _ _ G1) as (v0 & G00 & Bl & _). assert (v0 = v) by congruence. subst v0. clear G00.
    assert (Kw v1 v4 /\ v_link v4 = v_link v1 /\ v_lane_change v4 = lc_filter (v_lane_change v1) (v_pos v4) /\ v_pos v4 = nadd (v_pos v1) (nmul (nmul nhalf (nadd (v_vel v1) (v_vel v4))) dt)) as (W4 & L4 & C4 & P4).
    { subst v3. unfold integrate in Hi. bok Hi z Hz. destruct z as (sq & (en & qd)). injection Hi as _ <-. repeat split. }
    assert (v_vel v1 = v_vel v) as Vv by (unfold body in Bl; injection Bl; auto).
    destruct (update_coords_exact _ _ _ Hv6) as (lid' & l5 & L' & G5' & Wp & Wd & Ww). pose proof (update_coords_ok _ _ _ Hv6) as (Bc & _ & Pc & Rc & _ & _ & Cc).
    assert (v_vel v' = v_vel v5) as V5 by (unfold body in Bc; injection Bc; auto).
    assert (curves_of (s_links s) (s_links s4)) as Cu4. { rewrite (pn4 _ _ _ _ _ _ _ _ _ P). apply same_net_curves. eapply same_net_trans; [apply P|]. eapply same_net_trans; apply P. }
    assert (curves_of (s_links s) (s_links s5)) as Cu5 by (eapply curves_trans; [exact Cu4|apply same_net_curves; apply P]).
    destruct R4 as (lid & l4 & Ll & Gl4 & R4). destruct (Cu4 _ _ Gl4) as (l & Gl & El). destruct (Cu5 _ _ G5') as (l' & Gl' & El').
    assert (lk_length l4 = lk_length l) as Elen by (unfold lk_length; rewrite El; reflexivity).
    exists v, v1, s1, (v_pos v4), lid, l, lid', l'. split; auto. split; [apply P|]. split; auto. split; auto.
    assert (v_vel v5 = v_vel v4) as V4 by (destruct R4 as [(_ & ->)|(_ & B5 & _)]; [reflexivity|unfold body in B5; injection B5; auto]).
    split; [rewrite V5, V4, <- Vv; exact P4|]. split; [congruence|]. split; [exact Gl|]. split.
    - destruct R4 as [(N & ->)|(Y & B5 & R5 & P5 & _ & C5 & _)]; [left|right]; rewrite <- Elen.
      + split; auto. split; [unfold v_link in *; rewrite Rc; exact L4|]. split; [congruence|]. rewrite Cc. exact C4.
      + split; auto. split; [congruence|]. rewrite Cc, C5, C4. reflexivity.
    - split; [exact L'|]. split; [exact Gl'|].
      assert (place l5 v' = place l' v') as Ep by (unfold place; rewrite El'; reflexivity). rewrite <- Ep. split; [exact Wp|].
      assert (Kw v v5) as (W1 & W2 & W3). { eapply Kw_trans; [|exact W5]. eapply Kw_trans; [|exact W4]. apply Kl. }
      split; [|congruence]. rewrite Wd. unfold turned. rewrite El', W1, W2. reflexivity.
  Qed.
End CoordEvo.
