(** * A step of two simulations that are the same on a part of the network *)
From Coq Require Import List Bool ZArith NArith Arith Lia.
From Verif Require Import Arith Base BaseProofs SlotMap SlotMapProofs Util Geom Light LightProofs Accel Net Path Vehicle LinkOps Sim SpecSim Safe NetInv SimInv AccSafe SimSafe StepSafe OpSafe Evo StepEvo StepProofs LogProofs ConfProofs SpecLocal Align LocPath LocScan LocSim LocElse.
Import ListNotations.

Section LocStep.
  Context {A : Arith}.
  Variable part : key -> bool.

  Definition CVof (s : sim) (k : key) : bool := match vehicle_on part s k with Some _ => true | None => false end.
  Lemma CV_on s k v : vehicle_on part s k = Some v <-> CVof s k = true /\ sm_get (s_vehicles s) k = Some v.
  Proof.
    unfold CVof, vehicle_on. destruct (sm_get (s_vehicles s) k) as [w|]; [|split; [intros E; discriminate E|intros (E & _); discriminate E]]. destruct (on_part part w); [|split; [intros E; discriminate E|intros (E & _); discriminate E]]. split; [intros E; split; [reflexivity|exact E]|intros (_ & E); exact E].
  Qed.
  Lemma CV_root s : rootc part (CVof s) (s_vehicles s).
  Proof. intros k v x G E. unfold CVof, vehicle_on, on_part. rewrite G, E. destruct (part x); reflexivity. Qed.
  Lemma CV_trip s : separate part s -> tripc part (CVof s) (s_vehicles s).
  Proof. intros Sp k v Hk G. apply (sep_trips _ _ Sp k v G). assert (vehicle_on part s k = Some v) as E by (apply CV_on; auto). unfold vehicle_on in E. rewrite G in E. destruct (on_part part v); [reflexivity|discriminate E]. Qed.
  Lemma U_of CV s : Inv s -> separate part s -> rootc part CV (s_vehicles s) -> U part CV s.
  Proof. intros Hi Sp H. split; [exact (i_st _ Hi)|]. split; [exact (sep_links _ _ Sp)|]. exact (U_root part CV _ _ _ (i_st _ Hi) (sep_links _ _ Sp) H). Qed.
  Lemma root_on CV s k : Inv s -> rootc part CV (s_vehicles s) -> vehicle_on part s k = if CV k then sm_get (s_vehicles s) k else None.
  Proof.
    intros Hi H. unfold vehicle_on, on_part. destruct (sm_get (s_vehicles s) k) as [v|] eqn:G; [|destruct (CV k); reflexivity]. pose proof (vb_src _ _ _ _ (st_veh _ _ _ (i_st _ Hi) _ _ G)) as E. change (v_link v = Some (pf_src (v_pathfind v))) in E. rewrite E, (H k v _ G E). reflexivity.
  Qed.
  Lemma frozen_mem s k : get_vehicle_frozen s k = key_mem k (s_frozen s).
  Proof. unfold get_vehicle_frozen, key_mem. induction (s_frozen s) as [|x l IH]; [reflexivity|]. cbn [existsb]. rewrite IH, key_eqb_sym. reflexivity. Qed.
  Lemma al_lights a b : lights_al part a b <-> forall k l, light_on_part part l = true -> (sm_get a k = Some l <-> sm_get b k = Some l).
  Proof.
    split.
    - intros H k l Hl. specialize (H k). unfold seen in H. split; intros E; rewrite E, Hl in H.
      + destruct (sm_get b k) as [m|]; [|destruct H]. destruct (light_on_part part m); [|destruct H]. cbn [relo] in H. congruence.
      + destruct (sm_get a k) as [m|]; [|destruct H]. destruct (light_on_part part m); [|destruct H]. cbn [relo] in H. congruence.
    - intros H k. unfold seen. destruct (sm_get a k) as [l|] eqn:Ea.
      + destruct (light_on_part part l) eqn:El.
        * apply (H k l El) in Ea. rewrite Ea, El. reflexivity.
        * destruct (sm_get b k) as [m|] eqn:Eb; [|exact I]. destruct (light_on_part part m) eqn:Em; [|exact I]. apply (H k m Em) in Eb. congruence.
      + destruct (sm_get b k) as [m|] eqn:Eb; [|exact I]. destruct (light_on_part part m) eqn:Em; [|exact I]. apply (H k m Em) in Eb. congruence.
  Qed.

  (** ** The numbers drawn by waiting vehicles *)
  Definition Qof (s t : sim) (a b : nat) : Prop := (a = 0 /\ b = 0) \/ exists k v w, vehicle_on part s k = Some v /\ vehicle_on part t k = Some w /\ v_queued v = Some a /\ v_queued w = Some b.
  Lemma queue_range s k v q : Inv s -> vehicle_on part s k = Some v -> v_queued v = Some q -> 1 <= q <= s_seq s.
  Proof. intros Hi H E. apply CV_on in H. exact (vb_queue _ _ _ _ (st_veh _ _ _ (i_st _ Hi) _ _ (proj2 H)) q E). Qed.
  Lemma Q_good s t : Inv s -> Inv t -> same_part part s t -> good (Qof s t) (s_seq s) (s_seq t).
  Proof.
    intros Hs Ht P. split.
    - left. auto.
    - intros a a' b b' [(-> & ->)|(k1 & v1 & w1 & K1 & K2 & K3 & K4)] [(-> & ->)|(k2 & v2 & w2 & J1 & J2 & J3 & J4)].
      + lia.
      + pose proof (queue_range _ _ _ _ Hs J1 J3). pose proof (queue_range _ _ _ _ Ht J2 J4). lia.
      + pose proof (queue_range _ _ _ _ Hs K1 K3). pose proof (queue_range _ _ _ _ Ht K2 K4). lia.
      + exact (sp_order _ _ _ P k1 k2 v1 v2 w1 w2 a b a' b' K1 J1 K2 J2 K3 J3 K4 J4).
    - intros a b [(-> & ->)|(k1 & v1 & w1 & K1 & K2 & K3 & K4)]; [lia|]. pose proof (queue_range _ _ _ _ Hs K1 K3). pose proof (queue_range _ _ _ _ Ht K2 K4). lia.
  Qed.
  Lemma unnumbered_q v w : unnumbered v = unnumbered w -> w = set_q v (v_queued w) /\ option_map (fun _ => 0) (v_queued v) = option_map (fun _ => 0) (v_queued w).
  Proof. destruct v, w. unfold unnumbered, set_q. cbn. intros E. injection E. intros. subst. auto. Qed.
  Lemma V_init s t : same_part part s t -> vagree (CVof s) (Qof s t) (s_vehicles s) (s_vehicles t).
  Proof.
    intros P k Hk. pose proof (sp_vehicles _ _ _ P k) as E. unfold CVof in Hk. destruct (vehicle_on part s k) as [v|] eqn:Es; [|discriminate Hk]. destruct (vehicle_on part t k) as [w|] eqn:Et; [|discriminate E]. pose proof Es as Es'. pose proof Et as Et'. apply CV_on in Es'. apply CV_on in Et'. destruct Es' as (_ & Gs). destruct Et' as (_ & Gt). rewrite Gs, Gt. cbn [relo]. cbn [option_map] in E. assert (unnumbered v = unnumbered w) as E' by congruence. clear E. rename E' into E.
    destruct (unnumbered_q v w E) as (Ew & Eo). exists (v_queued w). split; [exact Ew|]. destruct (v_queued v) as [a|] eqn:Ea; destruct (v_queued w) as [b|] eqn:Eb; try discriminate Eo; [|exact I]. right. exists k, v, w. auto.
  Qed.
  Lemma CV_same s t : same_part part s t -> forall k, CVof s k = CVof t k.
  Proof. intros P k. pose proof (sp_vehicles _ _ _ P k) as E. unfold CVof. destruct (vehicle_on part s k); destruct (vehicle_on part t k); try discriminate E; reflexivity. Qed.
  Lemma rootc_ext CV CV' V : (forall k, CV k = CV' k) -> rootc part CV V -> rootc part CV' V.
  Proof. intros E H k v x G L. rewrite <- E. exact (H k v x G L). Qed.

  (** ** One simulation *)
  Lemma lights_rest s dt s' : update_lights s dt = Ok s' -> s_conflicts s' = s_conflicts s /\ s_frozen s' = s_frozen s /\ s_seq s' = s_seq s.
  Proof. unfold update_lights. intros H. bok H x Hx. injection H as <-. auto. Qed.
  Lemma ends e s dt s1 s2 s3 s4 s5 s' : phases e s dt s1 s2 s3 s4 s5 s' -> update_vehicle_coords s5 = Ok (with_vehicles s5 (s_vehicles s')) /\ s_links s' = s_links s5 /\ s_lights s' = s_lights s3 /\ s_conflicts s' = s_conflicts s /\ s_frozen s' = s_frozen s2 /\ s_seq s' = s_seq s4 /\ s_seq s3 = s_seq s.
  Proof.
    intros P. destruct (ph6 _ _ _ _ _ _ _ _ _ P) as (s6 & H6 & ->). destruct (coords_evo _ _ H6) as (_ & _ & _ & E6). destruct (advance_vehicles_evo _ _ _ (ph5 _ _ _ _ _ _ _ _ _ P)) as (_ & _ & _ & E5). destruct (integrate_evo _ _ _ (ph4 _ _ _ _ _ _ _ _ _ P)) as (_ & _ & E4).
    destruct (lights_rest _ _ _ (ph3 _ _ _ _ _ _ _ _ _ P)) as (L1 & L2 & L3). destruct (acc_fields _ _ _ (ph2 _ _ _ _ _ _ _ _ _ P)) as (A1 & _ & _ & _ & A5 & _). destruct (lc_fields _ _ _ (ph1 _ _ _ _ _ _ _ _ _ P)) as (B1 & _ & _ & _ & _ & B6 & _).
    cbn [s_vehicles s_links s_lights s_conflicts s_frozen s_seq]. rewrite <- E6. split; [exact H6|]. rewrite E6, E5, E4. cbn [s_vehicles s_links s_lights s_conflicts s_frozen s_seq with_vehicles with_links]. repeat split; congruence.
  Qed.
  Lemma end_root CV e s dt s1 s2 s3 s4 s5 s' : phases e s dt s1 s2 s3 s4 s5 s' -> U part CV s5 -> rootc part CV (s_vehicles s').
  Proof.
    intros P (_ & _ & R5) k v x G E. destruct (ends _ _ _ _ _ _ _ _ _ P) as (H6 & _). destruct (coords_evo _ _ H6) as (_ & K & _). cbn [s_vehicles with_vehicles] in K. destruct (K k v G) as (w & Gw & (_ & _ & _ & Er & _)). apply (root_of part CV _ R5 k w x Gw). unfold v_link in *. rewrite <- Er. exact E.
  Qed.
  Lemma separate_step e s dt s' : Inv s -> separate part s -> step e s dt = Ok s' -> separate part s'.
  Proof.
    intros Hi Sp H. pose proof (exec_Inv e s (OStep dt) s' Hi H) as Hi'. destruct (step_phases _ _ _ _ Hi H) as (s1 & s2 & s3 & s4 & s5 & P). pose proof (U_of _ _ Hi Sp (CV_root s)) as Us. destruct (u_phases part _ _ _ _ _ _ _ _ _ _ P Us) as (_ & _ & _ & _ & U5). destruct (ends _ _ _ _ _ _ _ _ _ P) as (H6 & E1 & _ & E3 & _). pose proof (end_root _ _ _ _ _ _ _ _ _ _ P U5) as R'. split.
    - rewrite E1. exact (proj1 (proj2 U5)).
    - rewrite E3. exact (sep_conflicts _ _ Sp).
    - intros k l' i j G Li Lj. destruct (step_lights _ _ _ _ _ _ Hi H G) as (l & Gl & Hl). apply mlinks_step in Hl. rewrite Hl in Li, Lj. exact (sep_lights _ _ Sp _ _ _ _ Gl Li Lj).
    - intros k v G O. assert (CVof s k = true) as Hk. { pose proof (root_on _ _ k Hi' R') as E. unfold vehicle_on in E. rewrite G, O in E. destruct (CVof s k); [reflexivity|discriminate E]. }
      pose proof (trip_phases part _ _ _ _ _ _ _ _ _ _ P Us (CV_trip s Sp)) as T4. destruct (coords_evo _ _ H6) as (_ & K & _). cbn [s_vehicles with_vehicles] in K. destruct (K k v G) as (w & Gw & (_ & Ep & _)). unfold v_destination. rewrite Ep.
      destruct (advance_vehicles_evo _ _ _ (ph5 _ _ _ _ _ _ _ _ _ P)) as (K5 & _). destruct (K5 k w Gw) as (v4 & G4 & (lid & l & _ & _ & [(_ & ->)|(_ & Eb & _)]) & _); [exact (T4 k v4 Hk G4)|]. unfold body in Eb. injection Eb as _ _ _ _ _ _ _ _ _ Eb. rewrite Eb. exact (T4 k v4 Hk G4).
  Qed.
  Lemma same_of CV Q s' t' : Inv s' -> Inv t' -> rootc part CV (s_vehicles s') -> rootc part CV (s_vehicles t') -> agree part (s_links s') (s_links t') -> vagree CV Q (s_vehicles s') (s_vehicles t') ->
    (forall x x' y y', Q x x' -> Q y y' -> (x < y <-> x' < y')) -> frz CV (s_frozen s') (s_frozen t') -> filter (fun c => part (cpl_link (cp_a c))) (s_conflicts s') = filter (fun c => part (cpl_link (cp_a c))) (s_conflicts t') ->
    lights_al part (s_lights s') (s_lights t') -> s_acc_update s' = s_acc_update t' -> s_lc_update s' = s_lc_update t' -> same_part part s' t'.
  Proof.
    intros His' Hit' Rs' Rt' L5 V6 Gd4 Fz Cf LA3 Eac Elc.
    assert (forall k v, vehicle_on part s' k = Some v -> CV k = true /\ sm_get (s_vehicles s') k = Some v) as Os. { intros k v E. rewrite (root_on CV s' k His' Rs') in E. destruct (CV k); [auto|discriminate E]. }
    assert (forall k v, vehicle_on part t' k = Some v -> CV k = true /\ sm_get (s_vehicles t') k = Some v) as Ot. { intros k v E. rewrite (root_on CV t' k Hit' Rt') in E. destruct (CV k); [auto|discriminate E]. }
    split.
    - intros k Hk. exact (L5 k Hk).
    - intros k. rewrite (root_on CV s' k His' Rs'), (root_on CV t' k Hit' Rt'). destruct (CV k) eqn:Hk; [|reflexivity]. specialize (V6 k Hk). destruct (sm_get (s_vehicles s') k) as [v|]; destruct (sm_get (s_vehicles t') k) as [w|]; try destruct V6 as (q & -> & Hq); try destruct V6; try reflexivity. cbn [option_map]. f_equal. unfold unnumbered. cbn [set_q v_id v_half_wid v_half_len v_wheel_base v_acc v_pathfind v_pos v_vel v_stop_cnt v_route v_entered v_queued v_flag v_can_exit v_lane_change v_world_pos v_world_dir v_rear_lats v_rear_coords]. destruct (v_queued v); destruct q; try destruct Hq; reflexivity.
    - intros k1 k2 v1 v2 w1 w2 a1 a2 b1 b2 X1 X2 Y1 Y2 Z1 Z2 Z3 Z4. assert (forall k v w a b, vehicle_on part s' k = Some v -> vehicle_on part t' k = Some w -> v_queued v = Some a -> v_queued w = Some b -> Q a b) as K.
      { intros k v w a b Hv Hw Ea Eb. destruct (Os _ _ Hv) as (Hk & Gv). destruct (Ot _ _ Hw) as (_ & Gw). specialize (V6 k Hk). rewrite Gv, Gw in V6. destruct V6 as (q & -> & Hq). cbn [set_q v_queued] in Eb. rewrite Ea, Eb in Hq. exact Hq. }
      exact (Gd4 _ _ _ _ (K _ _ _ _ _ X1 Y1 Z1 Z3) (K _ _ _ _ _ X2 Y2 Z2 Z4)).
    - intros k v E. rewrite !frozen_mem. apply Fz. exact (proj1 (Os _ _ E)).
    - exact Cf.
    - apply al_lights. exact LA3.
    - exact Eac.
    - exact Elc.
  Qed.
  Theorem step_same e1 e2 s t dt s' t' : Inv s -> Inv t -> separate part s -> separate part t -> same_part part s t -> same_ties part e1 e2 -> step e1 s dt = Ok s' -> step e2 t dt = Ok t' -> same_part part s' t'.
  Proof.
    intros His Hit Ss Stt P Ti H1 H2. set (CV := CVof s). pose proof (exec_Inv e1 s (OStep dt) s' His H1) as His'. pose proof (exec_Inv e2 t (OStep dt) t' Hit H2) as Hit'.
    assert (rootc part CV (s_vehicles t)) as Rt by exact (rootc_ext _ _ _ (fun k => eq_sym (CV_same _ _ P k)) (CV_root t)).
    pose proof (U_of CV s His Ss (CV_root s)) as Us. pose proof (U_of CV t Hit Stt Rt) as Ut.
    assert (tripc part CV (s_vehicles s)) as Ts by exact (CV_trip s Ss).
    assert (tripc part CV (s_vehicles t)) as Tt. { intros k v Hk G. apply (CV_trip t Stt k v); [|exact G]. rewrite <- (CV_same _ _ P k). exact Hk. }
    destruct (step_phases _ _ _ _ His H1) as (s1 & s2 & s3 & s4 & s5 & Fs). destruct (step_phases _ _ _ _ Hit H2) as (t1 & t2 & t3 & t4 & t5 & Ft).
    destruct (u_phases part CV _ _ _ _ _ _ _ _ _ Fs Us) as (Us1 & Us2 & Us3 & Us4 & Us5). destruct (u_phases part CV _ _ _ _ _ _ _ _ _ Ft Ut) as (Ut1 & Ut2 & Ut3 & Ut4 & Ut5).
    pose proof (trip_phases part CV _ _ _ _ _ _ _ _ _ Fs Us Ts) as Ts4.
    pose proof (Q_good s t His Hit P) as Gd.
    destruct (lane_changes_rr part CV (Qof s t) e1 e2 s t Us Ut (i_flags _ His) (i_flags _ Hit) Ts Tt Ti (sp_links _ _ _ P) (V_init s t P) (sp_lc _ _ _ P) s1 t1 (ph1 _ _ _ _ _ _ _ _ _ Fs) (ph1 _ _ _ _ _ _ _ _ _ Ft)) as (L1 & V1).
    destruct (lc_fields _ _ _ (ph1 _ _ _ _ _ _ _ _ _ Fs)) as (Sq1 & Li1 & Fr1 & _ & Ac1 & Co1 & _). destruct (lc_fields _ _ _ (ph1 _ _ _ _ _ _ _ _ _ Ft)) as (Sq1' & Li1' & Fr1' & _ & Ac1' & Co1' & _).
    destruct (acc_rr part CV (Qof s t) (g_zero _ _ _ Gd) (g_lt _ _ _ Gd) e1 e2 s1 t1 s2 t2 Us1 Ut1 L1 V1) as (L2 & V2 & Fz).
    { rewrite Co1. exact (sep_conflicts _ _ Ss). } { rewrite Co1'. exact (sep_conflicts _ _ Stt). } { rewrite Co1, Co1'. exact (sp_conflicts _ _ _ P). }
    { rewrite Fr1, Fr1'. intros k Hk. rewrite <- !frozen_mem. unfold CV, CVof in Hk. destruct (vehicle_on part s k) as [v|] eqn:E; [|discriminate Hk]. exact (sp_frozen _ _ _ P k v E). }
    { rewrite Ac1, Ac1'. exact (sp_acc _ _ _ P). } { exact (ph2 _ _ _ _ _ _ _ _ _ Fs). } { exact (ph2 _ _ _ _ _ _ _ _ _ Ft). }
    destruct (acc_fields _ _ _ (ph2 _ _ _ _ _ _ _ _ _ Fs)) as (Sq2 & Li2 & _). destruct (acc_fields _ _ _ (ph2 _ _ _ _ _ _ _ _ _ Ft)) as (Sq2' & Li2' & _).
    destruct (lights_rr part s2 t2 dt s3 t3) as (L3 & LA3).
    { rewrite Li2, Li1. exact (sep_lights _ _ Ss). } { exact L2. } { rewrite Li2, Li1, Li2', Li1'. apply al_lights. exact (sp_lights _ _ _ P). } { exact (ph3 _ _ _ _ _ _ _ _ _ Fs). } { exact (ph3 _ _ _ _ _ _ _ _ _ Ft). }
    destruct (ends _ _ _ _ _ _ _ _ _ Fs) as (H6 & D1 & D2 & D3 & D4 & D5 & D6). destruct (ends _ _ _ _ _ _ _ _ _ Ft) as (H6' & D1' & D2' & D3' & D4' & D5' & D6').
    destruct (integrate_rr CV (Qof s t) s3 t3 dt s4 t4) as (Q & Gd4 & V4).
    { rewrite D6, D6'. exact Gd. } { rewrite (pv3 _ _ _ _ _ _ _ _ _ Fs), (pv3 _ _ _ _ _ _ _ _ _ Ft). exact V2. } { exact (ph4 _ _ _ _ _ _ _ _ _ Fs). } { exact (ph4 _ _ _ _ _ _ _ _ _ Ft). }
    destruct (advances_rr part CV Q e1 e2 s4 t4 s5 t5 Us4 Ut4 Ts4 Ti) as (L5 & V5).
    { rewrite (pn4 _ _ _ _ _ _ _ _ _ Fs), (pn4 _ _ _ _ _ _ _ _ _ Ft). exact L3. } { exact V4. } { exact (ph5 _ _ _ _ _ _ _ _ _ Fs). } { exact (ph5 _ _ _ _ _ _ _ _ _ Ft). }
    pose proof (coords_rr part CV Q s5 t5 _ _ Us5 L5 V5 H6 H6') as V6. cbn [s_vehicles with_vehicles] in V6.
    pose proof (end_root CV _ _ _ _ _ _ _ _ _ Fs Us5) as Rs'. pose proof (end_root CV _ _ _ _ _ _ _ _ _ Ft Ut5) as Rt'.
    apply (same_of CV Q s' t' His' Hit' Rs' Rt'); [rewrite D1, D1'; exact L5|exact V6|exact (g_lt _ _ _ Gd4)|rewrite D4, D4'; exact Fz|rewrite D3, D3'; exact (sp_conflicts _ _ _ P)|rewrite D2, D2'; exact LA3| |].
    - destruct (step_timers _ _ _ _ His H1) as (-> & _). destruct (step_timers _ _ _ _ Hit H2) as (-> & _). rewrite (sp_acc _ _ _ P). reflexivity.
    - destruct (step_timers _ _ _ _ His H1) as (_ & ->). destruct (step_timers _ _ _ _ Hit H2) as (_ & ->). rewrite (sp_lc _ _ _ P). reflexivity.
  Qed.
End LocStep.
