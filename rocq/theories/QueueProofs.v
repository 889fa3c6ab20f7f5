(** * Lemmas about queues (P_Queue.v) *)
From Coq Require Import List Bool ZArith NArith Arith Lia Reals Lra.
From Verif Require Import Arith RealArith Base BaseProofs SlotMap Util Geom Light Accel Net Path Vehicle LinkOps Sim SpecSim SpecMotion SlotMapProofs Safe NetInv SimInv AccSafe SimSafe StepSafe OpSafe Evo StepEvo SimProofs StepProofs Ord LogProofs Motion RFacts NetEvo P_Motion P_Limit SpecEnter P_Enter P_Exit SpecGap GapKin GapProofs StopProofs SpecQueue.
Import ListNotations.

Section Drive.
  Context {A : Arith}.
  Lemma changes_ctl e acc s s' x : foldM (exec_change e) acc s = Ok s' -> ctl (s_links s') x = ctl (s_links s) x.
  Proof.
    revert s. induction acc as [|vp acc IH]; intros s H; cbn [foldM] in H; [injection H as <-; reflexivity|]. bok H s1 H1. rewrite (IH _ H). clear IH H.
    unfold exec_change in H1. bok H1 b Hb. bok H1 s3 H3. bok H1 v3 Hv3. injection H1 as <-. cbn [s_links with_vehicles].
    unfold do_lane_change in H3. bok H3 v Hv. bok H3 links Hl. bok H3 l Hg. bok H3 o Ho. bok H3 t Ht. destruct t as [[pos off] sl]. bok H3 v4 Hv4. bok H3 links2 Hl2. injection H3 as <-. cbn [s_links with_links].
    rewrite (upd_vehicles_ctl _ _ _ _ x Hl2) by (intros ? ? E; eapply insert_vehicle_set; exact E).
    destruct (v_link v) as [cur|]; [|injection Hl as <-; reflexivity]. apply (upd_vehicles_ctl _ _ _ _ x Hl). intros l0 l' E. injection E as <-. apply remove_vehicle_set.
  Qed.
  Lemma lane_changes_ctl e s s1 x : calculate_lane_changes e s = Ok s1 -> ctl (s_links s1) x = ctl (s_links s) x.
  Proof.
    intros H. unfold calculate_lane_changes in H. destruct (nltb _ _); [injection H as <-; reflexivity|]. bok H r Hr. destruct r as [acc vs]. cbn [fst snd] in H.
    rewrite (changes_ctl _ _ _ _ x H). reflexivity.
  Qed.

  (** A link that nobody leaves and nobody enters. *)
  Lemma advance_other e s s' seq x l : St (s_links s) (s_vehicles s) seq -> advance_vehicles e s = Ok s' -> sm_get (s_links s) x = Some l ->
    (forall y, ~ succ_of (s_links s) y x) -> (forall k v, sm_get (s_vehicles s) k = Some v -> v_link v = Some x -> nltb (lk_length l) (v_pos v) = false) ->
    sm_get (s_links s') x = Some l.
  Proof.
    intros St0 H Gl Ns Np. unfold advance_vehicles in H. bok H r Hr. destruct r as [[links [adv ex]] vs]. bok H ls Hls. injection H as <-. cbn [s_links with_links].
    destruct (sm_mapS_pointwise (advance_one e) (fun st => sm_get (fst st) x = Some l /\ same_net (s_links s) (fst st) /\ forall k y, In (k, y) (fst (snd st)) -> y <> x)
      (s_vehicles s) (s_links s, ([], [])) (links, (adv, ex)) vs) as (K & _ & _).
    { intros [l1 [a1 e1]] k v [l2 [a2 e2]] v' Gv (P1 & P2 & P3) Ho. cbn [fst snd] in *. unfold advance_one in Ho. bok Ho lid Hl. bok Ho bv Hb. apply of_option_ok in Hl. destruct bv as [b v1]. destruct (advance_ok _ _ _ _ _ _ Hb Hl) as ((lid' & l' & Hl' & Gl' & Rv) & Ib). assert (lid' = lid) by congruence. subst lid'. cbn [fst snd] in Ho.
      destruct b; [|injection Ho as <- <- <- _; auto]. bok Ho l3 H3. destruct (proj1 Ib eq_refl) as (l0 & G0 & Lt). assert (l0 = l') by congruence. subst l0. clear Ib.
      assert (lid <> x) as Nx. { intros ->. assert (l' = l) by congruence. subst l'. rewrite (Np _ _ Gv Hl) in Lt. discriminate Lt. }
      destruct Rv as [(Q & _)|(_ & _ & Er & _)]; [congruence|].
      assert (sm_get l3 x = Some l) as X1. { rewrite (upd_other _ _ _ _ _ H3) by congruence. exact P1. }
      assert (same_net (s_links s) l3) as X2 by (eapply same_net_trans; [exact P2|eapply upd_remove_length; exact H3]).
      destruct (v_link v1) as [y|] eqn:Ly; injection Ho as <- <- <- _; split; auto; split; auto.
      intros k0 y0 Hin. apply in_app_iff in Hin. destruct Hin as [Hin|[E|[]]]; [eauto|]. injection E as <- <-. intros ->.
      pose proof (vb_chain _ _ _ _ (st_veh _ _ _ St0 _ _ Gv)) as Ch. unfold v_link in Ly, Hl. rewrite Er in Ly. destruct (v_route v) as [|z [|w r]]; try discriminate Ly. cbn in Ly, Hl. injection Ly as ->. injection Hl as ->. cbn [chain] in Ch. destruct Ch as (_ & Hz & _).
      exact (Ns lid Hz). }
    { cbn [fst snd]. split; [exact Gl|]. split; [apply same_net_refl|]. intros ? ? []. }
    { exact Hr. }
    cbn [fst snd] in K. destruct K as (K1 & _ & K3). clear Hr. revert links K1 Hls. induction adv as [|[k y] adv IH]; intros links K1 Hls; cbn [foldM] in Hls; [injection Hls as <-; exact K1|].
    bok Hls l1 Hl1. apply (IH ltac:(intros; eapply K3; right; eauto) l1); [|exact Hls]. cbn [fst snd] in Hl1. rewrite (upd_other _ _ _ _ _ Hl1); [exact K1|]. pose proof (K3 k y (or_introl eq_refl)). congruence.
  Qed.

  (** What happens to a vehicle in a step before it may move on to the next link. *)
  Record driven (e : env) (s : sim) (dt : num) (s1 s2 : sim) (k : key) (v v1 v4 : vehicle) : Prop := {
    dr_lc : Rlc (s_links s) v v1;
    dr_spec : spec_of v4 = spec_of v;
    dr_dst : v_destination v4 = v_destination v;
    dr_route : v_route v4 = v_route v1;
    dr_vel : v_vel v4 = nmax (nadd (v_vel v) (nmul dt (am_get (v_acc v4)))) n0;
    dr_pos : v_pos v4 = nadd (v_pos v1) (nmul (nmul nhalf (nadd (v_vel v) (v_vel v4))) dt);
    dr_keep : nltb (s_acc_update s) ACCELERATION_UPDATE_SEC = true -> v_acc v4 = v_acc v;
    dr_new : nltb (s_acc_update s) ACCELERATION_UPDATE_SEC = false -> exists links vs log1 log, parts e s1 s2 links vs log1 log /\
      v_acc v4 = am_set_acc (v_acc v) (if key_mem k (s_frozen s) then MAX_DECEL else log_acc k (am_max (v_acc v)) log) }.
  Lemma drive e s dt s' s1 s2 s3 s4 s5 k v : Inv s -> phases e s dt s1 s2 s3 s4 s5 s' -> sm_get (s_vehicles s) k = Some v ->
    exists v1 v4, sm_get (s_vehicles s1) k = Some v1 /\ sm_get (s_vehicles s4) k = Some v4 /\ driven e s dt s1 s2 k v v1 v4.
  Proof.
    intros I P G. assert (same_shape (s_vehicles s) (s_vehicles s4)) as Sh.
    { eapply shape_trans; [apply P|]. eapply shape_trans; [apply P|]. rewrite <- (pv3 _ _ _ _ _ _ _ _ _ P). apply P. }
    assert (sm_mem (s_vehicles s4) k = true) as M4 by (rewrite <- (shape_mem _ _ k Sh); apply sm_mem_get; eauto). apply sm_mem_get in M4. destruct M4 as (v4 & G4).
    destruct (integrate_evo _ _ _ (ph4 _ _ _ _ _ _ _ _ _ P)) as (_ & Ki & _). destruct (Ki _ _ G4) as (v2 & q & q' & G2 & Hi & _). rewrite (pv3 _ _ _ _ _ _ _ _ _ P) in G2.
    destruct (pk2 _ _ _ _ _ _ _ _ _ P _ _ G2) as (v1 & G1 & Kp). destruct (lane_changes_evo _ _ _ (i_st _ I) (ph1 _ _ _ _ _ _ _ _ _ P) _ _ G1) as (v0 & G0 & R1). assert (v0 = v) by congruence. subst v0.
    exists v1, v4. split; [exact G1|]. split; [exact G4|]. pose proof (Rlc_body _ _ _ R1) as B1. pose proof (body_spec _ _ B1) as (S1 & A1 & V1 & _).
    destruct (integrate_ok _ _ _ _ _ Hi) as (D1 & D2 & D3 & D4 & D5 & D6 & D7 & D8 & D9 & D10 & D11). destruct Kp as (a & f & Ek).
    assert (spec_of v2 = spec_of v1 /\ v_vel v2 = v_vel v1 /\ v_route v2 = v_route v1 /\ v_pos v2 = v_pos v1 /\ v_pathfind v2 = v_pathfind v1) as (F1 & F2 & F3 & F4 & F5) by (rewrite Ek; cbn; auto).
    destruct (lc_fields _ _ _ (ph1 _ _ _ _ _ _ _ _ _ P)) as (_ & _ & E1 & _ & E2 & E3 & _).
    assert (Forall (fun c => valid (s_links s1) (cpl_link (cp_a c)) /\ valid (s_links s1) (cpl_link (cp_b c))) (s_conflicts s1)) as Cp.
    { rewrite E3. eapply Forall_impl; [|apply (i_cps _ I)]. simpl. intros c (Ha & Hb). split; apply (same_net_valid _ _ _ (pn1 _ _ _ _ _ _ _ _ _ P)); auto. }
    assert (spec_of v4 = spec_of v2) as F6 by (unfold spec_of; congruence).
    constructor.
    - exact R1.
    - congruence.
    - unfold v_destination. rewrite D6, F5. unfold body in B1. injection B1 as _ _ _ _ _ _ _ _ _ B1. exact B1.
    - congruence.
    - rewrite D9. unfold new_vel. rewrite F2, V1, D5. reflexivity.
    - rewrite D10, D9. unfold new_pos. rewrite F2, F4, V1. reflexivity.
    - intros D. pose proof (ph2 _ _ _ _ _ _ _ _ _ P) as H2. assert (s2 = s1) as E by (eapply acc_kept; [|exact H2]; congruence). rewrite E in G2. assert (v2 = v1) by congruence. subst v2. congruence.
    - intros D. rewrite <- E2 in D. destruct (acc_parts _ _ _ (ps1 _ _ _ _ _ _ _ _ _ P) Cp (ph2 _ _ _ _ _ _ _ _ _ P) D) as (links & vs & log1 & log & Pt).
      exists links, vs, log1, log. split; [exact Pt|]. rewrite D5. pose proof (pt_out _ _ _ _ _ _ _ Pt _ _ G1) as Go. rewrite G2 in Go. injection Go as ->. cbn. rewrite E1, A1. reflexivity.
  Qed.
End Drive.

Local Open Scope R_scope.
Section Queue.
  Variables L d : R.
  Variable lid : key.
  Hypothesis HL : 0 < L.
  Hypothesis Hd : 0 <= d.

  Definition queue (ks : list key) (s : @sim RA) : Prop :=
    (exists ops, history (@sim_new RA) ops s /\ Forall (one_limit L d) ops) /\ (forall k l, link_at s k = Some l -> 0 < (lk_length l : R)) /\ no_way_in s lid /\
    exists l, sm_get (s_links s) lid = Some l /\ lk_vehicles l = ks /\
      (forall k, In k ks -> exists v, sm_get (s_vehicles s) k = Some v /\ waits_well L d lid v) /\
      (forall k k2, right_behind l k k2 -> kept d k k2 s) /\ (forall k, first_on l k -> kept_line d lid k s).

  Lemma dr_bound e (s : @sim RA) (dt : R) s1 s2 k v v1 v4 (x : R) : driven e s dt s1 s2 k v v1 v4 -> 1 / 10 <= (s_acc_update s : R) ->
    (forall links vs log1 log, parts e s1 s2 links vs log1 log -> In (@EAcc RA k x) log) -> (acceleration v4 : R) <= Rmax x (-6).
  Proof.
    intros D Due Hin. destruct (dr_new _ _ _ _ _ _ _ _ _ D (due_R _ Due)) as (links & vs & log1 & log & P & Ea). specialize (Hin _ _ _ _ P).
    unfold acceleration, am_get. rewrite Ea. cbn [am_set_acc am_acc]. rewrite max_R. assert ((@MAX_DECEL RA : R) = -6) as -> by (unfold MAX_DECEL; unR; cbn; lra).
    destruct (key_mem k (s_frozen s)); [unfold Rmax; destruct Rle_dec; destruct Rle_dec; lra|].
    pose proof (log_acc_le_in RA_ord k (am_max (v_acc v)) x log Hin eq_refl) as B. apply leb_R in B. unfold Rmax. destruct Rle_dec; destruct Rle_dec; lra.
  Qed.
  Lemma dr_top e (s : @sim RA) (dt : R) s1 s2 k v v1 v4 : reachable s -> sm_get (s_vehicles s) k = Some v -> driven e s dt s1 s2 k v v1 v4 -> 0 <= (max_acc v : R) -> (acceleration v4 : R) <= max_acc v.
  Proof.
    intros Rc G D Pm. destruct (@nltb RA (s_acc_update s) ACCELERATION_UPDATE_SEC) eqn:Due.
    - unfold acceleration. rewrite (dr_keep _ _ _ _ _ _ _ _ _ D Due). exact (acc_high_R _ _ _ Rc G Pm).
    - destruct (dr_new _ _ _ _ _ _ _ _ _ D Due) as (links & vs & log1 & log & P & Ea). unfold acceleration, am_get, max_acc in *. rewrite Ea. cbn [am_set_acc am_acc]. rewrite max_R.
      assert ((@MAX_DECEL RA : R) = -6) as -> by (unfold MAX_DECEL; unR; cbn; lra). cbn in Pm.
      destruct (key_mem k (s_frozen s)); [unfold Rmax; destruct Rle_dec; lra|]. pose proof (log_acc_le RA_ord k (am_max (v_acc v)) log eq_refl) as B. apply leb_R in B. unfold Rmax. destruct Rle_dec; lra.
  Qed.

  Lemma right_behind_in (l : @link RA) k k2 : right_behind l k k2 -> In k (lk_vehicles l) /\ In k2 (lk_vehicles l).
  Proof. intros (pre & post & ->). split; apply in_or_app; right; [left|right; left]; reflexivity. Qed.
  Lemma first_on_in (l : @link RA) k : first_on l k -> In k (lk_vehicles l).
  Proof. intros (pre & ->). apply in_or_app; right; left; reflexivity. Qed.
  (** Every vehicle is the first one or has one in front of it. *)
  Lemma queue_ind (l : @link RA) (P : key -> Prop) : (forall k, first_on l k -> P k) -> (forall k k2, right_behind l k k2 -> P k2 -> P k) -> forall k, In k (lk_vehicles l) -> P k.
  Proof.
    unfold first_on, right_behind. generalize (lk_vehicles l) as ks. intros ks Hf Hb.
    assert (forall post pre, ks = pre ++ post -> forall k, In k post -> P k) as X.
    { induction post as [|a post IH]; intros pre E k Hin; [destruct Hin|]. assert (ks = (pre ++ [a]) ++ post) as E' by (rewrite <- app_assoc; exact E).
      destruct Hin as [<-|Hin]; [|exact (IH _ E' _ Hin)]. destruct post as [|b post]; [apply Hf; exists pre; exact E|].
      apply (Hb a b); [exists pre, post; exact E|]. apply (IH _ E'). left. reflexivity. }
    intros k Hin. exact (X ks [] eq_refl k Hin).
  Qed.

  Lemma queue_step ks e s o s' : queue ks s -> closed_end lid s \/ shut_end lid s /\ none_registered lid s -> short_step d o -> exec e s o = Ok s' -> queue ks s'.
  Proof.
    intros ((ops & Hh & Fo) & Pos & Nw & l & Gl & El & Wv & Pk & Lk) Ce So H. destruct o; try contradiction. cbn [short_step] in So. cbn [exec] in H.
    assert (@reachable RA s) as Rc by exact (history_reachable _ _ _ Hh (@reach_new RA)). pose proof (reachable_Inv _ Rc) as I.
    assert (forall k v, sm_get (s_vehicles s) k = Some v -> 0 <= (v_vel v : R) <= L) as Vl.
    { intros k v G. split; [exact (vel0_R _ _ _ Rc G)|]. apply (C10_speed_limit L d ops s k v); auto. }
    assert ((lk_limit l : R) = L) as Lim.
    { assert (tame_sim L d s) as (_ & Tl & _); [|exact (Tl _ _ Gl)]. eapply history_tame; eauto; [constructor|]. split; [simpl; unR; lra|]. split; intros k0 x0 G0; unfold link_at, vehicle_at in G0; simpl in G0; rewrite sm_get_empty in G0; discriminate G0. }
    destruct (step_phases _ _ _ _ I H) as (s1 & s2 & s3 & s4 & s5 & P). pose proof (ph1 _ _ _ _ _ _ _ _ _ P) as H1. pose proof (ps1 _ _ _ _ _ _ _ _ _ P) as St1.
    assert (sm_get (s_links s1) lid = Some l) as Gl1. { rewrite (lane_changes_other _ _ _ _ (i_st _ I) H1); [exact Gl|]. intros y. split; apply (Nw y). }
    assert (forall k, In k ks -> exists v, sm_get (s_vehicles s) k = Some v /\ v_link v = Some lid) as On.
    { intros k Hk. destruct (st_occ _ _ _ (i_st _ I) _ _ Gl) as (_ & Oc). rewrite <- El in Hk. apply Oc in Hk. unfold at_of in Hk. destruct (sm_get (s_vehicles s) k) as [v|]; [eauto|discriminate Hk]. }
    (* each vehicle on its own *)
    assert (forall k, In k ks -> exists v v1 v4, sm_get (s_vehicles s) k = Some v /\ sm_get (s_vehicles s1) k = Some v1 /\ sm_get (s_vehicles s4) k = Some v4 /\
      waits_well L d lid v /\ driven e s dt s1 s2 k v v1 v4 /\ v_link v1 = Some lid /\ v_pos v1 = v_pos v /\ v_half_len v1 = v_half_len v /\ v_vel v1 = v_vel v /\ v_acc v1 = v_acc v /\ v_entered v1 = 1%nat /\
      (v_vel v4 : R) = Rmax (v_vel v + dt * acceleration v4) 0 /\ (v_pos v4 : R) = v_pos v + (v_vel v + v_vel v4) / 2 * dt) as Dr.
    { intros k Hk. destruct (Wv k Hk) as (v & G & W). destruct (On k Hk) as (w & Gw & Lv). assert (w = v) by congruence. subst w. clear Gw.
      destruct (drive _ _ _ _ _ _ _ _ _ _ _ I P G) as (v1 & v4 & G1 & G4 & D). exists v, v1, v4. repeat (split; [assumption|]).
      destruct (dr_lc _ _ _ _ _ _ _ _ _ D) as (B1 & [(L1 & P1 & _)|(a & b & M1 & M2 & M3 & M4)] & Re).
      2: { exfalso. assert (a = lid) by congruence. subst a. exact (proj2 (proj2 (Nw b)) M3). }
      assert (v_link v1 = Some lid) as L1' by congruence. split; [exact L1'|]. split; [exact P1|]. pose proof (body_spec _ _ B1) as (Sb & Ba & Bv & _). unfold spec_of in Sb. injection Sb as _ Eh _ _ _ _. split; [exact Eh|]. split; [exact Bv|]. split; [exact Ba|].
      split.
      { pose proof (st_veh _ _ _ St1 _ _ G1) as Vb. pose proof (vb_ent _ _ _ _ Vb) as En. pose proof (vb_chain _ _ _ _ Vb) as Ch. destruct (v_entered v1) as [|[|n]] eqn:E1; [lia|reflexivity|exfalso].
        unfold v_link in L1'. destruct (v_route v1) as [|x [|y r]] eqn:Er; cbn [length] in En; [lia|lia|]. cbn in L1'. injection L1' as ->. cbn [chain] in Ch. destruct Ch as (_ & Sy & _).
        assert (succ_of (s_links s) lid y) as Sy'. { destruct Sy as (lx & Gx & Iy). destruct (same_net_get _ _ _ _ (pn1 _ _ _ _ _ _ _ _ _ P) Gx) as (l0 & G0 & Es). exists l0. split; [exact G0|]. unfold lk_static in Es. inversion Es. congruence. }
        assert (y <> lid) as Ny. { intros ->. exact (proj1 (Nw lid) Sy'). }
        destruct (Re y) as [Q|Q]; [rewrite E1, Er; cbn; auto|congruence|]. destruct W as (_ & _ & W1 & _). rewrite W1 in Q. unfold v_link in Lv. destruct (v_route v) as [|z r']; [discriminate Lv|]. cbn in Q, Lv. injection Lv as ->. destruct Q as [Q|[]]. congruence. }
      split; [rewrite (dr_vel _ _ _ _ _ _ _ _ _ D); unfold acceleration; apply max_R|]. rewrite (dr_pos _ _ _ _ _ _ _ _ _ D), P1, half_R. unR. lra. }
    (* the room in front of the first one *)
    assert (forall k v4, first_on l k -> sm_get (s_vehicles s4) k = Some v4 ->
      acceleration v4 = -6 /\ K (max_acc v4) (d / 2) 0 (v_vel v4) 0 (room_left l v4) \/
      exists r, 0 <= r /\ refresh_time d <= r + s_acc_update s' /\ K (max_acc v4) (d / 2) r (v_vel v4) 0 (room_left l v4)) as Front.
    { intros k v4 Hf G4. assert (In k ks) as Hk by (rewrite <- El; apply first_on_in; exact Hf). destruct (Dr k Hk) as (v & v1 & w4 & G & G1 & Gw & W & D & L1 & P1 & Eh1 & V1 & A1 & E1 & Ev & Ep). assert (w4 = v4) by congruence. subst w4. clear Gw.
      destruct (Lk k Hf) as (l0 & w & Q1 & Q2 & J). assert (w = v) by congruence. assert (l0 = l) by congruence. subst w l0. clear Q1 Q2.
      destruct W as (Cf & Wl & We & Wd & Far). pose proof (dr_spec _ _ _ _ _ _ _ _ _ D) as Sp. destruct (spec_parts _ _ Sp) as (Eh & _). destruct (Vl _ _ G) as (V0 & VL).
      assert (0 < (max_acc v : R)) as Pm by (destruct Cf as (Ca & _); lra).
      assert (room_left l v4 = room_left l v + (0 + 0) / 2 * dt - (v_vel v + v_vel v4) / 2 * dt) as ->. { unfold room_left, pos_front. rewrite Ep, Eh. unR. lra. }
      apply (room_gen L d e s dt s' v v4); auto; try lra.
      + apply (dr_top e s dt s1 s2 k v v1 v4); auto. lra.
      + intros Lt. exact (dr_keep _ _ _ _ _ _ _ _ _ D (not_due_R _ Lt)).
      + intros Due. destruct (nltb (pos_front v1) (nsub (lk_length l) (nmul (nofZ 5) (lk_limit l)))) eqn:Ne.
        * right. apply ltb_R in Ne. apply room_K. destruct Far as (F1 & F2). assert (5 * L < room_left l v) as Fr.
          { unfold room_left. assert (pos_front v1 = pos_front v) as <- by (unfold pos_front; rewrite P1, Eh1; reflexivity). revert Ne. rewrite Lim. unR. intros Ne. lra. }
          unfold room_to_react, refresh_time in *. split; [lra|]. set (t := 1 / 10 + d) in *. assert (0 < t) by (unfold t; lra).
          assert (v_vel v * t <= L * t) by (apply Rmult_le_compat_r; lra). assert (0 <= max_acc v * t) by (apply Rmult_le_pos; lra).
          assert ((v_vel v + max_acc v * t) * (v_vel v + max_acc v * t) <= (L + max_acc v * t) * (L + max_acc v * t)) by (apply Rmult_le_compat; lra).
          assert ((v_vel v + max_acc v * t) * d <= (L + max_acc v * t) * d) by (apply Rmult_le_compat_r; lra). lra.
        * left. assert (first_at_line s1 l k v1) as Fl.
          { destruct Hf as (bh & Eb). exists bh, []. split; [exact Eb|]. split; [intros ? []|]. split; [exact G1|]. split; [exact E1|exact Ne]. }
          assert ((acceleration v4 : R) <= Rmax (vx_stop_at_line v1 (nadd (lk_length l) n0)) (-6)) as B.
          { apply (dr_bound e s dt s1 s2 k v v1 v4); auto. intros links vs log1 log Pt. destruct (next_link v1) as [x|] eqn:Nx.
            - pose proof (st_veh _ _ _ St1 _ _ G1) as Vb. pose proof (vb_chain _ _ _ _ Vb) as Ch. assert (succ_of (s_links s) lid x) as Sx.
              { unfold next_link in Nx. rewrite E1 in Nx. unfold v_link in L1. destruct (v_route v1) as [|a [|b r]]; try discriminate Nx. cbn in Nx, L1. injection Nx as ->. injection L1 as ->. cbn [chain] in Ch. destruct Ch as (_ & (lx & Gx & Iy) & _).
                destruct (same_net_get _ _ _ _ (pn1 _ _ _ _ _ _ _ _ _ P) Gx) as (l0 & G0 & Es). exists l0. split; [exact G0|]. unfold lk_static in Es. inversion Es. congruence. }
              destruct (On k Hk) as (w & Gw & Lv). assert (w = v) by congruence. subst w. clear Gw.
              assert (exists lx, sm_get (s_links s) x = Some lx /\ (lk_control lx = CClosed \/ (exists dist m p, lk_control lx = CYield dist m p) /\ v_queued v1 = None)) as (lx & Gx & Cx).
              { destruct Ce as [Ce|(Ce & Nq)]; destruct (Ce x Sx) as (lx & Gx & Cx); exists lx; (split; [exact Gx|]); [left; exact Cx|]. destruct Cx as [Cx|(dist & m & p & Cx & _)]; [left; exact Cx|right].
                split; [eauto|]. rewrite (body_queued v v1); [exact (Nq k v G Lv)|]. exact (proj1 (dr_lc _ _ _ _ _ _ _ _ _ D)). }
              pose proof (lane_changes_ctl _ _ _ x H1) as Ct. unfold ctl, link_at in *. rewrite Gx in Ct. destruct (sm_get (s_links s1) x) as [lx1|] eqn:Gx1; [|discriminate Ct]. cbn [option_map] in Ct. injection Ct as Ct.
              destruct (line_result _ _ _ _ _ _ _ _ _ _ _ _ _ St1 Pt Gl1 Fl Nx Gx1) as (X & _). apply X. unfold must_wait. rewrite Ct. destruct Cx as [Cx|((dist & m & p & Cx) & Q1)]; [left; exact Cx|right]. exists dist, m, p. split; [exact Cx|]. left. exact Q1.
            - apply (end_result _ _ _ _ _ _ _ _ _ _ _ St1 Pt Gl1 Fl Nx). destruct (v_can_exit v1) eqn:Cx; [exfalso|reflexivity].
              assert (v_route v1 = [lid]) as Er. { unfold next_link in Nx. rewrite E1 in Nx. unfold v_link in L1. destruct (v_route v1) as [|a [|b r]]; try discriminate Nx; try discriminate L1. cbn in L1. injection L1 as ->. reflexivity. }
              destruct (list_eq_dec key_eq_dec (v_route v1) (v_route v)) as [Eq|Ne'].
              + destruct (lane_changes_exact _ _ _ _ _ (i_st _ I) H1 G1) as (v0 & G0 & C). assert (v0 = v) by congruence. subst v0.
                assert (v_destination v = lid) as X; [|contradiction].
                destruct C as [(_ & E0)|(_ & C)].
                * rewrite E0 in *. pose proof (C34_only_at_destination RA s k v Rc G Cx) as X. rewrite Er in X. symmetry. exact X.
                * destruct (chosen_exit _ _ _ _ (proj1 (reachable_exits s Rc k v G)) C) as (Ed & [(E0 & _)|Dd]).
                  -- rewrite E0 in *. pose proof (C34_only_at_destination RA s k v Rc G Cx) as X. rewrite Er in X. symmetry. exact X.
                  -- rewrite Ed in Dd. apply Dd in Cx. rewrite Er in Cx. symmetry. exact Cx.
              + pose proof (proj1 (C34_new_path RA e s s1 k v v1 Rc H1 G G1 Ne') Cx) as X. rewrite Er in X. cbn [last] in X. congruence. }
          unfold vx_stop_at_line, x_stop_at_line in B.
          assert (nsub (nadd (lk_length l) n0) (pos_front v1) = room_left l v) as E. { unfold room_left, pos_front, n0. rewrite P1, Eh1. unR. lra. }
          rewrite E, V1, A1 in B. exact B. }
    (* the room in front of the others *)
    assert (forall k k2 v4 v24, right_behind l k k2 -> sm_get (s_vehicles s4) k = Some v4 -> sm_get (s_vehicles s4) k2 = Some v24 ->
      acceleration v4 = -6 /\ K (max_acc v4) (d / 2) 0 (v_vel v4) (v_vel v24) (gap v4 v24) \/
      exists r, 0 <= r /\ refresh_time d <= r + s_acc_update s' /\ K (max_acc v4) (d / 2) r (v_vel v4) (v_vel v24) (gap v4 v24)) as Pair.
    { intros k k2 v4 v24 Hb G4 G24. destruct (right_behind_in _ _ _ Hb) as (Hk & Hk2). rewrite El in Hk, Hk2.
      destruct (Dr k Hk) as (v & v1 & w4 & G & G1 & Gw & W & D & L1 & P1 & Eh1 & V1 & A1 & E1 & Ev & Ep). assert (w4 = v4) by congruence. subst w4. clear Gw.
      destruct (Dr k2 Hk2) as (v2 & v21 & w4 & G2 & G21 & Gw & W2 & D2 & L21 & P21 & Eh21 & V21 & A21 & E21 & Ev2 & Ep2). assert (w4 = v24) by congruence. subst w4. clear Gw.
      destruct (Pk k k2 Hb) as (w & w2 & Q1 & Q2 & J). assert (w = v) by congruence. assert (w2 = v2) by congruence. subst w w2. clear Q1 Q2.
      destruct W as (Cf & Wl & We & Wd & Far). destruct (spec_parts _ _ (dr_spec _ _ _ _ _ _ _ _ _ D)) as (Eh & _). destruct (spec_parts _ _ (dr_spec _ _ _ _ _ _ _ _ _ D2)) as (Eh2 & _). destruct (Vl _ _ G) as (V0 & VL).
      assert (0 < (max_acc v : R)) as Pm by (destruct Cf as (Ca & _); lra).
      assert (gap v4 v24 = gap v v2 + (v_vel v2 + v_vel v24) / 2 * dt - (v_vel v + v_vel v4) / 2 * dt) as ->.
      { unfold gap, pos_rear, pos_front. rewrite Ep, Ep2, Eh, Eh2. unR. lra. }
      apply (room_gen L d e s dt s' v v4); auto.
      + exact (dr_spec _ _ _ _ _ _ _ _ _ D).
      + apply (dr_top e s dt s1 s2 k v v1 v4); auto. lra.
      + intros Lt. exact (dr_keep _ _ _ _ _ _ _ _ _ D (not_due_R _ Lt)).
      + apply (Vl _ _ G2).
      + rewrite Ev2. apply Rmax_r.
      + rewrite Ev2. pose proof (acc_low_R v24) as Al. assert (dt * -6 <= dt * acceleration v24) by (apply Rmult_le_compat_l; lra). eapply Rle_trans; [|apply Rmax_l]. lra.
      + intros Due. left. destruct Hb as (pre & post & Eb).
        assert ((acceleration v4 : R) <= Rmax (vx_follow_vehicle v1 (pos_rear v21) (v_vel v21)) (-6)) as B.
        { apply (dr_bound e s dt s1 s2 k v v1 v4); auto. intros links vs log1 log Pt. apply (parts_follow _ _ _ _ _ _ _ lid l pre k k2 post v1 v21 Pt); auto. }
        unfold vx_follow_vehicle, x_follow_vehicle in B.
        assert (nsub (pos_rear v21) (pos_front v1) = gap v v2) as E. { unfold gap, pos_rear, pos_front. rewrite P1, Eh1, P21, Eh21. reflexivity. }
        rewrite E, V21, V1, A1 in B. exact B. }
    (* so none of them passes the end of the link *)
    assert (forall k, In k ks -> forall v4, sm_get (s_vehicles s4) k = Some v4 -> v_pos v4 < lk_length l /\ 0 < v_half_len v4) as Ends.
    { intros k Hk. rewrite <- El in Hk. revert k Hk.
      assert (forall k, In k (lk_vehicles l) -> forall v4, sm_get (s_vehicles s4) k = Some v4 -> 0 < v_half_len v4) as Half.
      { intros k Hk v4 G4. rewrite El in Hk. destruct (Dr k Hk) as (v & v1 & w4 & _ & _ & Gw & W & D & _). assert (w4 = v4) by congruence. subst w4. destruct (spec_parts _ _ (dr_spec _ _ _ _ _ _ _ _ _ D)) as (Eh & _). rewrite Eh. apply W. }
      apply (queue_ind l (fun k => forall v4, sm_get (s_vehicles s4) k = Some v4 -> v_pos v4 < lk_length l /\ 0 < v_half_len v4)).
      - intros k Hf v4 G4. pose proof (Half k (first_on_in _ _ Hf) _ G4) as Hl. split; [|exact Hl]. assert (0 <= room_left l v4) as X by (destruct (Front k v4 Hf G4) as [(_ & X & _)|(r & _ & _ & X & _)]; exact X).
        unfold room_left, pos_front in X. revert X. unR. intros X. lra.
      - intros k k2 Hb IH v4 G4. destruct (right_behind_in _ _ _ Hb) as (Hk & Hk2). pose proof (Half k Hk _ G4) as Hl. split; [|exact Hl].
        assert (exists v24, sm_get (s_vehicles s4) k2 = Some v24) as (v24 & G24). { rewrite El in Hk2. destruct (Dr k2 Hk2) as (? & ? & w4 & _ & _ & Gw & _). eauto. }
        destruct (IH _ G24) as (X2 & X3). assert (0 <= gap v4 v24) as X by (destruct (Pair k k2 v4 v24 Hb G4 G24) as [(_ & X & _)|(r & _ & _ & X & _)]; exact X).
        unfold gap, pos_rear, pos_front in X. revert X. unR. intros X. lra. }
    (* hence all of them stay, and nobody else comes *)
    assert (same_net (s_links s) (s_links s4)) as Sn4. { rewrite (pn4 _ _ _ _ _ _ _ _ _ P). eapply same_net_trans; [apply P|]. eapply same_net_trans; apply P. }
    assert (exists l4, sm_get (s_links s4) lid = Some l4 /\ lk_vehicles l4 = ks /\ lk_length l4 = lk_length l) as (l4 & Gl4 & El4 & Len4).
    { assert (valid (s_links s4) lid) as V4 by (apply (same_net_valid _ _ _ Sn4); apply sm_mem_get; eauto). unfold valid in V4. apply sm_mem_get in V4. destruct V4 as (l4 & Gl4). exists l4. split; [exact Gl4|].
      destruct (same_net_get _ _ _ _ Sn4 Gl4) as (l0 & G0 & Es). assert (l0 = l) by congruence. subst l0. split; [|unfold lk_static in Es; inversion Es; unfold lk_length; congruence].
      pose proof (plv12 _ _ _ _ _ _ _ _ _ P lid) as L12. pose proof (plv23 _ _ _ _ _ _ _ _ _ P lid) as L23. rewrite (pn4 _ _ _ _ _ _ _ _ _ P) in Gl4. rewrite Gl4 in L23. rewrite L23 in L12. rewrite Gl1 in L12. injection L12 as <-. exact El. }
    destruct (ph6 _ _ _ _ _ _ _ _ _ P) as (s6 & H6 & Es'). destruct (coords_evo _ _ H6) as (C1 & C2 & C3 & E6).
    assert (sm_get (s_links s') lid = Some l4) as Gl'.
    { assert (s_links s' = s_links s5) as -> by (rewrite Es', E6; reflexivity).
      apply (advance_other e s4 s5 (s_seq s4) lid l4 (ps4 _ _ _ _ _ _ _ _ _ P) (ph5 _ _ _ _ _ _ _ _ _ P) Gl4).
      - intros y (ly & Gy & Iy). destruct (same_net_get _ _ _ _ Sn4 Gy) as (l0 & G0 & Es). apply (proj1 (Nw y)). exists l0. split; [exact G0|]. unfold lk_static in Es. inversion Es. congruence.
      - intros k w Gw Lw. destruct (st_occ _ _ _ (ps4 _ _ _ _ _ _ _ _ _ P) _ _ Gl4) as (_ & Oc). assert (In k ks) as Hk. { rewrite <- El4. apply Oc. unfold at_of. rewrite Gw. exact Lw. }
        apply ltb_R_false. rewrite Len4. destruct (Ends k Hk w Gw) as (X & _). lra. }
    destruct (step_vehicles _ _ _ _ I H) as (_ & s4' & H4' & _ & _ & _ & _ & Sv). assert (s4' = s4) by (pose proof (ph_pre _ _ _ _ _ _ _ _ _ P); congruence). subst s4'. clear H4'.
    assert (forall k, In k ks -> exists v4 v', sm_get (s_vehicles s4) k = Some v4 /\ sm_get (s_vehicles s') k = Some v' /\ body v' = body v4 /\ v_pos v' = v_pos v4 /\ v_route v' = v_route v4) as Stay.
    { intros k Hk. destruct (Dr k Hk) as (v & v1 & v4 & G & G1 & G4 & W & D & L1 & _). exists v4. destruct (Sv _ _ G4) as (v5 & (ld & lx & La & Lb & Rv) & Fate).
      assert (v_link v4 = Some lid) as L4 by (unfold v_link in *; rewrite (dr_route _ _ _ _ _ _ _ _ _ D); exact L1). assert (ld = lid) by congruence. subst ld. assert (lx = l4) by congruence. subst lx.
      destruct Rv as [(_ & ->)|(Lt & _)].
      2: { exfalso. apply ltb_R in Lt. rewrite Len4 in Lt. destruct (Ends k Hk v4 G4) as (X & _). lra. }
      destruct Fate as [(E0 & _)|(_ & v' & G' & B6 & _ & P6 & R6 & _)]; [exfalso; unfold v_link in L4; rewrite E0 in L4; discriminate L4|]. exists v'. auto. }
    assert (@reachable RA s') as Rc' by exact (reach_call e s (@OStep RA dt) s' Rc H).
    assert (forall (v4 v' : @vehicle RA), body v' = body v4 -> v_pos v' = v_pos v4 -> acceleration v' = acceleration v4 /\ max_acc v' = max_acc v4 /\ v_vel v' = v_vel v4 /\ pos_front v' = pos_front v4 /\ pos_rear v' = pos_rear v4) as Same.
    { intros v4 v' B Pp. unfold body in B. injection B as B1 B2 B3 B4 B5 B6 B7 B8 B9 B10. unfold acceleration, max_acc, pos_front, pos_rear. rewrite B3, B5, B6, Pp. auto. }
    split; [|split; [|split]].
    - exists (ops ++ [@OStep RA dt]). split; [eapply history_app; [exact Hh|econstructor; [exact H|constructor]]|]. apply Forall_app. split; [exact Fo|]. constructor; [exact So|constructor].
    - intros k x Gx. destruct (same_net_get _ _ _ _ (step_same_net _ _ _ _ I H) Gx) as (l0 & G0 & Es). specialize (Pos k l0 G0). unfold lk_static in Es. inversion Es. unfold lk_length in *. congruence.
    - assert (forall y, succ_of (s_links s') y lid -> succ_of (s_links s) y lid) as X1.
      { intros y (ly & Gy & Iy). destruct (same_net_get _ _ _ _ (step_same_net _ _ _ _ I H) Gy) as (l0 & G0 & Es). exists l0. split; [exact G0|]. unfold lk_static in Es. inversion Es. congruence. }
      assert (forall a b, chg_of (s_links s') a b -> chg_of (s_links s) a b) as X2.
      { intros a b (ly & Gy & Iy). destruct (same_net_get _ _ _ _ (step_same_net _ _ _ _ I H) Gy) as (l0 & G0 & Es). exists l0. split; [exact G0|]. unfold lk_static in Es. inversion Es. congruence. }
      intros x. destruct (Nw x) as (N1 & N2 & N3). split; [|split]; intros Q; [apply N1|apply N2|apply N3]; auto.
    - exists l4. split; [exact Gl'|]. split; [exact El4|]. split; [|split].
      + intros k Hk. destruct (Stay k Hk) as (v4 & v' & G4 & G' & B & Pp & Er). exists v'. split; [exact G'|]. destruct (Dr k Hk) as (v & v1 & w4 & G & G1 & Gw & W & D & L1 & _). assert (w4 = v4) by congruence. subst w4. clear Gw.
        assert (spec_of v' = spec_of v) as Sp. { rewrite <- (dr_spec _ _ _ _ _ _ _ _ _ D). apply (body_spec _ _ B). }
        destruct (spec_parts _ _ Sp) as (Eh & _ & Em & _). destruct W as (W1 & W2 & W3 & W4 & W5). split; [apply (careful_same _ _ v); auto|]. split; [rewrite Eh; exact W2|]. split; [|split; [|rewrite Em; exact W5]].
        * pose proof (st_veh _ _ _ (i_st _ (reachable_Inv _ Rc')) _ _ G') as Vb. pose proof (vb_ent _ _ _ _ Vb) as En. pose proof (vb_chain _ _ _ _ Vb) as Ch. destruct (v_entered v') as [|[|n]] eqn:E1; [lia|reflexivity|exfalso].
          assert (v_link v' = Some lid) as L'. { unfold v_link in *. rewrite Er, (dr_route _ _ _ _ _ _ _ _ _ D). exact L1. }
          pose proof L' as L0. unfold v_link in L'. destruct (v_route v') as [|x [|y r]] eqn:Err; cbn [length] in En; [lia|lia|]. cbn in L'. injection L' as ->. cbn [chain] in Ch. destruct Ch as (_ & Sy & _).
          assert (succ_of (s_links s) lid y) as Sy'. { destruct Sy as (lx & Gx & Iy). destruct (same_net_get _ _ _ _ (step_same_net _ _ _ _ I H) Gx) as (l0 & G0 & Es). exists l0. split; [exact G0|]. unfold lk_static in Es. inversion Es. congruence. }
          assert (y <> lid) as Ny. { intros ->. exact (proj1 (Nw lid) Sy'). }
          destruct (C23_entered RA e s dt s' k v' y Rc (C23_lengths_exact s Pos) H G') as (t1 & w & w1 & Gw & Ht & Gw1 & Q); [unfold entered_links; rewrite E1, Err; cbn; auto|].
          assert (t1 = s1) by congruence. subst t1. unfold vehicle_at in *. assert (w1 = v1) by congruence. assert (w = v) by congruence. subst w w1.
          destruct Q as [Q|[Q|[Q|(_ & Q)]]]; [congruence|congruence| |].
          -- unfold entered_links in Q. rewrite W3 in Q. destruct (On k Hk) as (w & Gw' & Lv). assert (w = v) by congruence. subst w. unfold v_link in Lv. destruct (v_route v) as [|z r']; [discriminate Lv|]. cbn in Q, Lv. injection Lv as ->. destruct Q as [Q|[]]. congruence.
          -- destruct Q as (ly & Gy & Q). destruct (On k Hk) as (w & Gw' & Lv). assert (w = v) by congruence. subst w. clear Gw'.
             assert (exists lx, sm_get (s_links s) y = Some lx /\ (lk_control lx = CClosed \/ (exists dist m p, lk_control lx = CYield dist m p) /\ v_queued v1 = None)) as (lx & Gx & Cx).
             { destruct Ce as [Ce|(Ce & Nq)]; destruct (Ce y Sy') as (lx & Gx & Cx); exists lx; (split; [exact Gx|]); [left; exact Cx|]. destruct Cx as [Cx|(dist & m & p & Cx & _)]; [left; exact Cx|right].
               split; [eauto|]. rewrite (body_queued v v1); [exact (Nq k v G Lv)|]. exact (proj1 (dr_lc _ _ _ _ _ _ _ _ _ D)). }
             pose proof (lane_changes_ctl _ _ _ y H1) as Ct. unfold ctl, link_at in *. rewrite Gx, Gy in Ct. cbn [option_map] in Ct. injection Ct as Ct.
             destruct Cx as [Cx|((dist & m & p & Cx) & Q1)]; destruct Q as [Q|(? & ? & ? & ? & ? & ? & ? & Q & Q2 & _)]; congruence.
        * rewrite <- (dr_dst _ _ _ _ _ _ _ _ _ D) in W4. unfold v_destination in *. unfold body in B. injection B as _ _ _ _ _ _ _ _ _ B. congruence.
      + intros k k2 Hb. assert (right_behind l k k2) as Hb' by (unfold right_behind in *; rewrite El, <- El4; exact Hb). destruct (right_behind_in _ _ _ Hb') as (Hk & Hk2). rewrite El in Hk, Hk2.
        destruct (Stay k Hk) as (v4 & v' & G4 & G' & B & Pp & _). destruct (Stay k2 Hk2) as (v24 & v2' & G24 & G2' & B2 & Pp2 & _). exists v', v2'. split; [exact G'|]. split; [exact G2'|].
        destruct (Same _ _ B Pp) as (-> & -> & -> & Ef & _). destruct (Same _ _ B2 Pp2) as (_ & _ & -> & _ & Er). unfold gap. rewrite Ef, Er. apply (Pair k k2 v4 v24); auto.
      + intros k Hf. assert (first_on l k) as Hf' by (unfold first_on in *; rewrite El, <- El4; exact Hf). pose proof (first_on_in _ _ Hf') as Hk. rewrite El in Hk.
        destruct (Stay k Hk) as (v4 & v' & G4 & G' & B & Pp & _). exists l4, v'. split; [exact Gl'|]. split; [exact G'|]. destruct (Same _ _ B Pp) as (-> & -> & -> & Ef & _). unfold room_left. rewrite Ef, Len4. apply (Front k v4); auto.
  Qed.
End Queue.
