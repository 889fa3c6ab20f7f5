(** * C87: what is taken back leaves no trace *)
From Coq Require Import List Bool ZArith NArith Arith Lia.
From Verif Require Import Arith F64 Base BaseProofs SlotMap SlotMapProofs Util Geom Light Accel Net Path Vehicle LinkOps Sim SimExample SpecSim SpecLocal SpecUndo Safe SimInv OpSafe SimProofs Evo StepEvo LocElse LocStep LocCall P_Local P_Motion.
Import ListNotations.

Section P_Undo.
  Context {A : Arith}.
  Let all (_ : key) : bool := true.

  Lemma separate_all s : separate all s.
  Proof. split; intros; [reflexivity..|right; reflexivity]. Qed.
  Lemma vehicle_on_all s k : Inv s -> vehicle_on all s k = vehicle_at s k.
  Proof.
    intros Hi. unfold vehicle_on, vehicle_at. destruct (sm_get (s_vehicles s) k) as [v|] eqn:G; [|reflexivity]. destruct (vbase_link _ _ _ _ (st_veh _ _ _ (i_st _ Hi) _ _ G)) as (lid & L & _). unfold on_part. rewrite L. reflexivity.
  Qed.
  Lemma same_links_all s t : same_part all s t -> forall k, sm_get (s_links s) k = sm_get (s_links t) k.
  Proof. intros P k. exact (sp_links _ _ _ P k eq_refl). Qed.
  Lemma same_vehicles_all s t : Inv s -> Inv t -> same_part all s t -> forall k, option_map unnumbered (vehicle_at s k) = option_map unnumbered (vehicle_at t k).
  Proof. intros Hs Ht P k. rewrite <- (vehicle_on_all s k Hs), <- (vehicle_on_all t k Ht). exact (sp_vehicles _ _ _ P k). Qed.
  Lemma same_looks s t : Inv s -> Inv t -> same_part all s t -> s_frame s = s_frame t -> looks_same s t.
  Proof.
    intros Hs Ht P F. split; [exact (same_links_all _ _ P)|exact (same_vehicles_all _ _ Hs Ht P)| | |exact F].
    - intros k Hv. rewrite <- (vehicle_on_all s k Hs) in Hv. destruct (vehicle_on all s k) as [v|] eqn:E; [|congruence]. exact (sp_frozen _ _ _ P k v E).
    - intros k l Hl. apply (sp_lights _ _ _ P). unfold light_on_part. destruct (l_mlinks l); [congruence|reflexivity].
  Qed.

  (** A call about a vehicle that is not there. *)
  Lemma frozen_nobody s t v b : Inv s -> Inv t -> same_part all s t -> vehicle_at s v = None -> same_part all (set_vehicle_frozen s v b) (set_vehicle_frozen t v b).
  Proof.
    intros Hs Ht [P1 P2 P3 P4 P5 P6 P7 P8] Hv.
    assert (forall s x c, vehicle_on all (set_vehicle_frozen s v c) x = vehicle_on all s x) as V by (intros s0 x c; unfold set_vehicle_frozen; destruct c, (position _ (s_frozen s0)); reflexivity).
    assert (forall s c, s_links (set_vehicle_frozen s v c) = s_links s /\ s_conflicts (set_vehicle_frozen s v c) = s_conflicts s /\ s_lights (set_vehicle_frozen s v c) = s_lights s /\ s_acc_update (set_vehicle_frozen s v c) = s_acc_update s /\ s_lc_update (set_vehicle_frozen s v c) = s_lc_update s) as W by (intros s0 c; unfold set_vehicle_frozen; destruct c, (position _ (s_frozen s0)); repeat split; reflexivity).
    destruct (W s b) as (A1 & A2 & A3 & A4 & A5). destruct (W t b) as (B1 & B2 & B3 & B4 & B5).
    split; rewrite ?A1, ?A2, ?A3, ?A4, ?A5, ?B1, ?B2, ?B3, ?B4, ?B5; auto; intros *; rewrite ?V; eauto.
    intros Gv. rewrite !frozen_after by (apply i_frozen; assumption). destruct (key_eqb_spec v k) as [<-|]; [reflexivity|exact (P4 _ _ Gv)].
  Qed.

  (** One further call. *)
  Lemma call_all e1 e2 s t o s' t' : Inv s -> Inv t -> same_part all s t -> same_ties all e1 e2 -> adds_nothing o -> exec e1 s o = Ok s' -> exec e2 t o = Ok t' -> same_part all s' t'.
  Proof.
    intros Hs Ht P Ti Ho H1 H2.
    assert (forall v, vehicle_at s v = None <-> vehicle_at t v = None) as Both.
    { intros v. pose proof (same_vehicles_all _ _ Hs Ht P v) as E. destruct (vehicle_at s v), (vehicle_at t v); cbn in E; split; congruence. }
    assert (concerns all s o -> concerns all t o -> same_part all s' t') as K by (intros C1 C2; exact (LocCall.call_same all e1 e2 s t o s' t' Hs Ht (separate_all s) (separate_all t) P Ti C1 C2 H1 H2)).
    destruct o as [c lim|ids m|a b|a b|calls|a l|v|f|v b|v d|l c|v l d|dt]; try destruct Ho; cbn [concerns] in K; rewrite ?(vehicle_on_all s _ Hs), ?(vehicle_on_all t _ Ht) in K.
    - destruct (vehicle_at s v) as [x|] eqn:E; [apply K; [discriminate|]|].
      + intros E2. apply Both in E2. congruence.
      + assert (vehicle_at t v = None) as E2 by (apply Both; exact E). cbn [exec] in H1, H2. unfold sim_remove_vehicle in H1, H2. unfold vehicle_at in E, E2. rewrite E in H1. rewrite E2 in H2. injection H1 as <-. injection H2 as <-. exact P.
    - apply K; exact Logic.I.
    - destruct (vehicle_at s v) as [x|] eqn:E; [apply K; [discriminate|]|].
      + intros E2. apply Both in E2. congruence.
      + cbn [exec] in H1, H2. injection H1 as <-. injection H2 as <-. exact (frozen_nobody s t v b Hs Ht P E).
    - assert (vehicle_at s v <> None) as E. { cbn [exec] in H1. unfold set_vehicle_destination in H1. bok H1 x Hx. unfold get_vehicle in Hx. apply of_option_ok in Hx. unfold vehicle_at. rewrite Hx. discriminate. }
      apply K; (split; [|right; reflexivity]); [exact E|]. intros E2. apply Both in E2. exact (E E2).
    - apply K; reflexivity.
    - assert (vehicle_at s v <> None) as E. { cbn [exec] in H1. unfold do_lane_change in H1. bok H1 x Hx. unfold get_vehicle in Hx. apply of_option_ok in Hx. unfold vehicle_at. rewrite Hx. discriminate. }
      apply K; (split; [|reflexivity]); [exact E|]. intros E2. apply Both in E2. exact (E E2).
    - apply K; exact Logic.I.
  Qed.
  Lemma ties_all e1 e2 : ties_by_links e1 e2 -> same_ties all e1 e2.
  Proof. intros T a b src dst n Hk _. apply T. intros k. apply Hk. reflexivity. Qed.
  Lemma runs_all e1 e2 ops : ties_by_links e1 e2 -> List.Forall adds_nothing ops -> forall s t s' t', Inv s -> Inv t -> same_part all s t -> s_frame s = s_frame t -> run e1 s ops = Ok s' -> run e2 t ops = Ok t' ->
    same_part all s' t' /\ s_frame s' = s_frame t' /\ Inv s' /\ Inv t'.
  Proof.
    intros Ti F. induction F as [|o ops Ho F IH]; intros s t s' t' Hs Ht P Fr H1 H2; cbn [run] in H1, H2; [injection H1 as <-; injection H2 as <-; auto|].
    bok H1 s1 E1. bok H2 t1 E2. refine (IH s1 t1 s' t' (exec_Inv _ _ _ _ Hs E1) (exec_Inv _ _ _ _ Ht E2) (call_all e1 e2 s t o s1 t1 Hs Ht P (ties_all _ _ Ti) Ho E1 E2) _ H1 H2).
    rewrite (exec_frame _ _ _ _ Hs E1), (exec_frame _ _ _ _ Ht E2). rewrite Fr. reflexivity.
  Qed.

  Lemma remove_insert (id : key) i (l : list key) : ~ In id l -> match rposition (fun k => key_eqb k id) (insert_at i id l) with Some j => remove_at j (insert_at i id l) | None => insert_at i id l end = l.
  Proof.
    intros N. unfold insert_at. assert (~ In id (firstn i l)) as N1 by (intros Hi; apply N; rewrite <- (firstn_skipn i l); apply in_or_app; left; exact Hi). assert (~ In id (skipn i l)) as N2 by (intros Hi; apply N; rewrite <- (firstn_skipn i l); apply in_or_app; right; exact Hi).
    transitivity (firstn i l ++ skipn i l); [|apply firstn_skipn]. clear N. revert N1 N2. generalize (firstn i l) (skipn i l). clear. intros a b Na Nb.
    assert (forall x, ~ In id x -> rposition (fun k => key_eqb k id) x = None) as Z.
    { intros x Nx. destruct (rposition _ x) as [j|] eqn:E; [|reflexivity]. exfalso. apply rposition_some in E. destruct E as (y & Hy & Ey). apply key_eqb_eq in Ey. subst y. apply Nx. exact (nth_error_In _ _ Hy). }
    assert (rposition (fun k => key_eqb k id) (a ++ id :: b) = Some (length a)) as ->.
    { clear Na. induction a as [|y a IH]; cbn [app rposition length]; [rewrite (Z b Nb), key_eqb_refl; reflexivity|]. rewrite IH. reflexivity. }
    unfold remove_at. rewrite firstn_app, Nat.sub_diag, firstn_all. cbn [firstn]. rewrite app_nil_r. f_equal.
    rewrite skipn_app. rewrite skipn_all2 by lia. replace (S (length a) - length a) with 1 by lia. reflexivity.
  Qed.
  Lemma same_refl s : same_part all s s.
  Proof.
    split; try reflexivity. intros k1 k2 v1 v2 w1 w2 a1 a2 b1 b2 H1 H2 H3 H4 E1 E2 E3 E4. assert (v1 = w1 /\ v2 = w2) as (-> & ->) by (split; congruence). assert (a1 = b1 /\ a2 = b2) as (-> & ->) by (split; congruence). reflexivity.
  Qed.
  Lemma same_sims s t : (forall k, sm_get (s_links s) k = sm_get (s_links t) k) -> (forall k, sm_get (s_vehicles s) k = sm_get (s_vehicles t) k) ->
    (forall k, get_vehicle_frozen s k = get_vehicle_frozen t k) -> s_conflicts s = s_conflicts t -> s_lights s = s_lights t -> s_acc_update s = s_acc_update t -> s_lc_update s = s_lc_update t -> same_part all s t.
  Proof.
    intros H1 H2 H3 H4 H5 H6 H7. destruct (same_refl s) as [Q1 Q2 Q3 Q4 Q5 Q6 Q7 Q8].
    assert (forall k, vehicle_on all t k = vehicle_on all s k) as V by (intros k; unfold vehicle_on; rewrite H2; reflexivity).
    split; auto; try (intros *; rewrite ?V; eauto; fail); [rewrite H4|rewrite H5]; reflexivity.
  Qed.

  Lemma undo_same e s u s2 : Inv s -> taken_back s u -> run e s u = Ok s2 -> same_part all s s2 /\ s_frame s = s_frame s2.
  Proof.
    intros Hi Ht H. destruct Ht as [a l id Hid|v b Hb|k l c Hl].
    - cbn [run] in H. bok H s1 H1. bok H s2' H2. injection H as ->. pose proof (exec_Inv _ _ _ _ Hi H1) as Hi1. cbn [exec] in H1, H2. bok H1 r Hr. injection H1 as <-. destruct r as (s1, id1). cbn [fst] in *. rewrite <- (Hid _ _ _ Hr) in H2. clear Hid id.
      pose proof (add_vehicle_ok _ _ _ _ _ _ Hr) as (_ & v1 & Ev & (Lv & _)). unfold add_vehicle in Hr. bok Hr v Hv. bok Hr v1' Hv1. bok Hr links Hk. injection Hr as <- <-. cbn [with_links with_vehicles s_vehicles] in Ev. set (id := sm_next_key (s_vehicles s)) in *.
      pose proof (st_wf _ _ _ (i_st _ Hi)) as Wf.
      assert (forall k, sm_get (sm_insert (s_vehicles s) v1') k = if key_eqb id k then Some v1' else sm_get (s_vehicles s) k) as G1 by (intros k; apply sm_get_insert; exact Wf).
      assert (v1' = v1) as ->. { pose proof (G1 id) as E. rewrite Ev, (sm_get_insert _ _ _ Wf) in E. fold id in E. rewrite key_eqb_refl in E. congruence. }
      assert (v_id v1 = id) as Iv. { apply (vb_id _ _ _ _ (st_veh _ _ _ (i_st _ Hi1) id v1 ltac:(cbn [with_links with_vehicles s_vehicles]; rewrite G1, key_eqb_refl; reflexivity))). }
      unfold sim_remove_vehicle in H2. cbn [with_links with_vehicles s_vehicles s_links] in H2. rewrite G1, key_eqb_refl, Lv, Iv in H2. bok H2 links2 Hk2. injection H2 as <-.
      unfold upd_link in Hk, Hk2. bok Hk x Hx. bok Hk y Hy. injection Hk as <-. bok Hk2 z Hz. cbn [bind] in Hk2. injection Hk2 as <-. unfold get_link in Hx, Hz. apply of_option_ok in Hx. apply of_option_ok in Hz.
      assert (sm_mem (s_links s) l = true) as M by (apply sm_mem_get; eauto). rewrite sm_get_set, key_eqb_refl, M in Hz. cbn [andb] in Hz. injection Hz as <-.
      unfold insert_vehicle in Hy. bok Hy w Hw. bok Hy i Hidx. injection Hy as <-.
      assert (remove_vehicle id (set_vehicles x (insert_at i id (lk_vehicles x))) = x) as Ex.
      { assert (~ In id (lk_vehicles x)) as Nx. { intros Hin. destruct (st_occ _ _ _ (i_st _ Hi) _ _ Hx) as (_ & O). apply O in Hin. unfold at_of, id in Hin. rewrite next_key_fresh in Hin by exact Wf. discriminate Hin. }
        pose proof (remove_insert id i (lk_vehicles x) Nx) as E. unfold remove_vehicle. cbn [set_vehicles lk_vehicles]. destruct (rposition _ _) as [j|]; cbn [set_vehicles lk_vehicles]; rewrite E; destruct x; reflexivity. }
      rewrite Ex. split; [|reflexivity]. apply same_sims; try reflexivity.
      + intros k. cbn [with_links with_vehicles s_links]. rewrite sm_get_set, sm_mem_set, M, andb_true_r, sm_get_set, M, andb_true_r. destruct (key_eqb_spec l k) as [<-|]; [exact Hx|reflexivity].
      + intros k. cbn [with_links with_vehicles s_vehicles]. rewrite sm_get_remove, G1. destruct (key_eqb_spec id k) as [<-|]; [unfold id; apply next_key_fresh; exact Wf|reflexivity].
    - cbn [run exec bind] in H. injection H as <-. assert (NoDup (s_frozen (set_vehicle_frozen s v (negb b)))) as N by exact (i_frozen _ (frozen_safe s v (negb b) Hi)). split; [apply same_sims|];
        try (unfold set_vehicle_frozen; repeat (match goal with |- context [match ?x with _ => _ end] => destruct x end; try reflexivity); fail).
      intros k. rewrite frozen_after by exact N. rewrite frozen_after by exact (i_frozen _ Hi). destruct (key_eqb_spec v k) as [<-|]; [exact Hb|reflexivity].
    - cbn [run exec] in H. bok H s1 H1. bok H s2' H2. injection H as ->. unfold set_link_control in H1, H2. bok H1 l1 H1'. bok H2 l2 H2'. injection H1 as <-. injection H2 as <-. cbn [with_links s_links] in H2'.
      unfold upd_link in H1', H2'. bok H1' x Hx. bok H2' y Hy. unfold get_link in Hx, Hy. apply of_option_ok in Hx. apply of_option_ok in Hy. unfold link_at in Hl. rewrite Hl in Hx. injection Hx as <-. cbn [bind] in H1', H2'. injection H1' as <-. injection H2' as <-.
      assert (sm_mem (s_links s) k = true) as M by (apply sm_mem_get; eauto).
      rewrite sm_get_set, key_eqb_refl, M in Hy. cbn [andb] in Hy. injection Hy as <-.
      split; [|reflexivity]. apply same_sims; try reflexivity. intros k'. cbn [with_links s_links]. rewrite sm_get_set, sm_mem_set, M, andb_true_r, sm_get_set, M, andb_true_r. destruct (key_eqb_spec k k') as [<-|]; [|reflexivity]. rewrite Hl. destruct l; reflexivity.
  Qed.

  (** After calls that were taken back the simulation is what it was. *)
  Theorem C87_now e s u s2 : reachable s -> taken_back s u -> run e s u = Ok s2 -> looks_same s s2.
  Proof.
    intros Re Hu H. destruct (undo_same e s u s2 (reachable_Inv _ Re) Hu H) as (P & F). apply same_looks; auto; [exact (reachable_Inv _ Re)|]. apply run_history in H. exact (history_Inv _ _ _ H (reachable_Inv _ Re)).
  Qed.

  (** And it goes on as it would have without them. *)
  Theorem C87_later e e1 e2 s u s2 ops s' t' : reachable s -> taken_back s u -> run e s u = Ok s2 -> ties_by_links e1 e2 -> List.Forall adds_nothing ops ->
    run e1 s ops = Ok s' -> run e2 s2 ops = Ok t' -> looks_same s' t'.
  Proof.
    intros Re Hu H Ti Fo H1 H2. pose proof (reachable_Inv _ Re) as Hi. destruct (undo_same e s u s2 Hi Hu H) as (P & F). apply run_history in H. pose proof (history_Inv _ _ _ H Hi) as Hi2.
    destruct (runs_all e1 e2 ops Ti Fo s s2 s' t' Hi Hi2 P F H1 H2) as (P' & F' & I1 & I2). apply same_looks; auto.
  Qed.
End P_Undo.
Print Assumptions C87_now.
Print Assumptions C87_later.

(** A road with a car on it.  A second car is added and removed again, the car is frozen and released, the road is closed and opened again: each time two
    further steps lead to the same as without that, and the car has moved. *)
Definition un_more : list (@op F64) := [ OStep (fz 1); OSetFrozen car1 true; OStep (fz 1) ].
Definition un_moved (s : @sim F64) : bool := match sm_get (s_vehicles s) car1 with Some v => nltb n0 (v_pos v) | None => false end.
Definition un_control (s : @sim F64) (k : key) : bool := match sm_get (s_links s) k with Some l => match lk_control l with COpen => true | _ => false end | None => false end.
Lemma un_ok :
  okb (run ex_env sim_new lo_setup) (fun s => un_control s (nth_id 0) && negb (get_vehicle_frozen s car1) && key_eqb (sm_next_key (s_vehicles s)) car2 &&
  okb (run ex_env s un_more) un_moved &&
  okb (run ex_env s [OAddVehicle ex_car (nth_id 0); ORemoveVehicle car2]) (fun t => okb (run ex_env t un_more) un_moved) &&
  okb (run ex_env s [OSetFrozen car1 true; OSetFrozen car1 false]) (fun t => okb (run ex_env t un_more) un_moved) &&
  okb (run ex_env s [OSetControl (nth_id 0) CClosed; OSetControl (nth_id 0) COpen]) (fun t => okb (run ex_env t un_more) un_moved)) = true.
Proof. vm_compute. reflexivity. Qed.
Example C87_example : exists (s s' : @sim F64) u1 u2 u3, reachable s /\ ties_by_links ex_env ex_env /\ List.Forall adds_nothing un_more /\ run ex_env s un_more = Ok s' /\ un_moved s' = true /\
  u1 = [OAddVehicle ex_car (nth_id 0); ORemoveVehicle car2] /\ u2 = [OSetFrozen car1 true; OSetFrozen car1 false] /\ u3 = [OSetControl (nth_id 0) CClosed; OSetControl (nth_id 0) COpen] /\
  forall u, In u [u1; u2; u3] -> taken_back s u /\ exists t t', run ex_env s u = Ok t /\ run ex_env t un_more = Ok t' /\ un_moved t' = true.
Proof.
  pose proof un_ok as H. apply okb_ok in H. destruct H as (s & H0 & H). repeat (let H' := fresh "K" in apply andb_prop in H; destruct H as (H & H')). apply okb_ok in K2. destruct K2 as (s' & K2 & Mv). apply negb_true_iff in K4. apply key_eqb_eq in K3.
  eexists s, s', _, _, _. split; [exact (run_reachable _ _ _ H0)|]. split; [intros a b src dst n _; reflexivity|]. split; [repeat constructor|]. split; [exact K2|]. split; [exact Mv|]. do 3 (split; [reflexivity|]).
  intros u [<-|[<-|[<-|[]]]].
  - split; [constructor; intros e s1 id1 Ha; apply add_vehicle_ok in Ha; destruct Ha as (-> & _); exact K3|]. apply okb_ok in K1. destruct K1 as (t & Ht & K1). apply okb_ok in K1. destruct K1 as (t' & K1 & M). eauto.
  - split; [exact (tb_frozen s car1 false K4)|]. apply okb_ok in K0. destruct K0 as (t & Ht & K1'). apply okb_ok in K1'. destruct K1' as (t' & K1' & M). eauto.
  - split. { unfold un_control in H. destruct (sm_get (s_links s) (nth_id 0)) as [l|] eqn:G; [|discriminate H]. pose proof (tb_control s (nth_id 0) l CClosed G) as T. destruct (lk_control l); [exact T|discriminate H..]. }
    apply okb_ok in K. destruct K as (t & Ht & K). apply okb_ok in K. destruct K as (t' & K & M). eauto.
Qed.
