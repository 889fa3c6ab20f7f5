(** * The acceleration update depends only on the connected part of the network *)
From Coq Require Import List Bool ZArith NArith Arith Lia.
From Verif Require Import Arith Base BaseProofs SlotMap SlotMapProofs Util Geom Light Accel Net Path Vehicle LinkOps Sim SpecSim Safe NetInv SimInv AccSafe SimSafe StepSafe OpSafe Evo StepEvo LogProofs SpecLocal Align LocPath.
Import ListNotations.

Section LocScan.
  Context {A : Arith}.
  Variables part CV : key -> bool.
  Definition set_q (v : vehicle) (q : option nat) : vehicle :=
    Vehicle (v_id v) (v_half_wid v) (v_half_len v) (v_wheel_base v) (v_acc v) (v_pathfind v) (v_pos v) (v_vel v)
      (v_stop_cnt v) (v_route v) (v_entered v) q (v_flag v) (v_can_exit v) (v_lane_change v)
      (v_world_pos v) (v_world_dir v) (v_rear_lats v) (v_rear_coords v).
  Definition VR (Q : nat -> nat -> Prop) (v w : vehicle) : Prop := exists q, w = set_q v q /\ relo Q (v_queued v) q.
  Definition vagree (Q : nat -> nat -> Prop) (vs1 vs2 : vehset) : Prop := forall k, CV k = true -> relo (VR Q) (sm_get vs1 k) (sm_get vs2 k).
  Definition own (e : eff) : bool := match e with EAcc k _ | EFlag k _ => CV k | ELast l _ => part l end.
  Definition LR (a b : list eff) : Prop := filter own a = filter own b.
  Lemma LR_cons e a b : LR a b -> LR (e :: a) (e :: b).
  Proof. unfold LR. cbn [filter]. intros ->. reflexivity. Qed.
  Lemma LR_app c a b : LR a b -> LR (c ++ a) (c ++ b).
  Proof. intros H. induction c as [|e c IH]; [exact H|]. apply LR_cons. exact IH. Qed.
  Lemma LR_last a b id i : part id = true -> LR a b -> read_last a id i = read_last b id i.
  Proof.
    intros Hp H. assert (forall l, read_last (filter own l) id i = read_last l id i) as E.
    { induction l as [|e l IH]; [reflexivity|]. cbn [filter]. destruct (own e) eqn:Eo.
      - destruct e as [k x|k f|k j]; cbn [read_last]; rewrite IH; reflexivity.
      - destruct e as [k x|k f|k j]; cbn [read_last]; try exact IH. destruct (key_eqb_spec k id) as [->|]; [cbn [own] in Eo; congruence|exact IH]. }
    rewrite <- (E a), <- (E b), H. reflexivity.
  Qed.
  Lemma adds_LR a b : adds (fun e => own e = false) a b -> LR a b.
  Proof.
    intros (n & -> & F). unfold LR. rewrite filter_app. replace (filter own n) with (@nil eff); [reflexivity|]. induction F as [|e n He F IH]; [reflexivity|]. cbn [filter]. rewrite He. exact IH.
  Qed.
  Definition routec (vs : vehset) : Prop := forall k v x, sm_get vs k = Some v -> In x (v_route v) -> part x = CV k.
  Definition listc (links : linkset) : Prop := forall k l x, sm_get links k = Some l -> In x (lk_vehicles l) -> CV x = part k.

  Section Two.
  Variable Q : nat -> nat -> Prop.
  Hypothesis Q0 : Q 0 0.
  Hypothesis Qlt : forall a a' b b', Q a a' -> Q b b' -> (a < b <-> a' < b').
  Variables L1 L2 : linkset.
  Variables V1 V2 : vehset.
  Hypothesis N : net_ok L1.
  Hypothesis C : closed part L1.
  Hypothesis G : agree part L1 L2.
  Hypothesis GV : vagree Q V1 V2.
  Hypothesis Rc : routec V1.
  Hypothesis Lc : listc L1.

  Lemma getv_rr k : CV k = true -> rr (VR Q) (get_vehicle V1 k) (get_vehicle V2 k).
  Proof.
    intros Hk v w Hv Hw. unfold get_vehicle in *. apply of_option_ok in Hv. apply of_option_ok in Hw. specialize (GV k Hk). rewrite Hv, Hw in GV. exact GV.
  Qed.
  Definition RST (a b : route_state) : Prop := match a, b with NotEntered, NotEntered => True | QueuedAt x, QueuedAt y => Q x y | Entered, Entered => True | _, _ => False end.
  Lemma route_rel v q i : relo Q (v_queued v) q -> relo (fun a b => fst a = fst b /\ RST (snd a) (snd b)) (get_route v i) (get_route (set_q v q) i).
  Proof.
    intros Hq. unfold get_route. cbn [v_route v_entered v_queued set_q]. destruct (nth_error (v_route v) i) as [k|]; [|exact I]. cbn [option_map relo fst snd]. split; [reflexivity|]. destruct (Nat.ltb i (v_entered v)); [exact I|]. destruct (Nat.eqb (v_entered v) i); [|exact I].
    destruct (v_queued v) as [a|]; destruct q as [b|]; try destruct Hq; exact Hq || exact I.
  Qed.
  Definition RRV (r1 r2 : relveh) : Prop := exists q, r2 = RV (rv_key r1) (set_q (rv_veh r1) q) (rv_idx r1) (rv_pos r1) /\ relo Q (v_queued (rv_veh r1)) q.
  Definition rok (r : relveh) : Prop := CV (rv_key r) = true /\ sm_get V1 (rv_key r) = Some (rv_veh r).

  Section Proc.
    Context {S1 S2 : Type}.
    Variable RS : S1 -> S2 -> Prop.
    Variable f1 : S1 -> relveh -> res (S1 * bool).
    Variable f2 : S2 -> relveh -> res (S2 * bool).
    Hypothesis Hf : forall s t r1 r2, RS s t -> RRV r1 r2 -> rok r1 -> rr (fun a b => RS (fst a) (fst b) /\ snd a = snd b) (f1 s r1) (f2 t r2).
    Lemma scan_rr len route pos mn : forall ids s t, (forall x, In x ids -> CV x = true) -> RS s t ->
      rr (fun a b => RS (fst a) (fst b) /\ snd a = snd b) (scan f1 V1 len route pos mn ids s) (scan f2 V2 len route pos mn ids t).
    Proof.
      induction ids as [|id ids IH]; intros s t Hc Rs; cbn [scan]; [apply rr_ok; cbn; auto|]. assert (forall s t, RS s t -> rr (fun a b => RS (fst a) (fst b) /\ snd a = snd b) (scan f1 V1 len route pos mn ids s) (scan f2 V2 len route pos mn ids t)) as IH'.
      { intros s1 t1 R1. apply IH; [|exact R1]. intros x Hx. apply Hc. right. exact Hx. }
      assert (CV id = true) as Hid by (apply Hc; left; reflexivity). apply (rr_bind (VR Q)); [apply getv_rr; exact Hid|]. intros v w (q & -> & Hq) Gv _. unfold get_vehicle in Gv. apply of_option_ok in Gv.
      change (pos_front (set_q v q)) with (pos_front v). destruct (nltb (pos_front v) mn); [apply rr_ok; cbn; auto|].
      pose proof (route_rel v q (fst route) Hq) as Hr. destruct (get_route v (fst route)) as [(l, st)|]; destruct (get_route (set_q v q) (fst route)) as [(l', st')|]; try (destruct Hr; fail); [|apply IH'; exact Rs].
      cbn [relo fst snd] in Hr. destruct Hr as (<- & Hst). destruct (negb (key_eqb l (snd route))); [apply IH'; exact Rs|].
      assert (rr (fun a b => RS (fst a) (fst b) /\ snd a = snd b) (bind (f1 s (RV id v (fst route) pos)) (fun sb => if snd sb then scan f1 V1 len route pos mn ids (fst sb) else Ok (fst sb, Stop)))
                (bind (f2 t (RV id (set_q v q) (fst route) pos)) (fun sb => if snd sb then scan f2 V2 len route pos mn ids (fst sb) else Ok (fst sb, Stop)))) as Hgo.
      { apply (rr_bind (fun a b => RS (fst a) (fst b) /\ snd a = snd b)); [apply Hf; [exact Rs|exists q; cbn; auto|split; cbn; auto]|]. intros (s1, b1) (t1, b2) (R1 & E1) _ _. cbn [fst snd] in *. subst b2. destruct b1; [apply IH'; exact R1|apply rr_ok; cbn; auto]. }
      destruct st; destruct st'; try (destruct Hst; fail); try exact Hgo; (destruct (nltb len pos); [apply rr_ok; cbn; auto|exact Hgo]).
    Qed.
    Lemma process_rr : forall fu1 fu2 k l route pos skip s t, part k = true -> sm_get L1 k = Some l -> RS s t ->
      rr RS (process_vehicles f1 fu1 L1 V1 l route pos skip s) (process_vehicles f2 fu2 L2 V2 l route pos skip t).
    Proof.
      induction fu1 as [|fu1 IH]; intros fu2 k l route pos skip s t Hk Gl Rs; [intros x y Hx; discriminate Hx|]. destruct fu2 as [|fu2]; [intros x y _ Hy; discriminate Hy|]. cbn [process_vehicles]. destruct (negb (lk_active l)); [apply rr_ok; exact Rs|].
      apply (rr_bind (fun a b => RS (fst a) (fst b) /\ snd a = snd b)).
      - apply scan_rr; [|exact Rs]. intros x Hx. apply skipn_in in Hx. rewrite <- in_rev in Hx. rewrite (Lc k l x Gl Hx). exact Hk.
      - intros (s1, b1) (t1, b2) (R1 & E1) _ _. cbn [fst snd] in *. subst b2. destruct b1; [apply rr_ok; exact R1|]. destruct (nleb _ _); [apply rr_ok; exact R1|].
        apply rr_foldM; [|exact R1]. intros s2 t2 x Hx R2. assert (part x = true) as Px. { rewrite (C k l x Gl); [exact Hk|]. right. left. exact Hx. }
        apply rr_bind_eq; [apply (get_rr part L1 L2 G); exact Px|]. intros l' Hl' _. destruct (get_both part L1 N _ _ Px Hl') as (G' & _). apply IH with (k := x); auto.
    Qed.
  End Proc.

  (** ** Gaps *)
  Lemma ltb_Q a a' b b' : Q a a' -> Q b b' -> Nat.ltb a b = Nat.ltb a' b'.
  Proof. intros H1 H2. pose proof (Qlt _ _ _ _ H1 H2) as E. apply eq_true_iff_eq. rewrite !Nat.ltb_lt. exact E. Qed.
  Lemma gap_rr pos0 time q1 q2 route mv : relo Q q1 q2 -> forall ids, (forall x, In x ids -> CV x = true) -> rr eq (gap_loop V1 pos0 time q1 route mv ids) (gap_loop V2 pos0 time q2 route mv ids).
  Proof.
    intros Hqq. induction ids as [|id ids IH]; intros Hc; cbn [gap_loop]; [apply rr_refl|]. assert (rr eq (gap_loop V1 pos0 time q1 route mv ids) (gap_loop V2 pos0 time q2 route mv ids)) as IH' by (apply IH; intros x Hx; apply Hc; right; exact Hx).
    apply (rr_bind (VR Q)); [apply getv_rr; apply Hc; left; reflexivity|]. intros v w (q & -> & Hq) _ _. pose proof (route_rel v q (fst route) Hq) as Hr. destruct (get_route v (fst route)) as [(l, st)|]; destruct (get_route (set_q v q) (fst route)) as [(l', st')|]; try (destruct Hr; fail); [|exact IH'].
    cbn [relo fst snd] in Hr. destruct Hr as (<- & Hst). destruct (negb (key_eqb l (snd route))); [exact IH'|]. change (min_reach_time (set_q v q)) with (min_reach_time v).
    destruct st as [|a|]; destruct st' as [|b|]; try (destruct Hst; fail); destruct q1 as [x|]; destruct q2 as [y|]; try (destruct Hqq; fail); try apply rr_refl. cbn [RST relo] in *. rewrite (ltb_Q x y a b Hqq Hst). apply rr_refl.
  Qed.
  Lemma skip_rr pos1 : forall ids, (forall x, In x ids -> CV x = true) -> rr (fun a b => a = b /\ forall x, In x a -> CV x = true) (skip_past V1 pos1 ids) (skip_past V2 pos1 ids).
  Proof.
    induction ids as [|id ids IH]; intros Hc; cbn [skip_past]; [apply rr_ok; auto|]. apply (rr_bind (VR Q)); [apply getv_rr; apply Hc; left; reflexivity|]. intros v w (q & -> & Hq) _ _. change (pos_rear (set_q v q)) with (pos_rear v). destruct (nltb _ _); [apply IH; intros x Hx; apply Hc; right; exact Hx|apply rr_ok; auto].
  Qed.
  Lemma allM_rr {X} (f g : X -> res bool) l : (forall x, In x l -> rr eq (f x) (g x)) -> rr eq (allM f l) (allM g l).
  Proof.
    induction l as [|x l IH]; intros H; cbn [allM]; [apply rr_refl|]. apply rr_bind_eq; [apply H; left; reflexivity|]. intros b _ _. destruct b; [apply IH; intros y Hy; apply H; right; exact Hy|apply rr_refl].
  Qed.
  Lemma check_rr time q1 q2 : relo Q q1 q2 -> forall fu1 fu2 k l pos route mv, part k = true -> sm_get L1 k = Some l -> rr eq (check_gap fu1 L1 V1 l pos time q1 route mv) (check_gap fu2 L2 V2 l pos time q2 route mv).
  Proof.
    intros Hq. induction fu1 as [|fu1 IH]; intros fu2 k l pos route mv Hk Gl; [intros x y Hx; discriminate Hx|]. destruct fu2 as [|fu2]; [intros x y _ Hy; discriminate Hy|]. cbn [check_gap].
    apply (rr_bind (fun a b => a = b /\ forall x, In x a -> CV x = true)); [apply skip_rr; intros x Hx; rewrite <- in_rev in Hx; rewrite (Lc k l x Gl Hx); exact Hk|]. intros ids ids' (<- & Hc) _ _. apply rr_bind_eq; [apply gap_rr; auto|]. intros o _ _. destruct o; [apply rr_refl|]. destruct (nltb _ _); [apply rr_refl|].
    apply allM_rr. intros x Hx. assert (part x = true) as Px. { rewrite (C k l x Gl); [exact Hk|]. right. left. exact Hx. } apply rr_bind_eq; [apply (get_rr part L1 L2 G); exact Px|]. intros l' Hl' _. destruct (get_both part L1 N _ _ Px Hl') as (G' & _). apply IH with (k := x); auto.
  Qed.
  Lemma queued_rel c pr a b : Q a b -> relo Q (conflict_queued c pr a) (conflict_queued c pr b).
  Proof. intros H. unfold conflict_queued. destruct c as [|d ms p2|]; [exact I| |exact Q0]. destruct (Z.compare pr p2); [exact H|exact I|exact Q0]. Qed.
  Lemma enter_rr fu1 fu2 k l r1 r2 q1 q2 pr : part k = true -> sm_get L1 k = Some l -> RRV r1 r2 -> Q q1 q2 -> forall idxs, rr eq (enter_loop fu1 L1 V1 l r1 q1 pr idxs) (enter_loop fu2 L2 V2 l r2 q2 pr idxs).
  Proof.
    intros Hk Gl (q & -> & Hq) Hqq. induction idxs as [|i idxs IH]; cbn [enter_loop]; [apply rr_refl|]. apply rr_bind_eq; [apply rr_refl|]. intros c Hc _. apply of_option_ok in Hc. apply nth_error_In in Hc.
    assert (part (cf_link c) = true) as Px. { rewrite (C k l (cf_link c) Gl); [exact Hk|]. right. right. right. right. exists c. auto. }
    apply rr_bind_eq; [apply (get_rr part L1 L2 G); exact Px|]. intros l2 Hl2 _. destruct (get_both part L1 N _ _ Px Hl2) as (G2 & _). apply rr_bind_eq.
    - change (rv_min_reach_time {| rv_key := rv_key r1; rv_veh := set_q (rv_veh r1) q; rv_idx := rv_idx r1; rv_pos := rv_pos r1 |}) with (rv_min_reach_time r1). apply check_rr with (k := cf_link c); [apply queued_rel; exact Hqq|exact Px|exact G2].
    - intros b _ _. destruct b; [exact IH|apply rr_refl].
  Qed.
  Lemma can_enter_rr fu1 fu2 k l r1 r2 q1 q2 pr a b : part k = true -> sm_get L1 k = Some l -> RRV r1 r2 -> Q q1 q2 -> LR a b ->
    rr (fun x y => fst x = fst y /\ LR (snd x) (snd y)) (can_enter fu1 L1 V1 l r1 q1 pr a) (can_enter fu2 L2 V2 l r2 q2 pr b).
  Proof.
    intros Hk Gl Hr Hq Hl. unfold can_enter. pose proof (lo_id _ _ _ (nk_link _ N _ _ Gl)) as Ei. rewrite (LR_last a b (lk_id l) (lk_last l)); [|rewrite Ei; exact Hk|exact Hl].
    apply rr_bind_eq; [apply enter_rr with (k := k); auto|]. intros o _ _. destruct o; apply rr_ok; cbn [fst snd]; split; auto. apply LR_cons. exact Hl.
  Qed.
  Lemma offset_rel r1 r2 x : RRV r1 r2 -> RRV (rv_offset r1 x) (rv_offset r2 x).
  Proof. intros (q & -> & Hq). exists q. split; [reflexivity|exact Hq]. Qed.
  Definition RLB (a b : list eff * bool) : Prop := LR (fst a) (fst b) /\ snd a = snd b.
  Lemma get_route_in v i l st : get_route v i = Some (l, st) -> In l (v_route v).
  Proof. unfold get_route. destruct (nth_error (v_route v) i) as [k|] eqn:E; [|discriminate]. cbn [option_map]. intros H. injection H as <- _. exact (nth_error_In _ _ E). Qed.
  Lemma stop_rr fu1 fu2 self a b r1 r2 : LR a b -> RRV r1 r2 -> rok r1 -> rr RLB (stopline_cb fu1 L1 V1 self a r1) (stopline_cb fu2 L2 V2 self b r2).
  Proof.
    intros Hl Hr (Hc & Gv). unfold stopline_cb. pose proof Hr as (q & Er & Hq). assert (relo (fun a b => fst a = fst b /\ RST (snd a) (snd b)) (rv_route r1 1) (rv_route r2 1)) as Hrr by (rewrite Er; apply route_rel; exact Hq).
    assert (forall n, LR (rv_stop_at_line r1 n :: a) (rv_stop_at_line r2 n :: b)) as Ls by (intros n; rewrite Er; apply LR_cons; exact Hl).
    destruct (rv_route r1 1) as [(l, st)|] eqn:E1; destruct (rv_route r2 1) as [(l', st')|]; try (destruct Hrr; fail).
    - cbn [relo fst snd] in Hrr. destruct Hrr as (<- & Hst). assert (part l = true) as Pl. { unfold rv_route in E1. apply get_route_in in E1. rewrite (Rc _ _ _ Gv E1). exact Hc. }
      assert (match st, st' with Entered, _ => False | _, Entered => False | _, _ => True end -> rr RLB
        (bind (get_link L1 l) (fun l0 => match lk_control l0 with
          | COpen => if negb (rv_can_stop r1 (nofZ (-5))) then Ok (rv_enter_link r1 :: a, true) else Ok (a, false)
          | CYield distance must_stop priority => match st with
              | NotEntered => Ok (rv_stop_at_line r1 n0 :: (if nltb (nneg distance) (rv_front r1) && (negb must_stop || has_stopped (rv_veh r1)) then rv_queue_link r1 :: a else a), false)
              | QueuedAt frame => bind (can_enter fu1 L1 V1 l0 (rv_offset r1 (lk_length self)) frame priority a) (fun bl => if fst bl then Ok (rv_enter_link r1 :: snd bl, true) else Ok (rv_stop_at_line r1 n0 :: snd bl, false))
              | Entered => Panic PUnreachable end
          | CClosed => Ok (rv_stop_at_line r1 n0 :: a, false) end))
        (bind (get_link L2 l) (fun l0 => match lk_control l0 with
          | COpen => if negb (rv_can_stop r2 (nofZ (-5))) then Ok (rv_enter_link r2 :: b, true) else Ok (b, false)
          | CYield distance must_stop priority => match st' with
              | NotEntered => Ok (rv_stop_at_line r2 n0 :: (if nltb (nneg distance) (rv_front r2) && (negb must_stop || has_stopped (rv_veh r2)) then rv_queue_link r2 :: b else b), false)
              | QueuedAt frame => bind (can_enter fu2 L2 V2 l0 (rv_offset r2 (lk_length self)) frame priority b) (fun bl => if fst bl then Ok (rv_enter_link r2 :: snd bl, true) else Ok (rv_stop_at_line r2 n0 :: snd bl, false))
              | Entered => Panic PUnreachable end
          | CClosed => Ok (rv_stop_at_line r2 n0 :: b, false) end))) as K.
      { intros Hne. apply rr_bind_eq; [apply (get_rr part L1 L2 G); exact Pl|]. intros l0 Hl0 _. destruct (get_both part L1 N _ _ Pl Hl0) as (G0 & _). destruct (lk_control l0) as [|d ms pr|].
        - rewrite Er. change (rv_can_stop _ (nofZ (-5))) with (rv_can_stop r1 (nofZ (-5))) at 2. destruct (negb (rv_can_stop r1 (nofZ (-5)))); apply rr_ok; split; cbn [fst snd]; auto. apply LR_cons. exact Hl.
        - destruct st as [|x|]; destruct st' as [|y|]; try (destruct Hst; fail); try (destruct Hne; fail).
          + rewrite Er. change (rv_front {| rv_key := rv_key r1; rv_veh := set_q (rv_veh r1) q; rv_idx := rv_idx r1; rv_pos := rv_pos r1 |}) with (rv_front r1). cbn [rv_veh]. change (has_stopped (set_q (rv_veh r1) q)) with (has_stopped (rv_veh r1)).
            apply rr_ok. split; cbn [fst snd]; auto. apply LR_cons. destruct (_ && _); [apply LR_cons|]; exact Hl.
          + apply (rr_bind (fun x y => fst x = fst y /\ LR (snd x) (snd y))); [apply can_enter_rr with (k := l); auto; apply offset_rel; exact Hr|]. intros (c1, a1) (c2, a2) (E & La) _ _. cbn [fst snd] in *. subst c2. destruct c1; apply rr_ok; split; cbn [fst snd]; auto; rewrite Er; apply LR_cons; exact La.
        - apply rr_ok. split; cbn [fst snd]; auto. }
      destruct st as [|x|]; destruct st' as [|y|]; try (destruct Hst; fail); try (exact (K Logic.I)). apply rr_ok. split; cbn [fst snd]; auto.
    - rewrite Er. cbn [rv_veh]. change (v_can_exit (set_q (rv_veh r1) q)) with (v_can_exit (rv_veh r1)). destruct (v_can_exit (rv_veh r1)); apply rr_ok; split; cbn [fst snd]; auto. apply LR_cons. exact Hl.
  Qed.
  Lemma stoplines_rr fu1 fu2 k l a b : part k = true -> sm_get L1 k = Some l -> LR a b -> rr LR (apply_stoplines fu1 L1 V1 l a) (apply_stoplines fu2 L2 V2 l b).
  Proof. intros Hk Gl Hl. unfold apply_stoplines. apply process_rr with (k := k); auto. intros s t r1 r2 Hs Hr Ho. apply (stop_rr fu1 fu2 l s t r1 r2); auto. Qed.

  (** ** Car following *)
  Lemma follow_rr limit : forall ids a b, (forall x, In x ids -> CV x = true) -> LR a b -> rr LR (follow_on_link V1 limit ids a) (follow_on_link V2 limit ids b).
  Proof.
    induction ids as [|id ids IH]; intros a b Hc Hl; cbn [follow_on_link]; [apply rr_ok; exact Hl|]. assert (CV id = true) as Hid by (apply Hc; left; reflexivity). destruct ids as [|id2 ids].
    - apply (rr_bind (VR Q)); [apply getv_rr; exact Hid|]. intros v w (q & -> & Hq) _ _. apply rr_ok. apply LR_cons. exact Hl.
    - apply (rr_bind (VR Q)); [apply getv_rr; exact Hid|]. intros v w (q & -> & Hq) _ _. apply (rr_bind (VR Q)); [apply getv_rr; apply Hc; right; left; reflexivity|]. intros v2 w2 (q2 & -> & Hq2) _ _.
      apply IH; [intros x Hx; apply Hc; right; exact Hx|]. apply LR_cons. apply LR_cons. exact Hl.
  Qed.
  Lemma entering_rr k l a b r1 r2 : part k = true -> sm_get L1 k = Some l -> LR a b -> RRV r1 r2 -> rr RLB (entering_cb V1 l a r1) (entering_cb V2 l b r2).
  Proof.
    intros Hk Gl Hl (q & -> & Hq). unfold entering_cb. change (rv_speed_limit {| rv_key := rv_key r1; rv_veh := set_q (rv_veh r1) q; rv_idx := rv_idx r1; rv_pos := rv_pos r1 |}) with (rv_speed_limit r1).
    destruct (hd_error (lk_vehicles l)) as [id|] eqn:Eh; [|apply rr_ok; split; cbn [fst snd]; auto; apply LR_app; exact Hl]. apply hd_error_in in Eh.
    apply (rr_bind (VR Q)); [apply getv_rr; rewrite (Lc k l id Gl Eh); exact Hk|]. intros v w (q2 & -> & Hq2) _ _. apply rr_ok. split; cbn [fst snd]; auto. apply LR_cons. apply LR_app. exact Hl.
  Qed.
  Lemma count_rr pos : forall ids, (forall x, In x ids -> CV x = true) -> rr eq (count_ahead V1 pos ids) (count_ahead V2 pos ids).
  Proof.
    induction ids as [|id ids IH]; intros Hc; cbn [count_ahead]; [apply rr_refl|]. apply (rr_bind (VR Q)); [apply getv_rr; apply Hc; left; reflexivity|]. intros v w (q & -> & Hq) _ _. change (v_pos (set_q v q)) with (v_pos v). destruct (nltb _ _); [apply rr_refl|]. apply rr_bind_eq; [apply IH; intros x Hx; apply Hc; right; exact Hx|]. intros; apply rr_refl.
  Qed.
  Lemma pass_rr lc : forall fu1 fu2 o, rr eq (pass_loop fu1 lc o) (pass_loop fu2 lc o).
  Proof.
    induction fu1 as [|fu1 IH]; intros fu2 o; [intros x y Hx; discriminate Hx|]. destruct fu2 as [|fu2]; [intros x y _ Hy; discriminate Hy|]. cbn [pass_loop]. cbv zeta. destruct (nltb _ _); [apply rr_refl|apply IH].
  Qed.
  Lemma obstacle_rr fu1 fu2 self o a b r1 r2 : LR a b -> RRV r1 r2 -> rr RLB (obstacle_cb fu1 self o a r1) (obstacle_cb fu2 self o b r2).
  Proof.
    intros Hl (q & -> & Hq). unfold obstacle_cb. cbn [rv_veh]. apply rr_bind_eq.
    - unfold can_pass. change (is_clear (set_q (rv_veh r1) q)) with (is_clear (rv_veh r1)). destruct (is_clear (rv_veh r1) o); [apply rr_refl|]. apply rr_bind_eq; [apply pass_rr|]. intros; apply rr_refl.
    - intros p _ _. destruct p; apply rr_ok; split; cbn [fst snd]; auto. apply LR_cons. exact Hl.
  Qed.
  Lemma obstacles_rr fu1 fu2 k self p : part k = true -> sm_get L1 k = Some self -> forall ids skip a b, (forall x, In x ids -> CV x = true) -> LR a b ->
    rr LR (follow_obstacles fu1 L1 V1 self p ids skip a) (follow_obstacles fu2 L2 V2 self p ids skip b).
  Proof.
    intros Hk Gl. induction ids as [|id ids IH]; intros skip a b Hc Hl; cbn [follow_obstacles]; [apply rr_ok; exact Hl|]. apply (rr_bind (VR Q)); [apply getv_rr; apply Hc; left; reflexivity|]. intros v w (q & -> & Hq) _ _. change (v_project (set_q v q) p) with (v_project v p).
    apply rr_bind_eq; [apply rr_refl|]. intros o _ _. apply rr_bind_eq; [apply count_rr; intros x Hx; apply skipn_in in Hx; rewrite <- in_rev in Hx; rewrite (Lc k self x Gl Hx); exact Hk|]. intros c _ _. cbv zeta. apply (rr_bind LR).
    - apply process_rr with (k := k); auto. intros s t r1 r2 Hs Hr Ho. apply (obstacle_rr fu1 fu2 self o s t r1 r2); auto.
    - intros a1 b1 H1 _ _. apply IH; [intros x Hx; apply Hc; right; exact Hx|exact H1].
  Qed.
  Lemma proj_col k l g ps p : sm_get L1 k = Some l -> lk_group l = Some g -> projections_from_link g (lk_id l) = Ok ps -> In p ps -> part (pj_dst p) = part k.
  Proof.
    intros Gl Eg H Hp. unfold projections_from_link in H. apply bind_ok in H. destruct H as (i & _ & H). destruct (Nat.leb _ _); [|discriminate H]. injection H as <-. apply firstn_in in Hp. apply skipn_in in Hp.
    pose proof (proj1 (lo_group _ _ _ (nk_link _ N _ _ Gl) g Eg)) as Go. pose proof (go_projs _ _ Go) as E. assert (exists sd, In sd (pairs (g_links g)) /\ pj_dst p = snd sd) as ((x & y) & Hi & Ey).
    { clear -E Hp. induction E as [|sd q l1 l2 (_ & E1) E IH]; [destruct Hp|]. destruct Hp as [->|Hp]; [exists sd; split; [left; reflexivity|exact E1]|]. destruct (IH Hp) as (sd' & Hi & E2). exists sd'. split; [right; exact Hi|exact E2]. }
    apply pairs_in in Hi. rewrite Ey. apply (C k l _ Gl). right. right. right. left. exists g. split; [exact Eg|apply Hi].
  Qed.
  Lemma accelerations_rr fu1 fu2 k l a b : part k = true -> sm_get L1 k = Some l -> LR a b -> rr LR (apply_accelerations fu1 L1 V1 l a) (apply_accelerations fu2 L2 V2 l b).
  Proof.
    intros Hk Gl Hl. assert (forall x, In x (lk_vehicles l) -> CV x = true) as Hv by (intros x Hx; rewrite (Lc k l x Gl Hx); exact Hk). unfold apply_accelerations. apply (rr_bind LR); [apply follow_rr; auto|]. intros a1 b1 H1 _ _. apply (rr_bind LR).
    - apply process_rr with (k := k); auto. intros s t r1 r2 Hs Hr Ho. apply entering_rr with (k := k); auto.
    - intros a2 b2 H2 _ _. destruct (lk_group l) as [g|] eqn:Eg; [|apply rr_ok; exact H2]. apply rr_bind_eq; [apply rr_refl|]. intros ps Hps _. apply rr_foldM; [|exact H2]. intros s t p Hp Hs.
      assert (part (pj_dst p) = true) as Pd. { rewrite (proj_col k l g ps p Gl Eg Hps Hp). exact Hk. } apply rr_bind_eq; [apply (get_rr part L1 L2 G); exact Pd|]. intros l2 Hl2 _. destruct (get_both part L1 N _ _ Pd Hl2) as (G2 & _). apply obstacles_rr with (k := pj_dst p); auto. intros x Hx. rewrite <- in_rev in Hx. auto.
  Qed.

  (** ** Crossings *)
  Lemma find_rr fu1 fu2 c a b : part (cpl_link c) = true -> Forall2 RRV a b -> rr (Forall2 RRV) (find_vehicles fu1 L1 V1 c a) (find_vehicles fu2 L2 V2 c b).
  Proof.
    intros Pc Hab. unfold find_vehicles. apply rr_bind_eq; [apply (get_rr part L1 L2 G); exact Pc|]. intros l Hl _. destruct (get_both part L1 N _ _ Pc Hl) as (Gl & _). apply process_rr with (k := cpl_link c); auto. intros s t r1 r2 Hs Hr Ho. apply rr_ok. cbn [fst snd]. split; [|reflexivity].
    pose proof Hr as (q & Er & _). replace (rv_rear r2) with (rv_rear r1) by (rewrite Er; reflexivity). destruct (nltb _ _); [|exact Hs]. apply Forall2_app; [exact Hs|]. constructor; [exact Hr|constructor].
  Qed.
  Lemma front_rel r1 r2 : RRV r1 r2 -> rv_front r2 = rv_front r1.
  Proof. intros (q & -> & _). reflexivity. Qed.
  Lemma insert_rel r1 r2 a b : RRV r1 r2 -> Forall2 RRV a b -> Forall2 RRV (insert_desc r1 a) (insert_desc r2 b).
  Proof.
    intros Hr H. induction H as [|x y a b Hxy H IH]; cbn [insert_desc]; [constructor; auto|]. rewrite (front_rel _ _ Hr), (front_rel _ _ Hxy). destruct (nltb _ _); constructor; auto.
  Qed.
  Lemma sort_rr a b : Forall2 RRV a b -> rr (Forall2 RRV) (sort_desc a) (sort_desc b).
  Proof.
    intros H. unfold sort_desc. replace (existsb (fun r => nnan (rv_front r)) b) with (existsb (fun r => nnan (rv_front r)) a). 2: { clear -H. induction H as [|x y a b Hxy H IH]; [reflexivity|]. cbn [existsb]. rewrite (front_rel _ _ Hxy), IH. reflexivity. }
    rewrite (Forall2_len _ _ _ H). destruct (_ && _); [intros x y Hx; discriminate Hx|]. apply rr_ok.
    assert (forall c d, Forall2 RRV c d -> Forall2 RRV (fold_left (fun acc r => insert_desc r acc) a c) (fold_left (fun acc r => insert_desc r acc) b d)) as K; [|apply K; constructor].
    induction H as [|x y a b Hxy H IH]; intros c d Hcd; [exact Hcd|]. cbn [fold_left]. apply IH. apply insert_rel; auto.
  Qed.
  Lemma link_rel r1 r2 : RRV r1 r2 -> rv_link r2 0 = rv_link r1 0.
  Proof. intros (q & -> & _). unfold rv_link, rv_route, get_route. cbn [rv_veh rv_idx v_route set_q]. destruct (nth_error _ _); reflexivity. Qed.
  Lemma pairs_rel same : forall l1 l2, Forall2 RRV l1 l2 -> forall a b, LR a b -> LR (conflict_pairs same l1 a) (conflict_pairs same l2 b).
  Proof.
    intros l1 l2 H. induction H as [|x y l1 l2 Hxy H IH]; intros a b Hl; [exact Hl|]. destruct H as [|x2 y2 l1 l2 Hxy2 H]; [exact Hl|]. cbn [conflict_pairs]. apply IH. rewrite (link_rel _ _ Hxy), (link_rel _ _ Hxy2).
    destruct Hxy as (q & -> & _). destruct Hxy2 as (q2 & -> & _). cbn [rv_veh]. change (v_rear_coords (set_q (rv_veh x) q)) with (v_rear_coords (rv_veh x)). change (v_vel (set_q (rv_veh x) q)) with (v_vel (rv_veh x)).
    change (rv_rear {| rv_key := rv_key x; rv_veh := set_q (rv_veh x) q; rv_idx := rv_idx x; rv_pos := rv_pos x |}) with (rv_rear x). destruct (negb _); [|exact Hl]. destruct (_ && _); apply LR_cons; exact Hl.
  Qed.
  Lemma cp_rr fu1 fu2 c a b : part (cpl_link (cp_a c)) = true -> part (cpl_link (cp_b c)) = true -> LR a b -> rr LR (cp_apply fu1 L1 V1 c a) (cp_apply fu2 L2 V2 c b).
  Proof.
    intros Pa Pb Hl. unfold cp_apply. apply (rr_bind (Forall2 RRV)); [apply find_rr; [exact Pa|constructor]|]. intros x y Hxy _ _. destruct Hxy as [|r1 r2 x y Hr Hxy]; [apply rr_ok; exact Hl|].
    assert (Forall2 RRV (r1 :: x) (r2 :: y)) as Hxy' by (constructor; auto). apply (rr_bind (Forall2 RRV)); [apply find_rr; [exact Pb|exact Hxy']|]. intros x2 y2 H2 _ _. rewrite <- (Forall2_len _ _ _ H2), <- (Forall2_len _ _ _ Hxy'). destruct (Nat.eqb _ _); [apply rr_ok; exact Hl|].
    apply (rr_bind (Forall2 RRV)); [apply sort_rr; exact H2|]. intros x3 y3 H3 _ _. apply rr_ok. apply pairs_rel; auto.
  Qed.
  End Two.

  (** ** Links of the rest *)
  Section Rest.
  Variables (L : linkset) (V : vehset).
  Hypothesis N : net_ok L.
  Hypothesis C : closed part L.
  Hypothesis Hl : listed L V.
  Hypothesis Rc : routec V.
  Hypothesis Lc : listc L.
  Notation foreign := (fun e : eff => own e = false).
  Lemma rv_col tgt r : rv_ok V tgt r -> CV (rv_key r) = part tgt.
  Proof. intros (Gv & st & E). apply get_route_in in E. symmetry. exact (Rc _ _ _ Gv E). Qed.
  Lemma stop_foreign fu self tgt a r a' b : part tgt = false -> rv_ok V tgt r -> stopline_cb fu L V self a r = Ok (a', b) -> adds foreign a a'.
  Proof.
    intros Pt Ro H. pose proof (rv_col _ _ Ro) as Hc. rewrite Pt in Hc. assert (forall x, own (EAcc (rv_key r) x) = false) as F1 by (intros; exact Hc). assert (forall x, own (EFlag (rv_key r) x) = false) as F2 by (intros; exact Hc).
    unfold stopline_cb in H. destruct (rv_route r 1) as [(l, st)|] eqn:E.
    2: { destruct (v_can_exit _); injection H as <- <-; [apply adds_refl|]. apply adds_cons; [apply adds_refl|apply F1]. }
    assert (part l = false) as Pl. { unfold rv_route in E. apply get_route_in in E. rewrite (Rc _ _ _ (proj1 Ro) E). exact Hc. }
    destruct st as [|q|]; [| |injection H as <- <-; apply adds_refl].
    - apply bind_ok in H. destruct H as (l0 & Hl0 & H). destruct (lk_control l0) as [|d ms pr|].
      + destruct (negb _); injection H as <- <-; [|apply adds_refl]. apply adds_cons; [apply adds_refl|apply F2].
      + injection H as <- <-. apply adds_cons; [|apply F1]. destruct (_ && _); [|apply adds_refl]. apply adds_cons; [apply adds_refl|apply F2].
      + injection H as <- <-. apply adds_cons; [apply adds_refl|apply F1].
    - apply bind_ok in H. destruct H as (l0 & Hl0 & H). destruct (lk_control l0) as [|d ms pr|].
      + destruct (negb _); injection H as <- <-; [|apply adds_refl]. apply adds_cons; [apply adds_refl|apply F2].
      + apply bind_ok in H. destruct H as ((c & a1) & Hc1 & H). cbn [fst snd] in H. assert (adds foreign a a1) as A1.
        { unfold can_enter in Hc1. apply bind_ok in Hc1. destruct Hc1 as (o & _ & Hc1). destruct o; injection Hc1 as <- <-; [|apply adds_refl]. apply adds_cons; [apply adds_refl|]. cbn [own]. unfold get_link in Hl0. apply of_option_ok in Hl0. rewrite (lo_id _ _ _ (nk_link _ N _ _ Hl0)). exact Pl. }
        destruct c; injection H as <- <-; apply adds_cons; auto.
      + injection H as <- <-. apply adds_cons; [apply adds_refl|apply F1].
  Qed.
  Lemma stoplines_foreign fu k l a a' : part k = false -> sm_get L k = Some l -> apply_stoplines fu L V l a = Ok a' -> LR a a'.
  Proof.
    intros Pk Gl H. apply adds_LR. unfold apply_stoplines in H. eapply process_adds; [exact N|exact Hl| |exact Gl|exact H]. intros lg r lg' b Ro Hr. eapply stop_foreign; [|exact Ro|exact Hr]. rewrite (lo_id _ _ _ (nk_link _ N _ _ Gl)). exact Pk.
  Qed.
  Lemma follow_foreign limit ids : forall a a', (forall x, In x ids -> CV x = false) -> follow_on_link V limit ids a = Ok a' -> adds foreign a a'.
  Proof.
    induction ids as [|id ids IH]; intros a a' Hc H; cbn [follow_on_link] in H; [injection H as <-; apply adds_refl|]. assert (CV id = false) as Hid by (apply Hc; left; reflexivity). destruct ids as [|id2 ids].
    - apply bind_ok in H. destruct H as (v & _ & H). injection H as <-. apply adds_cons; [apply adds_refl|exact Hid].
    - apply bind_ok in H. destruct H as (v & _ & H). apply bind_ok in H. destruct H as (v2 & _ & H). apply IH in H; [|intros x Hx; apply Hc; right; exact Hx]. eapply adds_trans; [|exact H]. apply adds_cons; [|exact Hid]. apply adds_cons; [apply adds_refl|exact Hid].
  Qed.
  Lemma entering_foreign l tgt a r a' b : part tgt = false -> rv_ok V tgt r -> entering_cb V l a r = Ok (a', b) -> adds foreign a a'.
  Proof.
    intros Pt Ro H. pose proof (rv_col _ _ Ro) as Hc. rewrite Pt in Hc. unfold entering_cb in H. assert (adds foreign a (rv_speed_limit r (lk_limit l) n0 ++ a)) as A1.
    { unfold rv_speed_limit. destruct (vx_speed_limit _ _ _); [|apply adds_refl]. apply adds_cons; [apply adds_refl|exact Hc]. }
    destruct (hd_error (lk_vehicles l)); [|injection H as <- <-; exact A1]. apply bind_ok in H. destruct H as (v & _ & H). injection H as <- <-. apply adds_cons; [exact A1|exact Hc].
  Qed.
  Lemma obstacle_foreign fu self o tgt a r a' b : part tgt = false -> rv_ok V tgt r -> obstacle_cb fu self o a r = Ok (a', b) -> adds foreign a a'.
  Proof.
    intros Pt Ro H. pose proof (rv_col _ _ Ro) as Hc. rewrite Pt in Hc. unfold obstacle_cb in H. apply bind_ok in H. destruct H as (p & _ & H). destruct p; injection H as <- <-; [apply adds_refl|]. apply adds_cons; [apply adds_refl|exact Hc].
  Qed.
  Lemma accelerations_foreign fu k l a a' : part k = false -> sm_get L k = Some l -> apply_accelerations fu L V l a = Ok a' -> LR a a'.
  Proof.
    intros Pk Gl H. apply adds_LR. pose proof (lo_id _ _ _ (nk_link _ N _ _ Gl)) as Ei. unfold apply_accelerations in H. apply bind_ok in H. destruct H as (a1 & H1 & H). apply bind_ok in H. destruct H as (a2 & H2 & H).
    eapply adds_trans; [eapply follow_foreign; [|exact H1]; intros x Hx; rewrite (Lc k l x Gl Hx); exact Pk|]. eapply adds_trans.
    { eapply process_adds; [exact N|exact Hl| |exact Gl|exact H2]. intros lg r lg' b Ro Hr. eapply entering_foreign; [|exact Ro|exact Hr]. rewrite Ei. exact Pk. }
    destruct (lk_group l) as [g|] eqn:Eg; [|injection H as <-; apply adds_refl]. apply bind_ok in H. destruct H as (ps & Hps & H). eapply foldM_adds; [|exact H]. intros p lga lgb Hp Hq. cbn beta in Hq. apply bind_ok in Hq. destruct Hq as (l2 & Hl2 & Hq). unfold get_link in Hl2. apply of_option_ok in Hl2.
    assert (part (pj_dst p) = false) as Pd. { rewrite (proj_col L N C k l g ps p Gl Eg Hps Hp). exact Pk. } pose proof (lo_id _ _ _ (nk_link _ N _ _ Hl2)) as E2. revert Hq. generalize 0 as skip. revert lga. generalize (rev (lk_vehicles l)) as ids.
    induction ids as [|id ids IH]; intros lga skip Hq; cbn [follow_obstacles] in Hq; [injection Hq as <-; apply adds_refl|]. apply bind_ok in Hq. destruct Hq as (v & _ & Hq). apply bind_ok in Hq. destruct Hq as (o & _ & Hq). apply bind_ok in Hq. destruct Hq as (c & _ & Hq). cbv zeta in Hq. apply bind_ok in Hq. destruct Hq as (lg & Hpr & Hq).
    eapply adds_trans; [|eapply IH; exact Hq]. eapply process_adds; [exact N|exact Hl| |exact Hl2|exact Hpr]. intros lg0 r lg1 b Ro Hr. eapply obstacle_foreign; [|exact Ro|exact Hr]. rewrite E2. exact Pd.
  Qed.
  Definition fbuf (l : list relveh) : Prop := Forall (fun r => CV (rv_key r) = false) l.
  Lemma find_foreign fu c a a' : part (cpl_link c) = false -> fbuf a -> find_vehicles fu L V c a = Ok a' -> fbuf a'.
  Proof.
    intros Pc Ha H. unfold find_vehicles in H. apply bind_ok in H. destruct H as (l & Hl0 & H). unfold get_link in Hl0. apply of_option_ok in Hl0.
    refine (safe_ok T _ fbuf _ (process_safe T _ fbuf L V (cpl_link c) _ N Hl fu _ l 0 _ 0 a Hl0 Ha) H). intros s r Hs Ro. apply safe_post. intros (s', b) E. injection E as <- <-. cbn [fst]. destruct (nltb _ _); [|exact Hs]. apply Forall_app. split; [exact Hs|]. constructor; [|constructor]. rewrite (rv_col _ _ Ro). exact Pc.
  Qed.
  Lemma insert_foreign r a : CV (rv_key r) = false -> fbuf a -> fbuf (insert_desc r a).
  Proof. intros Hr H. induction H as [|x a Hx H IH]; cbn [insert_desc]; [constructor; [exact Hr|constructor]|]. destruct (nltb _ _); [constructor; [exact Hr|constructor; auto]|constructor; auto]. Qed.
  Lemma pairs_foreign same : forall l a, fbuf l -> adds foreign a (conflict_pairs same l a).
  Proof.
    intros l. induction l as [|x l IH]; intros a F; [apply adds_refl|]. destruct l as [|y l]; [apply adds_refl|]. cbn [conflict_pairs]. inversion F as [|? ? F1 F2]; subst. eapply adds_trans; [|apply IH; exact F2]. inversion F2 as [|? ? F3 F4]; subst. destruct (negb _); [|apply adds_refl]. destruct (_ && _); (apply adds_cons; [apply adds_refl|exact F3]).
  Qed.
  Lemma cp_foreign fu c a a' : part (cpl_link (cp_a c)) = false -> part (cpl_link (cp_b c)) = false -> cp_apply fu L V c a = Ok a' -> LR a a'.
  Proof.
    intros Pa Pb H. apply adds_LR. unfold cp_apply in H. apply bind_ok in H. destruct H as (bf1 & H1 & H). apply find_foreign in H1; [|exact Pa|constructor]. destruct bf1 as [|r bf1]; [injection H as <-; apply adds_refl|]. apply bind_ok in H. destruct H as (bf2 & H2 & H). apply find_foreign in H2; [|exact Pb|exact H1].
    destruct (Nat.eqb _ _); [injection H as <-; apply adds_refl|]. apply bind_ok in H. destruct H as (l & Hs & H). injection H as <-. apply pairs_foreign. unfold sort_desc in Hs. destruct (_ && _); [discriminate Hs|]. injection Hs as <-.
    assert (forall d c, fbuf d -> fbuf c -> fbuf (fold_left (fun acc r => insert_desc r acc) d c)) as K; [|apply K; [exact H2|constructor]]. induction d as [|x d IH]; intros c0 Fd Fc; [exact Fc|]. cbn [fold_left]. inversion Fd as [|? ? F1 F2]; subst. apply IH; [exact F2|]. apply insert_foreign; auto.
  Qed.
  End Rest.
End LocScan.
