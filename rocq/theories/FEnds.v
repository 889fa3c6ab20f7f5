(** * The searches of an acceleration update end in binary64 too, if all numbers are of a moderate size (C50) *)
From Coq Require Import List Bool ZArith NArith Arith Lia Reals Lra Psatz.
From Flocq Require Import Core IEEE754.BinarySingleNaN.
From Verif Require Import Arith F64 RealArith Ord FloatLaws FBound Base BaseProofs SlotMap SlotMapProofs Util Geom Light Accel Net Path Vehicle LinkOps Sim EndsProofs.
Import ListNotations.
Local Open Scope R_scope.
Ltac repz := apply rep_Z; vm_compute; discriminate.

Definition len_ok (x : f64) : Prop := inr x (/128) 1048576.
Definition lim_ok (x : f64) : Prop := inr x (/16) 256.
Definition acc_ok (x : f64) : Prop := inr x (/128) 128.
Definition veh_ok (v : @vehicle F64) : Prop := acc_ok (am_max (v_acc v)) /\ inr (v_vel v) 0 1024 /\ inr (v_pos v) (-1048576) 2097152.
(** A place from which vehicles are looked for. *)
Definition place_ok (x : f64) : Prop := inr x (-2) 2097152.

Lemma grow (x d : f64) : inr x (-4194304) 8796093022208 -> len_ok d -> inr (@nadd F64 x d) (B2R x + /256) (B2R x + 2097152) /\ B2R (@nadd F64 x d) <= 17592186044416.
Proof.
  intros (Fx & Hx) (Fd & Hd). destruct (plus_in x d (-4194304) 17592186044416 Fx Fd) as ((F & B) & E); [lra|repz|repz|].
  assert (Rabs (B2R x + B2R d) <= bpow radix2 44) as K by (apply Rabs_le; change (bpow radix2 44) with 17592186044416; lra).
  pose proof (rnd_err (B2R x + B2R d) 44 ltac:(lia) K) as Er. change (bpow radix2 (44 - 53)) with (/512) in Er. rewrite <- E in Er. apply Rabs_le_inv in Er. split; [split; [exact F|]|]; lra.
Qed.
Lemma half_in : inr (@nhalf F64) 0 1. Proof. assert (is_finite (@nhalf F64) = true) as F by reflexivity. split; [exact F|]. assert (B2SF (@nhalf F64) = SpecFloat.S754_finite false 4503599627370496 (-53)) as E by (vm_compute; reflexivity). rewrite <- SF2R_B2SF, E. simpl. unfold F2R. simpl. lra. Qed.
Lemma two_in : inr (@n2 F64) 2 2. Proof. split; [reflexivity|]. unfold B2R. simpl. unfold F2R. simpl. lra. Qed.
Lemma zero_in : inr (@n0 F64) 0 0. Proof. split; [reflexivity|]. unfold B2R. simpl. lra. Qed.

Lemma div_bounds (x y a b c : R) : a <= x <= b -> a <= 0 <= b -> / c <= y -> 0 < c -> a * c <= x / y <= b * c.
Proof.
  intros H1 H2 H3 Hc. assert (0 < / c) as Pc by (apply Rinv_0_lt_compat; exact Hc). assert (0 < y) as Py by lra. assert (0 < / y <= c) as Hy. { split; [apply Rinv_0_lt_compat; exact Py|]. rewrite <- (Rinv_inv c). apply Rinv_le_contravar; assumption. }
  unfold Rdiv. split; nra.
Qed.
Lemma reach_in (m : @accel F64) (vel dist mv : f64) : acc_ok (am_max m) -> inr vel 0 1024 -> inr dist 0 16777216 -> lim_ok mv ->
  inr (@am_min_reach_time F64 m vel dist mv) (-8589934592) 8589934592.
Proof.
  intros (Fa & Ha) (Fv & Hv) (Fd & Hd) (Fm & Hm). unfold am_min_reach_time, powi2. cbv zeta.
  destruct two_in as (F2 & H2). destruct half_in as (Fh & Hh).
  destruct (mult_in (@n2 F64) (am_max m) 0 256 F2 Fa) as ((F1 & B1) & _); [nra|repz|repz|].
  destruct (mult_in _ dist 0 4294967296 F1 Fd) as ((F3 & B3) & _); [nra|repz|repz|].
  destruct (mult_in vel vel 0 1048576 Fv Fv) as ((F4 & B4) & _); [nra|repz|repz|].
  destruct (plus_in _ _ 0 8589934592 F3 F4) as ((F5 & B5) & _); [lra|repz|repz|].
  match goal with |- context [@nltb ?A ?x ?y] => destruct (@nltb A x y) end.
  - destruct (sqrt_in _ 131072 F5) as (F6 & B6); [apply B5| |repz|]. { rewrite <- (sqrt_square 131072) by lra. apply sqrt_le_1_alt. lra. }
    destruct (minus_in _ vel (-1024) 131072 F6 Fv) as ((F7 & B7) & _); [lra|repz|repz|].
    pose proof (div_bounds _ (B2R (am_max m)) (-1024) 131072 128 B7 ltac:(lra) ltac:(lra) ltac:(lra)) as D.
    destruct (div_in _ (am_max m) (-8589934592) 8589934592 F7) as (R & _); [lra|lra|repz|repz|exact R].
  - destruct (minus_in mv vel (-1024) 256 Fm Fv) as ((F7 & B7) & _); [lra|repz|repz|].
    pose proof (div_bounds _ (B2R (am_max m)) (-1024) 256 128 B7 ltac:(lra) ltac:(lra) ltac:(lra)) as D.
    destruct (div_in _ (am_max m) (-131072) 32768 F7) as ((F8 & B8) & _); [lra|lra|repz|repz|].
    destruct (plus_in vel mv 0 1280 Fv Fm) as ((F9 & B9) & _); [lra|repz|repz|].
    destruct (mult_in (@nhalf F64) _ 0 1280 Fh F9) as ((F10 & B10) & _); [nra|repz|repz|].
    destruct (mult_in _ _ (-268435456) 268435456 F10 F8) as ((F11 & B11) & _); [nra|repz|repz|].
    destruct (minus_in dist _ (-268435456) 285212672 Fd F11) as ((F12 & B12) & _); [lra|repz|repz|].
    pose proof (div_bounds _ (B2R mv) (-268435456) 285212672 16 B12 ltac:(lra) ltac:(lra) ltac:(lra)) as D2.
    destruct (div_in _ mv (-4294967296) 4563402752 F12) as ((F13 & B13) & _); [lra|lra|repz|repz|].
    destruct (plus_in _ _ (-8589934592) 8589934592 F8 F13) as (R & _); [lra|repz|repz|exact R].
Qed.
Lemma reach_time_in (r : @relveh F64) (lself own mv : f64) : veh_ok (rv_veh r) -> place_ok (rv_pos r) -> len_ok lself -> inr own (-1) 1048577 -> lim_ok mv ->
  inr (@nadd F64 (@rv_min_reach_time F64 (@rv_offset F64 r lself) own mv) (@GAP_BUFFER F64)) (-17179869184) 17179869184.
Proof.
  intros (Ha & Hv & (Fp & Hp')) (Fr & Hr) (Fl & Hl) (Fo & Ho) Hm. unfold rv_min_reach_time, min_reach_time, rv_offset. cbn [rv_pos rv_veh].
  destruct (plus_in (rv_pos r) lself (-2) 3145728 Fr Fl) as ((F1 & B1) & _); [lra|repz|repz|].
  destruct (plus_in _ own (-3) 4194305 F1 Fo) as ((F2 & B2) & _); [lra|repz|repz|].
  destruct (minus_in _ (v_pos (rv_veh r)) (-2097155) 5242881 F2 Fp) as ((F3 & B3) & _); [lra|repz|repz|].
  destruct zero_in as (F0 & B0). destruct (max_in _ _ F3 F0) as (F4 & B4).
  assert (inr (@nmax F64 (@nsub F64 (@nadd F64 (@nadd F64 (rv_pos r) lself) own) (v_pos (rv_veh r))) (@n0 F64)) 0 16777216) as Hd.
  { split; [exact F4|]. rewrite B4. split; [eapply Rle_trans; [|apply Rmax_r]; lra|apply Rmax_lub; lra]. }
  destruct (reach_in _ _ _ _ Ha Hv Hd Hm) as (F5 & B5). destruct half_in as (Fh & Bh).
  destruct (plus_in _ (@GAP_BUFFER F64) (-17179869184) 17179869184 F5 Fh) as (R & _); [|repz|repz|exact R]. unfold GAP_BUFFER. lra.
Qed.

Section Ends.
  Variables (links : @linkset F64) (vs : @vehset F64).
  Hypothesis HL : forall k l, sm_get links k = Some l -> len_ok (lk_length l) /\ lim_ok (lk_limit l).
  Hypothesis HV : forall k v, sm_get vs k = Some v -> veh_ok v.
  (** The conflicts recorded at a link. *)
  Hypothesis HC : forall k l c, sm_get links k = Some l -> In c (lk_conflicts l) -> inr (cf_own_max c) (-1) 1048577 /\ inr (cf_min c) (-1) 1048577.
  Definition good (r : @relveh F64) : Prop := veh_ok (rv_veh r) /\ place_ok (rv_pos r).

  Section Scan.
    Context {S_ : Type}.
    Variable func : nat -> S_ -> @relveh F64 -> res (S_ * bool).
    Hypothesis Hf : forall s r, good r -> settles (fun n => func n s r).
    Lemma settles_scan64 len route pos mp ids : place_ok pos -> forall s, settles (fun n => @scan F64 S_ (func n) vs len route pos mp ids s).
    Proof.
      intros Hpos. induction ids as [|id ids IH]; intros s; [apply settles_ok|]. cbn [scan]. apply settles_bind_fin; [apply fin_get_vehicle|]. intros v G. unfold get_vehicle in G. apply of_option_ok in G.
      destruct (nltb _ _); [apply settles_ok|]. destruct (get_route v (fst route)) as [(l & st)|]; [|apply IH]. destruct (negb _); [apply IH|].
      assert (settles (fun n => bind (func n s (RV id v (fst route) pos)) (fun sb => if snd sb then scan (func n) vs len route pos mp ids (fst sb) else Ok (fst sb, Stop)))) as K.
      { apply (settles_bind (fun n => func n s (RV id v (fst route) pos)) (fun n sb => if snd sb then scan (func n) vs len route pos mp ids (fst sb) else Ok (fst sb, Stop))); [apply Hf; split; [exact (HV _ _ G)|exact Hpos]|].
        intros (s' & [|]); [apply IH|apply settles_ok]. }
      destruct st; try exact K; (destruct (nltb _ _); [apply settles_ok|exact K]).
    Qed.
    (** Where the search stops. *)
    Lemma five_in (lim : f64) : lim_ok lim -> inr (@nmul F64 (@MAX_LOOKAHEAD F64) lim) 0 1280.
    Proof.
      intros (F & B). assert (is_finite (@MAX_LOOKAHEAD F64) = true) as F5 by reflexivity. assert (B2R (@MAX_LOOKAHEAD F64 : f64) = 5) as E5.
      { assert (B2SF (@MAX_LOOKAHEAD F64) = SpecFloat.S754_finite false 5629499534213120 (-50)) as E by (vm_compute; reflexivity). rewrite <- SF2R_B2SF, E. simpl. unfold F2R. simpl. lra. }
      destruct (mult_in _ lim 0 1280 F5 F) as (K & _); [rewrite E5; lra|repz|repz|exact K].
    Qed.
    Lemma far_in (pos lim : f64) : place_ok pos -> lim_ok lim ->
      if @nleb F64 (@n0 F64) (@nsub F64 pos (@nmul F64 (@MAX_LOOKAHEAD F64) lim)) then True else B2R pos < 1280.
    Proof.
      intros (F & B) Hl. destruct (five_in _ Hl) as (F5 & B5). destruct (minus_in pos _ (-2000) 2097152 F F5) as ((F1 & B1) & E1); [lra|repz|repz|]. destruct zero_in as (F0 & B0).
      rewrite (leb_in _ _ F0 F1). destruct (Rle_bool_spec (B2R (@n0 F64 : f64)) (B2R (@nsub F64 pos (@nmul F64 (@MAX_LOOKAHEAD F64) lim)))) as [|L]; [exact Logic.I|].
      destruct (Rlt_le_dec (B2R pos) 1280) as [|G]; [assumption|]. exfalso. assert (0 <= B2R pos - B2R (@nmul F64 (@MAX_LOOKAHEAD F64) lim)) as P by lra. apply rnd_mono in P. rewrite rnd_0 in P. lra.
    Qed.
    Lemma settles_process64_from (m : nat) : forall k (l : @link F64) route (pos : f64) skip s, lim_ok (lk_limit l) -> place_ok pos -> 1280 <= B2R pos + INR m * /256 ->
      settles (fun n => @process_vehicles F64 S_ (func n) (n - k) links vs l route pos skip s).
    Proof.
      induction m as [|m IH]; intros k l route pos skip s Hl Hpos Hm;
        (eapply settles_late with (n := S k); [intros fuel L; replace (fuel - k)%nat with (S (fuel - S k)) by lia; cbn [process_vehicles]; reflexivity|]);
        (destruct (negb (lk_active l)); [apply settles_ok|]); (eapply settles_bind; [apply settles_scan64; exact Hpos|]); (intros (s' & [|]); [apply settles_ok|]); cbn [fst snd];
        pose proof (far_in pos (lk_limit l) Hpos Hl) as Far; destruct (nleb _ _); try apply settles_ok.
      - cbn [INR] in Hm. lra.
      - eapply (settles_foldM (fun n s id => _)). intros s0 id _. cbv beta. apply settles_bind_fin; [apply fin_get_link|]. intros l' G. unfold get_link in G. apply of_option_ok in G. destruct (HL _ _ G) as (L1 & L2).
        destruct Hpos as (F & B). destruct (grow pos (lk_length l')) as ((F1 & B1) & _); [split; [exact F|lra]|exact L1|]. pose proof L1 as (Fl & Bl).
        destruct (plus_in pos (lk_length l') (-2) 1049856 F Fl) as ((_ & B2) & _); [lra|repz|repz|].
        apply IH; [exact L2|split; [exact F1|lra]|]. rewrite S_INR in Hm. change (@nadd F64 pos (lk_length l')) with (Bplus mode_NE pos (lk_length l')) in *. lra.
    Qed.
    Lemma settles_process64 (l : @link F64) route (pos : f64) skip s : lim_ok (lk_limit l) -> place_ok pos -> settles (fun n => @process_vehicles F64 S_ (func n) n links vs l route pos skip s).
    Proof.
      intros Hl Hpos. destruct (nat_above ((1280 - B2R pos) * 256)) as (m & Hm). refine (settles_late _ _ 0%nat _ (settles_process64_from m 0 l route pos skip s Hl Hpos _)); [intros fuel _; rewrite Nat.sub_0_r; reflexivity|]. lra.
    Qed.
  End Scan.
  Lemma settles_gap64_from (time : f64) q (m : nat) : forall k (l : @link F64) (p0 p1 : f64) route (mv : f64), inr time (-17179869184) 17179869184 -> lim_ok (lk_limit l) -> inr mv 0 256 -> inr p0 (-4194304) 17592186044416 ->
    8796093022208 <= B2R p0 + INR m * /256 -> settles (fun n => @check_gap F64 (n - k) links vs l (p0, p1) time q route mv).
  Proof.
    induction m as [|m IH]; intros k l p0 p1 route mv Ht Hl Hmv Hp0 Hm;
      (eapply settles_late with (n := S k); [intros fuel L; replace (fuel - k)%nat with (S (fuel - S k)) by lia; cbn [check_gap fst snd]; reflexivity|]);
      (apply settles_bind_fin; [apply fin_skip_past|]; intros ids _); (apply settles_bind_fin; [apply fin_gap_loop|]; intros [b|] _; [apply settles_ok|]);
      assert (inr (@nmax F64 mv (lk_limit l)) (/16) 256) as Hx by (destruct Hmv as (Fv & Bv), Hl as (Fl & Bl); destruct (max_in _ _ Fv Fl) as (F & E); split; [exact F|]; rewrite E; split; [eapply Rle_trans; [|apply Rmax_r]; lra|apply Rmax_lub; lra]);
      assert (if @nltb F64 time (@ndiv F64 p0 (@nmax F64 mv (lk_limit l))) then True else B2R p0 < 8796093022208) as Far.
    1, 3: destruct Hx as (Fx & Bx), Hp0 as (Fp & Bp), Ht as (Ft & Bt); destruct (Rlt_le_dec (B2R p0) 8796093022208) as [L|L]; [destruct (nltb _ _); auto|];
      assert (34359738368 <= B2R p0 / B2R (@nmax F64 mv (lk_limit l)) <= 281474976710656) as D;
      [unfold Rdiv; assert (/256 <= / B2R (@nmax F64 mv (lk_limit l)) <= 16) as Hi by (split; [apply Rinv_le_contravar; lra|rewrite <- (Rinv_inv 16); apply Rinv_le_contravar; lra]); split; nra|];
      destruct (div_in p0 (@nmax F64 mv (lk_limit l)) 34359738368 281474976710656 Fp) as ((Fd & Bd) & _); [lra|exact D|repz|repz|];
      rewrite (ltb_in _ _ Ft Fd), Rlt_bool_true by lra; exact Logic.I.
    - match goal with |- context [@nltb ?A ?x ?y] => destruct (@nltb A x y) end; [apply settles_ok|]. cbn [INR] in Hm. lra.
    - match goal with |- context [@nltb ?A ?x ?y] => destruct (@nltb A x y) end; [apply settles_ok|].
      eapply (settles_allM (fun n id => _)). intros id _. cbv beta. apply settles_bind_fin; [apply fin_get_link|]. intros l' G. unfold get_link in G. apply of_option_ok in G. destruct (HL _ _ G) as (L1 & L2).
      destruct Hp0 as (F & B). destruct (grow p0 (lk_length l')) as ((F1 & B1) & B2); [split; [exact F|lra]|exact L1|].
      apply IH; [exact Ht|exact L2| | |].
      + destruct Hx as (Fx & Bx). split; [exact Fx|lra].
      + split; [exact F1|lra].
      + rewrite S_INR in Hm. change (@nadd F64 p0 (lk_length l')) with (Bplus mode_NE p0 (lk_length l')) in *. lra.
  Qed.
  Lemma settles_gap64 (time : f64) q (l : @link F64) (p0 p1 : f64) route (mv : f64) : inr time (-17179869184) 17179869184 -> lim_ok (lk_limit l) -> inr mv 0 256 -> inr p0 (-4194304) 17592186044416 -> settles (fun n => @check_gap F64 n links vs l (p0, p1) time q route mv).
  Proof.
    intros Ht Hl Hm Hp0. destruct (nat_above ((8796093022208 - B2R p0) * 256)) as (m & Hx). refine (settles_late _ _ 0%nat _ (settles_gap64_from time q m 0 l p0 p1 route mv Ht Hl Hm Hp0 _)); [intros fuel _; rewrite Nat.sub_0_r; reflexivity|]. lra.
  Qed.
  Lemma settles_enter64 k l r lself q pr idxs : sm_get links k = Some l -> good r -> len_ok lself -> settles (fun n => @enter_loop F64 n links vs l (rv_offset r lself) q pr idxs).
  Proof.
    intros G (Gv & Gp) Hs. destruct (HL _ _ G) as (_ & Hlim). induction idxs as [|i idxs IH]; [apply settles_ok|]. cbn [enter_loop]. apply settles_bind_fin; [apply fin_option|]. intros c Hc. apply of_option_ok in Hc. apply nth_error_In in Hc.
    destruct (HC _ _ _ G Hc) as (Ho & Hmn). apply settles_bind_fin; [apply fin_get_link|]. intros l2 G2. unfold get_link in G2. apply of_option_ok in G2. destruct (HL _ _ G2) as (L1 & L2).
    eapply settles_bind; [apply settles_gap64|intros [|]; [exact IH|apply settles_ok]].
    - apply reach_time_in; assumption.
    - exact L2.
    - destruct zero_in as (F0 & B0). split; [exact F0|lra].
    - destruct Hmn as (Fm & Bm). split; [exact Fm|lra].
  Qed.
  Lemma settles_stopline64 (self : @link F64) log (r : @relveh F64) : len_ok (lk_length self) -> good r -> settles (fun n => @stopline_cb F64 n links vs self log r).
  Proof.
    intros Hs Hr. unfold stopline_cb. destruct (rv_route r 1) as [(id & st)|]; [|apply settles_fin; fins]. destruct st as [|f|]; [| |apply settles_ok]; (apply settles_bind_fin; [apply fin_get_link|]; intros l G; unfold get_link in G; apply of_option_ok in G); destruct (lk_control l) as [|dist ms pr|]; try (apply settles_fin; fins; fail).
    unfold can_enter. eapply settles_bind; [|intros [[|] lg]; apply settles_ok]. eapply settles_bind; [eapply settles_enter64; eassumption|]. intros [i|]; apply settles_ok.
  Qed.
  Hypothesis HG : forall k l, sm_get links k = Some l -> lk_group l = None.
  Lemma settles_accelerations64 k (l : @link F64) log : sm_get links k = Some l -> settles (fun n => @apply_accelerations F64 n links vs l log).
  Proof.
    intros G. destruct (HL _ _ G) as (L1 & L2). unfold apply_accelerations. apply settles_bind_fin; [apply fin_follow_on|]. intros log1 _.
    eapply settles_bind; [apply (settles_process64 (fun _ => entering_cb vs l)); [intros s r _; apply settles_fin, fin_entering|exact L2|destruct zero_in as (F0 & B0); split; [exact F0|lra]]|].
    intros log2. rewrite (HG _ _ G). apply settles_ok.
  Qed.
  Lemma settles_find64 (c : @cpoint_link F64) buf : place_ok (cpl_min c) -> settles (fun n => @find_vehicles F64 n links vs c buf).
  Proof.
    intros Hc. unfold find_vehicles. apply settles_bind_fin; [apply fin_get_link|]. intros l G. unfold get_link in G. apply of_option_ok in G.
    apply (settles_process64 (fun _ buf r => Ok (if nltb (rv_rear r) (nsub (cpl_max c) (cpl_min c)) then buf ++ [r] else buf, true))); [intros s r _; apply settles_ok|apply (HL _ _ G)|exact Hc].
  Qed.
  Lemma settles_conflict64 (c : @cpoint F64) log : place_ok (cpl_min (cp_a c)) -> place_ok (cpl_min (cp_b c)) -> settles (fun n => @cp_apply F64 n links vs c log).
  Proof.
    intros Ha Hb. unfold cp_apply. eapply settles_bind; [apply settles_find64; exact Ha|]. intros [|r b1']; [apply settles_ok|]. eapply settles_bind; [apply settles_find64; exact Hb|]. intros b2. apply settles_fin. destruct (Nat.eqb _ _); [discriminate|].
    apply fin_bind; [apply fin_sort|discriminate].
  Qed.
  Lemma settles_update64 (cps : list (@cpoint F64)) : (forall c, In c cps -> place_ok (cpl_min (cp_a c)) /\ place_ok (cpl_min (cp_b c))) -> settles (fun n => bind (sim_stoplines n links vs []) (fun log => sim_link_accelerations n links vs cps log)).
  Proof.
    intros Hc. assert (forall l, In l (sm_values links) -> exists k, sm_get links k = Some l) as Hv by (intros l Hl; apply in_values in Hl; exact Hl).
    eapply settles_bind.
    - unfold sim_stoplines. eapply (settles_foldM (fun n s l => _)). intros log l Hl. cbv beta. destruct (Hv _ Hl) as (k & G). destruct (HL _ _ G) as (L1 & L2). unfold apply_stoplines.
      apply (settles_process64 (fun n => stopline_cb n links vs l)); [|exact L2|destruct L1 as (F1 & B1); split; [exact F1|lra]]. intros s r Hr. apply settles_stopline64; assumption.
    - intros log. unfold sim_link_accelerations. eapply settles_bind; [eapply (settles_foldM (fun n s l => _)); intros lg l Hl; cbv beta; destruct (Hv _ Hl) as (k & G); eapply settles_accelerations64; exact G|].
      intros lg. eapply (settles_foldM (fun n s c => _)). intros lg2 c Hin. cbv beta. destruct (Hc _ Hin). apply settles_conflict64; assumption.
  Qed.
End Ends.
