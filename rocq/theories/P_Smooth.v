(** * C39: link curves in exact arithmetic *)
From Coq Require Import List Bool ZArith Arith Lia Reals Lra Psatz.
From Flocq Require Import Core.
From Coquelicot Require Import Coquelicot.
From Verif Require Import Arith RealArith Base BaseProofs SlotMap SlotMapProofs Util Geom Light Accel Net Path Vehicle LinkOps Sim SpecSim Safe NetInv SimInv StepSafe OpSafe Evo StepEvo SimProofs SimExample P_Sim NetEvo RFacts LineProofs P_Ends RaExample P_Geom P_Coord P_Curve.
Import ListNotations.
Local Open Scope R_scope.

(** ** The segments through a list of points *)
Lemma list_ind2 {T} (P : list T -> Prop) : P [] -> (forall x, P [x]) -> (forall x y l, P l -> P (y :: l) -> P (x :: y :: l)) -> forall l, P l.
Proof.
  intros H0 H1 H2 l. cut (P l /\ forall x, P (x :: l)); [tauto|]. induction l as [|a l (I1 & I2)]; [split; [exact H0|exact H1]|]. split; [apply I2|]. intros x. apply H2; [exact I1|apply I2].
Qed.
Lemma segment_mid (p1 p2 p3 : @pt RA) : qb_sample (mk_segment p1 p2 p3) (/ 2)%R = p2.
Proof. apply pt_ext; unfold qb_sample, mk_segment, n1, n2; cbn [q0 q1 q2 vlerp vadd vmul vsub vscale px py]; rewrite ?half_R; unR; field. Qed.
Lemma qb_start (q : @qbez RA) : qb_sample q 0%R = q0 q.
Proof. apply pt_ext; unfold qb_sample, n1, n2; cbn [vadd vscale px py]; unR; ring. Qed.
Lemma qb_end (q : @qbez RA) : qb_sample q 1%R = q2 q.
Proof. apply pt_ext; unfold qb_sample, n1, n2; cbn [vadd vscale px py]; unR; ring. Qed.
Definition noseg : @qbez RA := QBez vzero vzero vzero.
Lemma segments_length : forall pts : list (@pt RA), length (segments_of pts) = ((length pts - 1) / 2)%nat.
Proof.
  apply list_ind2; [reflexivity|reflexivity|]. intros p1 p2 l IH _. destruct l as [|p3 l]; [reflexivity|]. rewrite segments_cons. cbn [length] in *. rewrite IH. replace (S (S (S (length l))) - 1)%nat with (1 * 2 + (S (length l) - 1))%nat by lia. rewrite Nat.div_add_l by lia. reflexivity.
Qed.
Lemma segments_nth : forall (pts : list (@pt RA)) k d, (k < length (segments_of pts))%nat ->
  let q := nth k (segments_of pts) noseg in
  q0 q = nth (2 * k) pts d /\ qb_sample q (/ 2)%R = nth (2 * k + 1) pts d /\ q2 q = nth (2 * k + 2) pts d.
Proof.
  intros pts. pattern pts. apply list_ind2; clear pts.
  - intros k d H. cbn in H. lia.
  - intros x k d H. cbn in H. lia.
  - intros p1 p2 l IH _ k d H. destruct l as [|p3 l]; [cbn in H; lia|]. rewrite segments_cons in *. destruct k as [|k].
    + cbn [nth]. repeat split. apply segment_mid.
    + cbn [nth length] in *. specialize (IH k d ltac:(lia)). cbn zeta in *. replace (2 * S k)%nat with (S (S (2 * k))) by lia. cbn [nth Nat.add]. exact IH.
Qed.
(** The points that are given are kept. *)
Lemma make_odd_prefix (pts : list (@pt RA)) : exists ext, make_odd pts = pts ++ ext /\ (length ext <= 1)%nat /\ (2 <= length pts -> Nat.odd (length (make_odd pts)) = true)%nat.
Proof.
  unfold make_odd. destruct (Nat.even (length pts)) eqn:E.
  - destruct (rev pts) as [|p2 [|p1 r]] eqn:Er.
    + exists []. rewrite app_nil_r. split; [reflexivity|]. split; [cbn; lia|]. intros H. apply (f_equal (@length _)) in Er. rewrite rev_length in Er. cbn in Er. lia.
    + exists []. rewrite app_nil_r. split; [reflexivity|]. split; [cbn; lia|]. intros H. apply (f_equal (@length _)) in Er. rewrite rev_length in Er. cbn in Er. lia.
    + eexists. split; [reflexivity|]. split; [cbn; lia|]. intros _. rewrite app_length. cbn [length]. rewrite Nat.add_1_r, Nat.odd_succ. exact E.
  - exists []. rewrite app_nil_r. split; [reflexivity|]. split; [cbn; lia|]. intros _. unfold Nat.odd. rewrite E. reflexivity.
Qed.

(** ** The segment read at a position *)
Section Index.
  Variable lc : @link_curve RA.
  Let n := length (lc_segments lc).
  Hypothesis n_pos : (1 <= n)%nat.
  Hypothesis n_max : (Z.of_nat n <= u32_max + 1)%Z.
  (** Segment [j] is the one for the position [x], measured in segments. *)
  Definition within (j : nat) (x : R) : Prop := (j < n)%nat /\ (j = 0%nat \/ INR j <= x) /\ (S j = n \/ x < INR j + 1).
  Lemma within_unique j k x : within j x -> within k x -> j = k.
  Proof.
    intros (J1 & J2 & J3) (K1 & K2 & K3). destruct (Nat.lt_trichotomy j k) as [H|[H|H]]; [|exact H|]; exfalso.
    - assert (INR j + 1 <= INR k) by (rewrite <- S_INR; apply le_INR; lia). destruct J3 as [J3|J3]; [lia|]. destruct K2 as [K2|K2]; [lia|]. lra.
    - assert (INR k + 1 <= INR j) by (rewrite <- S_INR; apply le_INR; lia). destruct K3 as [K3|K3]; [lia|]. destruct J2 as [J2|J2]; [lia|]. lra.
  Qed.
  Lemma index_within (x : R) : within (lc_sample_index lc x) (x * lc_scale lc).
  Proof.
    unfold lc_sample_index. fold n. change (@nmul RA x (lc_scale lc)) with (x * lc_scale lc). set (y := x * lc_scale lc). cbn [ncast RA].
    destruct (Rlt_or_le y 0) as [H|H].
    - assert (Ztrunc y <= 0)%Z as Ht by (rewrite Ztrunc_ceil by lra; apply Zceil_glb; cbn; lra). replace (Z.to_nat (Z.max 0 (Z.min u32_max (Ztrunc y)))) with 0%nat by lia. cbn [Nat.min]. split; [lia|]. split; [left; reflexivity|]. right. cbn [INR]. lra.
    - rewrite Ztrunc_floor by exact H. pose proof (Zfloor_lb y) as B1. pose proof (Zfloor_ub y) as B2. assert (0 <= Zfloor y)%Z as B0 by (apply Zfloor_lub; exact H).
      destruct (Z_lt_le_dec (Zfloor y) (Z.of_nat n)) as [C|C].
      + replace (Nat.min _ _) with (Z.to_nat (Zfloor y)) by lia. unfold within. assert (INR (Z.to_nat (Zfloor y)) = IZR (Zfloor y)) as -> by (rewrite INR_IZR_INZ, Z2Nat.id by exact B0; reflexivity). split; [lia|]. split; [right; exact B1|right; lra].
      + replace (Nat.min _ _) with (n - 1)%nat by lia. split; [lia|]. split; [|left; lia]. right. assert (INR (n - 1) <= IZR (Zfloor y)) by (rewrite INR_IZR_INZ; apply IZR_le; lia). lra.
  Qed.
  Lemma index_is j (x : R) : within j (x * lc_scale lc) -> lc_sample_index lc x = j.
  Proof. intros H. eapply within_unique; [apply index_within|exact H]. Qed.
  Lemma centre_at j (x : R) : within j (x * lc_scale lc) ->
    sample_centre lc x = LSample (qb_sample (nth j (lc_segments lc) noseg) (x * lc_scale lc - INR j)) (normalize (qb_dt (nth j (lc_segments lc) noseg) (x * lc_scale lc - INR j))).
  Proof.
    intros H. unfold sample_centre, lc_seg. rewrite (index_is j x H). fold noseg. change (@nsub RA (@nmul RA x (lc_scale lc)) (@nofZ RA (Z.of_nat j))) with (x * lc_scale lc - IZR (Z.of_nat j)). rewrite <- INR_IZR_INZ. reflexivity.
  Qed.
End Index.

Lemma with_step_built fuel (c : @curve RA) (step : R) pts (len : R) lc : equidistant_points_along_curve fuel c step = Ok (pts, len) -> lc_with_step fuel c step = Ok lc ->
  lc_scale lc = (/ 2 / step)%R /\ lc_length lc = len /\ lc_segments lc = segments_of (make_odd pts) /\ segments_of (make_odd pts) <> [].
Proof.
  intros E H. unfold lc_with_step in H. rewrite E in H. cbn [bind fst snd] in H. destruct (segments_of (make_odd pts)) as [|sg sgs] eqn:Es; [discriminate H|]. assert (lc = @LinkCurve RA (@ndiv RA nhalf step) len (sg :: sgs)) as -> by congruence. cbn [lc_scale lc_length lc_segments]. rewrite half_R. repeat split. discriminate.
Qed.
Lemma built_segments (pts : list (@pt RA)) : segments_of (make_odd pts) <> [] -> let n := length (segments_of (make_odd pts)) in (1 <= n)%nat /\ length (make_odd pts) = (2 * n + 1)%nat /\ (length pts <= 2 * n + 1)%nat /\ (2 * n <= length pts)%nat.
Proof.
  intros N n. destruct (make_odd_prefix pts) as (ext & E & Le & Ho). pose proof (segments_length (make_odd pts)) as L. fold n in L.
  assert (1 <= n)%nat as N1. { unfold n. destruct (segments_of (make_odd pts)); [congruence|cbn; lia]. }
  assert (2 <= length pts)%nat as L2. { destruct (le_lt_dec 2 (length pts)) as [H|H]; [exact H|]. exfalso. rewrite E, app_length in L. assert (length pts + length ext - 1 <= 1)%nat by lia. assert ((length pts + length ext - 1) / 2 = 0)%nat by (apply Nat.div_small; lia). lia. }
  specialize (Ho L2). apply Nat.odd_spec in Ho. destruct Ho as (m & Em). rewrite Em in L. replace (2 * m + 1 - 1)%nat with (m * 2)%nat in L by lia. rewrite Nat.div_mul in L by lia. subst m. split; [exact N1|]. split; [exact Em|]. rewrite E, app_length in Em. lia.
Qed.
(** The curve passes through the [i]th computed point at [i] times the step. *)
Theorem C39_points : forall fuel (c : @curve RA) (step : R) pts (len : R) lc, 0 < step -> equidistant_points_along_curve fuel c step = Ok (pts, len) -> lc_with_step fuel c step = Ok lc ->
  (Z.of_nat (length pts) <= 2 ^ 32)%Z -> forall i p, nth_error pts i = Some p -> sm_pos (sample_centre lc (INR i * step)) = p.
Proof.
  intros fuel c step pts len lc Hs E H Hl i p Hi. destruct (with_step_built _ _ _ _ _ _ E H) as (Es & _ & Eg & N). destruct (built_segments pts N) as (N1 & No & N2 & N3). set (n := length (segments_of (make_odd pts))) in *.
  assert (i < length pts)%nat as Li by (apply nth_error_Some; congruence).
  assert (forall k, k < length pts -> nth k (make_odd pts) p = nth k pts p)%nat as Hk. { intros k Hk. destruct (make_odd_prefix pts) as (ext & -> & _). apply app_nth1. exact Hk. }
  assert (nth i pts p = p) as Hp by (apply nth_error_nth; exact Hi).
  assert (INR i * step * lc_scale lc = INR i * / 2) as Ey by (rewrite Es; field; lra).
  pose proof (Nat.div_mod i 2 ltac:(lia)) as D. pose proof (Nat.mod_upper_bound i 2 ltac:(lia)) as D2. set (k := (i / 2)%nat) in *.
  assert (length (lc_segments lc) = n) as Ln by (rewrite Eg; reflexivity).
  assert (Z.of_nat n <= u32_max + 1)%Z as Nm by (unfold u32_max; lia).
  destruct (Nat.eq_dec k n) as [Ek|Nk].
  - (* the last point *) assert (i = 2 * n)%nat as Ei by lia. rewrite (centre_at lc) with (j := (n - 1)%nat); [|lia|lia|].
    + cbn [sm_pos]. rewrite Ey, Eg. replace (INR i * / 2 - INR (n - 1)) with 1 by (rewrite Ei, mult_INR, minus_INR by lia; cbn [INR]; lra). rewrite qb_end. destruct (segments_nth (make_odd pts) (n - 1) p) as (_ & _ & ->); [fold n; lia|]. replace (2 * (n - 1) + 2)%nat with i by lia. rewrite Hk by exact Li. exact Hp.
    + split; [lia|]. split; [|left; lia]. right. rewrite Ey, Ei, mult_INR, minus_INR by lia. cbn [INR]. lra.
  - assert (k < n)%nat as Kn by lia. rewrite (centre_at lc) with (j := k); [|lia|lia|].
    + cbn [sm_pos]. rewrite Ey, Eg. destruct (segments_nth (make_odd pts) k p) as (S0 & S1 & _); [fold n; lia|]. destruct (i mod 2)%nat as [|[|r]] eqn:Er; [| |lia].
      * replace (INR i * / 2 - INR k) with 0 by (rewrite D, Nat.add_0_r, mult_INR; cbn [INR]; lra). rewrite qb_start, S0. replace (2 * k)%nat with i by lia. rewrite Hk by exact Li. exact Hp.
      * replace (INR i * / 2 - INR k) with (/ 2) by (rewrite D, plus_INR, mult_INR; cbn [INR]; lra). rewrite S1. replace (2 * k + 1)%nat with i by lia. rewrite Hk by exact Li. exact Hp.
    + assert (INR k <= INR i * / 2 < INR k + 1). { rewrite D, plus_INR, mult_INR. assert (0 <= INR (i mod 2) <= 1). { split; [apply pos_INR|]. change 1 with (INR 1). apply le_INR. lia. } cbn [INR]. lra. }
      rewrite Ey. split; [lia|]. split; right; lra.
Qed.
Print Assumptions C39_points.

(** ** Continuity *)
Lemma glue (f g h : R -> R) x d : continuity_pt g x -> continuity_pt h x -> g x = f x -> h x = f x -> 0 < d -> (forall z, Rabs (z - x) < d -> f z = g z \/ f z = h z) -> continuity_pt f x.
Proof.
  intros Cg Ch Eg Eh Hd H e He. destruct (Cg e He) as (d1 & D1 & G). destruct (Ch e He) as (d2 & D2 & K). exists (Rmin d (Rmin d1 d2)). split; [repeat apply Rmin_glb_lt; lra|].
  intros z (Dz & Hz). cbn in *. unfold R_dist in *. assert (Rabs (z - x) < d /\ Rabs (z - x) < d1 /\ Rabs (z - x) < d2) as (Z0 & Z1 & Z2). { pose proof (Rmin_l d (Rmin d1 d2)). pose proof (Rmin_r d (Rmin d1 d2)). pose proof (Rmin_l d1 d2). pose proof (Rmin_r d1 d2). repeat split; lra. }
  destruct (H z Z0) as [-> | ->].
  - rewrite <- Eg. apply G. split; [exact Dz|exact Z1].
  - rewrite <- Eh. apply K. split; [exact Dz|exact Z2].
Qed.
(** A derivative is found from the right alone. *)
Lemma right_derivative f g x d a b : derivable_pt_lim f x a -> derivable_pt_lim g x b -> 0 < d -> (forall z, x <= z < x + d -> f z = g z) -> a = b.
Proof.
  intros Hf Hg Hd H. destruct (Req_dec a b) as [E|N]; [exact E|exfalso]. assert (0 < Rabs (a - b) / 2) as He by (pose proof (Rabs_pos_lt (a - b)); lra).
  destruct (Hf _ He) as ((d1 & D1) & F). destruct (Hg _ He) as ((d2 & D2) & G). cbn in F, G. set (h := Rmin d (Rmin d1 d2) / 2).
  assert (0 < Rmin d (Rmin d1 d2)) as M by (repeat apply Rmin_glb_lt; lra). pose proof (Rmin_l d (Rmin d1 d2)). pose proof (Rmin_r d (Rmin d1 d2)). pose proof (Rmin_l d1 d2). pose proof (Rmin_r d1 d2).
  assert (0 < h) as Hh by (unfold h; lra). assert (h < d /\ h < d1 /\ h < d2) as (Z1 & Z2 & Z3) by (unfold h; lra). specialize (F h ltac:(lra) ltac:(rewrite Rabs_pos_eq; lra)). specialize (G h ltac:(lra) ltac:(rewrite Rabs_pos_eq; lra)).
  rewrite (H (x + h)) in F by lra. rewrite (H x) in F by lra. set (q := (g (x + h) - g x) / h) in *.
  assert (Rabs (a - b) < Rabs (a - b)); [|lra]. replace (a - b) with ((q - b) - (q - a)) at 1 by ring. unfold Rminus at 1. eapply Rle_lt_trans; [apply Rabs_triang|]. rewrite Rabs_Ropp. lra.
Qed.
Lemma seg_derivative (q : @qbez RA) (sc k x : R) :
  derivable_pt_lim (fun z => px (qb_sample q (z * sc - k))) x (sc * px (qb_dt q (x * sc - k))) /\ derivable_pt_lim (fun z => py (qb_sample q (z * sc - k))) x (sc * py (qb_dt q (x * sc - k))).
Proof.
  unfold qb_sample, qb_dt, n1, n2. cbn [vadd vscale px py]. unR. split; apply is_derive_Reals; (auto_derive; [exact Logic.I|]); ring.
Qed.
Section Smooth.
  Variable lc : @link_curve RA.
  Variable pts : list (@pt RA).
  Let n := length (lc_segments lc).
  Hypothesis n_pos : (1 <= n)%nat.
  Hypothesis n_max : (Z.of_nat n <= u32_max + 1)%Z.
  Hypothesis segs : lc_segments lc = segments_of pts.
  Hypothesis sc_pos : 0 < lc_scale lc.
  Let seg j := nth j (lc_segments lc) noseg.
  Lemma joint j : (S j < n)%nat -> qb_sample (seg j) 1%R = qb_sample (seg (S j)) 0%R.
  Proof.
    intros H. unfold seg, n in *. rewrite segs in *. rewrite qb_end, qb_start. destruct (segments_nth pts j vzero) as (_ & _ & ->); [lia|]. destruct (segments_nth pts (S j) vzero) as (-> & _ & _); [lia|]. f_equal. lia.
  Qed.
  (** Near a position one sees at most two segments, which meet there. *)
  Lemma near_position (x : R) : exists j1 j2 d, 0 < d /\ within lc j2 (x * lc_scale lc) /\ qb_sample (seg j1) (x * lc_scale lc - INR j1)%R = qb_sample (seg j2) (x * lc_scale lc - INR j2)%R /\
    (forall z, Rabs (z - x) < d -> within lc j1 (z * lc_scale lc) \/ within lc j2 (z * lc_scale lc)) /\ (forall z, x <= z < x + d -> within lc j2 (z * lc_scale lc)) /\
    ((forall k, x * lc_scale lc <> INR k) -> j1 = j2).
  Proof.
    pose proof (index_within lc n_pos n_max x) as W. set (i := lc_sample_index lc x) in *. set (y := x * lc_scale lc) in *. destruct W as (W1 & W2 & W3). fold n in W1, W3.
    assert (exists gr, 0 < gr /\ forall z, z < y + gr -> S i = n \/ z < INR i + 1) as (gr & Gr & Hr). { destruct W3 as [W3|W3]; [exists 1; split; [lra|auto]|]. exists (INR i + 1 - y). split; [lra|]. intros z Hz. right. lra. }
    assert (exists j1 gl, 0 < gl /\ qb_sample (seg j1) (y - INR j1)%R = qb_sample (seg i) (y - INR i)%R /\ (forall z, y - gl < z < y + gr -> within lc j1 z \/ within lc i z) /\ ((forall k, y <> INR k) -> j1 = i)) as (j1 & gl & Gl & Ej & Hl & Hk).
    { destruct W2 as [W2|W2].
      - exists i, 1. split; [lra|]. split; [reflexivity|]. split; [|auto]. intros z Hz. left. split; [exact W1|]. split; [left; exact W2|]. fold n. apply Hr. lra.
      - destruct (Rle_lt_or_eq_dec _ _ W2) as [L|E].
        + exists i, (y - INR i). split; [lra|]. split; [reflexivity|]. split; [|auto]. intros z Hz. left. split; [exact W1|]. split; [right; lra|]. fold n. apply Hr. lra.
        + destruct i as [|i'] eqn:Ei.
          * exists 0%nat, 1. split; [lra|]. split; [reflexivity|]. split; [|auto]. intros z Hz. left. split; [exact W1|]. split; [left; reflexivity|]. fold n. apply Hr. lra.
          * exists i', 1. split; [lra|]. rewrite S_INR in *. split; [|split].
            -- replace (y - INR i')%R with 1 by lra. replace (y - (INR i' + 1))%R with 0 by lra. apply joint. exact W1.
            -- intros z Hz. destruct (Rlt_or_le z y) as [Hzy|Hzy].
               ++ left. split; [fold n; lia|]. split; [right; lra|]. right. lra.
               ++ right. split; [exact W1|]. split; [right; rewrite S_INR; lra|]. fold n. rewrite S_INR. apply Hr. lra.
            -- intros K. exfalso. apply (K (S i')). rewrite S_INR. lra. }
    exists j1, i, (Rmin gl gr / lc_scale lc). assert (0 < Rmin gl gr) as M by (apply Rmin_glb_lt; lra). pose proof (Rmin_l gl gr). pose proof (Rmin_r gl gr). split; [apply Rdiv_lt_0_compat; assumption|]. split; [split; [exact W1|split; [exact W2|exact W3]]|]. split; [exact Ej|]. split; [|split; [|exact Hk]].
    - intros z Hz. apply Hl. unfold y. assert (Rabs (z - x) * lc_scale lc < Rmin gl gr) as B. { apply (Rmult_lt_compat_r (lc_scale lc)) in Hz; [|exact sc_pos]. unfold Rdiv in Hz. rewrite Rmult_assoc, Rinv_l in Hz by lra. lra. }
      assert (Rabs ((z - x) * lc_scale lc) < Rmin gl gr) as B'. { rewrite Rabs_mult, (Rabs_pos_eq (lc_scale lc)) by lra. exact B. } apply Rabs_def2 in B'. split; lra.
    - intros z Hz. split; [exact W1|]. assert (y <= z * lc_scale lc) by (unfold y; apply Rmult_le_compat_r; lra). split; [destruct W2 as [W2|W2]; [left; exact W2|right; lra]|]. fold n. apply Hr.
      assert ((z - x) * lc_scale lc < Rmin gl gr) as B. { assert (z - x < Rmin gl gr / lc_scale lc) as Hz' by lra. apply (Rmult_lt_compat_r (lc_scale lc)) in Hz'; [|exact sc_pos]. unfold Rdiv in Hz'. rewrite Rmult_assoc, Rinv_l in Hz' by lra. lra. } unfold y. lra.
  Qed.
  Lemma smooth_continuous (x : R) : continuity_pt (fun z : R => px (sm_pos (sample_centre lc z))) x /\ continuity_pt (fun z : R => py (sm_pos (sample_centre lc z))) x.
  Proof.
    destruct (near_position x) as (j1 & j2 & d & Hd & W & E & H & _ & _).
    assert (forall j, continuity_pt (fun z : R => px (qb_sample (seg j) (z * lc_scale lc - INR j)%R)) x /\ continuity_pt (fun z : R => py (qb_sample (seg j) (z * lc_scale lc - INR j)%R)) x) as C.
    { intros j. destruct (seg_derivative (seg j) (lc_scale lc) (INR j) x) as (D1 & D2). split; apply derivable_continuous_pt; eexists; [exact D1|exact D2]. }
    split; [eapply (glue _ _ _ x d (proj1 (C j1)) (proj1 (C j2)))|eapply (glue _ _ _ x d (proj2 (C j1)) (proj2 (C j2)))]; try exact Hd; try (cbn beta; rewrite (centre_at lc n_pos n_max j2 x W); cbn [sm_pos]; fold (seg j2); first [reflexivity|rewrite E; reflexivity]);
      (intros z Hz; destruct (H z Hz) as [Wz|Wz]; [left|right]; cbn beta; rewrite (centre_at lc n_pos n_max _ z Wz); reflexivity).
  Qed.
  Lemma smooth_derivative (x dx dy : R) : derivable_pt_lim (fun z : R => px (sm_pos (sample_centre lc z))) x dx -> derivable_pt_lim (fun z : R => py (sm_pos (sample_centre lc z))) x dy ->
    exists v : @pt RA, dx = lc_scale lc * px v /\ dy = lc_scale lc * py v /\ sm_tan (sample_centre lc x) = normalize v.
  Proof.
    intros Dx Dy. destruct (near_position x) as (j1 & j2 & d & Hd & W & _ & _ & H & _). destruct (seg_derivative (seg j2) (lc_scale lc) (INR j2) x) as (D1 & D2). exists (qb_dt (seg j2) (x * lc_scale lc - INR j2)%R).
    split; [|split].
    - eapply right_derivative; [exact Dx|exact D1|exact Hd|]. intros z Hz. cbn beta. rewrite (centre_at lc n_pos n_max j2 z (H z Hz)). reflexivity.
    - eapply right_derivative; [exact Dy|exact D2|exact Hd|]. intros z Hz. cbn beta. rewrite (centre_at lc n_pos n_max j2 z (H z Hz)). reflexivity.
    - rewrite (centre_at lc n_pos n_max j2 x W). reflexivity.
  Qed.
  Lemma smooth_inside (x : R) : (forall k, x * lc_scale lc <> INR k) -> exists dx dy, derivable_pt_lim (fun z : R => px (sm_pos (sample_centre lc z))) x dx /\ derivable_pt_lim (fun z : R => py (sm_pos (sample_centre lc z))) x dy.
  Proof.
    intros K. destruct (near_position x) as (j1 & j2 & d & Hd & W & _ & H & _ & E). specialize (E K). subst j1. destruct (seg_derivative (seg j2) (lc_scale lc) (INR j2) x) as (D1 & D2). eexists _, _. split.
    - eapply (is_derive_Reals _ _ _). eapply is_derive_ext_loc; [|apply is_derive_Reals; exact D1]. exists (mkposreal d Hd). intros z Hz. cbn in Hz. unfold ball in Hz. cbn in Hz. unfold AbsRing_ball, abs, minus, plus, opp in Hz. cbn in Hz. assert (within lc j2 (z * lc_scale lc)) as Wz by (destruct (H z Hz); assumption). cbn beta. rewrite (centre_at lc n_pos n_max j2 z Wz). reflexivity.
    - eapply (is_derive_Reals _ _ _). eapply is_derive_ext_loc; [|apply is_derive_Reals; exact D2]. exists (mkposreal d Hd). intros z Hz. cbn in Hz. unfold ball in Hz. cbn in Hz. unfold AbsRing_ball, abs, minus, plus, opp in Hz. cbn in Hz. assert (within lc j2 (z * lc_scale lc)) as Wz by (destruct (H z Hz); assumption). cbn beta. rewrite (centre_at lc n_pos n_max j2 z Wz). reflexivity.
  Qed.
End Smooth.

(** ** C39 for curves that were built *)
Definition made (lc : @link_curve RA) : Prop := exists fuel (c : @curve RA) (step : R), 0 < step /\ lc_with_step fuel c step = Ok lc.
(** The index of a segment is a 32 bit number. *)
Definition few (lc : @link_curve RA) : Prop := (Z.of_nat (length (lc_segments lc)) <= 2 ^ 32)%Z.
Lemma made_parts lc : made lc -> few lc -> exists pts, (1 <= length (lc_segments lc))%nat /\ (Z.of_nat (length (lc_segments lc)) <= u32_max + 1)%Z /\ lc_segments lc = segments_of pts /\ 0 < lc_scale lc.
Proof.
  intros (fuel & c & step & Hs & H) F. unfold few in F. destruct (equidistant_points_along_curve fuel c step) as [(pts, len)|p|] eqn:E; [|unfold lc_with_step in H; rewrite E in H; discriminate H|unfold lc_with_step in H; rewrite E in H; discriminate H].
  destruct (with_step_built _ _ _ _ _ _ E H) as (Es & _ & Eg & N). destruct (built_segments pts N) as (N1 & _). exists (make_odd pts). rewrite Eg in *. split; [exact N1|]. split; [unfold u32_max; lia|]. split; [reflexivity|]. rewrite Es. apply Rdiv_lt_0_compat; lra.
Qed.
(** The links of every simulation have such curves. *)
Theorem C39_links_made : forall (s : @sim RA) id l, reachable s -> sm_get (s_links s) id = Some l -> made (lk_curve l).
Proof.
  intros s id l Rs. revert id l. induction Rs as [|e s o s' Rs IH H]; intros k l G.
  - cbn [sim_new s_links] in G. rewrite sm_get_empty in G. discriminate G.
  - destruct (exec_built _ _ _ _ _ _ (reachable_Inv _ Rs) H G) as [(l0 & G0 & E & _)|(c & lim & _ & _ & E)].
    + specialize (IH k l0 G0). unfold geo in E. assert (lk_curve l = lk_curve l0) as -> by congruence. exact IH.
    + unfold link_new in E. bok E cv Hc. exists (e_fuel e), c, (/ 2). split; [lra|]. assert (lk_curve l = cv) as -> by (injection E as <-; reflexivity). unfold lc_new in Hc. rewrite half_R in Hc. exact Hc.
Qed.
Print Assumptions C39_links_made.
(** A curve is continuous over all positions, also before its start and beyond its end. *)
Theorem C39_continuous : forall lc, made lc -> few lc -> forall x : R,
  continuity_pt (fun z : R => px (sm_pos (sample_centre lc z))) x /\ continuity_pt (fun z : R => py (sm_pos (sample_centre lc z))) x.
Proof.
  intros lc M F x. destruct (made_parts lc M F) as (pts & N1 & N2 & E & S0). exact (smooth_continuous lc pts N1 N2 E S0 x).
Qed.
Print Assumptions C39_continuous.
(** Where the curve has a derivative that is not zero, the tangent is its direction, of length 1. *)
Theorem C39_tangent : forall lc, made lc -> few lc -> forall x dx dy : R,
  derivable_pt_lim (fun z : R => px (sm_pos (sample_centre lc z))) x dx -> derivable_pt_lim (fun z : R => py (sm_pos (sample_centre lc z))) x dy -> dx <> 0 \/ dy <> 0 ->
  let speed := sqrt (dx * dx + dy * dy) in
  sm_tan (sample_centre lc x) = @Pt RA (dx / speed) (dy / speed) /\ unit (sm_tan (sample_centre lc x)).
Proof.
  intros lc M F x dx dy Dx Dy N speed. destruct (made_parts lc M F) as (pts & N1 & N2 & E & S0). destruct (smooth_derivative lc pts N1 N2 E S0 x dx dy Dx Dy) as (v & Ex & Ey & Et). rewrite Et. set (sc := lc_scale lc : R) in *.
  assert ((px v : R) <> 0 \/ (py v : R) <> 0) as Nv. { destruct N as [N|N]; [left|right]; intros Z; apply N; [rewrite Ex|rewrite Ey]; rewrite Z; ring. }
  destruct (normalize_unit v Nv) as (U & Mp & _). split; [|exact U]. set (m := @magnitude RA v) in *. assert (speed = sc * m) as ->.
  { unfold speed, m. rewrite Ex, Ey. unfold magnitude, magnitude2, dot. unR. replace (sc * px v * (sc * px v) + sc * py v * (sc * py v)) with (sc * sc * (px v * px v + py v * py v)) by ring. rewrite sqrt_mult_alt by nra. rewrite sqrt_square by lra. reflexivity. }
  unfold normalize, normalize_to, n1. fold m. apply pt_ext; cbn [vmul px py]; unR; [rewrite Ex|rewrite Ey]; field; lra.
Qed.
Print Assumptions C39_tangent.
(** It has a derivative everywhere between the ends of its segments. *)
Theorem C39_derivative : forall lc, made lc -> few lc -> forall x : R, (forall k, x * lc_scale lc <> INR k) ->
  exists dx dy, derivable_pt_lim (fun z : R => px (sm_pos (sample_centre lc z))) x dx /\ derivable_pt_lim (fun z : R => py (sm_pos (sample_centre lc z))) x dy.
Proof.
  intros lc M F x K. destruct (made_parts lc M F) as (pts & N1 & N2 & E & S0). exact (smooth_inside lc pts N1 N2 E S0 x K).
Qed.
Print Assumptions C39_derivative.

(** ** A bend *)
(** From (0, 0) to (0.3, 0.4), a pause there, and on to (0.8, 0.4). *)
Definition corner_at (t : R) : @pt RA :=
  if Rlt_bool t (1 / 2) then @Pt RA (3 / 10 * (2 * t)) (4 / 10 * (2 * t))
  else if Rlt_bool t (3 / 5) then @Pt RA (3 / 10) (4 / 10)
  else @Pt RA (3 / 10 + 5 / 4 * (t - 3 / 5)) (4 / 10).
Definition corner : @curve RA := @Curve RA corner_at (@Itv RA 0 1) (@default_dt RA corner_at (@Itv RA 0 1)) (@default_dt2 RA (@default_dt RA corner_at (@Itv RA 0 1)) (@Itv RA 0 1)).
Lemma corner_0 : corner_at 0 = @Pt RA 0 0.
Proof. unfold corner_at. rewrite Rlt_bool_true by lra. apply pt_ext; cbn [px py]; lra. Qed.
Lemma corner_1 : corner_at 1 = @Pt RA (8 / 10) (4 / 10).
Proof. unfold corner_at. rewrite !Rlt_bool_false by lra. apply pt_ext; cbn [px py]; lra. Qed.
Lemma corner_m1 : @magnitude RA (vsub (@Pt RA (3 / 10) (4 / 10)) (@Pt RA 0 0)) = / 2.
Proof. unfold magnitude, magnitude2, dot. cbn [vsub px py]. unR. rewrite <- (sqrt_square (/ 2)) by lra. f_equal. lra. Qed.
Lemma corner_m2 : @magnitude RA (vsub (@Pt RA (8 / 10) (4 / 10)) (@Pt RA (3 / 10) (4 / 10))) = / 2.
Proof. unfold magnitude, magnitude2, dot. cbn [vsub px py]. unR. rewrite <- (sqrt_square (/ 2)) by lra. f_equal. lra. Qed.
Lemma corner_inner (D : R) n : 5 / 6 <= D <= 1 -> forall ps,
  @eq_inner RA corner (/ 2) 1 (@Pt RA (8 / 10) (4 / 10)) (S n) (@EqSt RA (@Itv RA 0 1) ps (@Itv RA 0 D) [@Pt RA 0 0] (@Pt RA 0 0)) =
  @EqSt RA (@Itv RA (0 + (/ 2 - 0) / (D - 0) * (1 - 0)) 1) (@Pt RA (3 / 10) (4 / 10), @Pt RA (8 / 10) (4 / 10)) (@Itv RA 0 (/ 2)) [@Pt RA (3 / 10) (4 / 10); @Pt RA 0 0] (@Pt RA (3 / 10) (4 / 10)).
Proof.
  intros HD ps. cbn [eq_inner e_ts e_ps e_dists e_points e_last i_min i_max]. unfold i_lerp, i_inv_lerp, n0. cbn [i_min i_max]. unR.
  assert (c_sample corner (0 + (/ 2 - 0) / (D - 0) * (1 - 0)) = @Pt RA (3 / 10) (4 / 10)) as ->.
  { assert (1 / 2 <= (/ 2 - 0) / (D - 0) <= 3 / 5) as B. { split; apply (Rmult_le_reg_r D); try lra; unfold Rdiv; rewrite !Rminus_0_r, ?Rmult_assoc, ?Rinv_l by lra; lra. }
    cbn [corner c_sample]. unfold corner_at. rewrite Rlt_bool_false by lra. match goal with |- context [Rlt_bool ?x ?y] => destruct (Rlt_bool_spec x y) as [L|L] end; [reflexivity|]. apply pt_ext; cbn [px py]; lra. }
  rewrite corner_m1, corner_m2. rewrite !Rlt_bool_false by (unfold lit; unR; lra). reflexivity.
Qed.
Lemma corner_points : equidistant_points_along_curve 2 corner (/ 2) = Ok ([@Pt RA 0 0; @Pt RA (3 / 10) (4 / 10); @Pt RA (8 / 10) (4 / 10)], 1).
Proof.
  set (D := sqrt (4 / 5)). assert (5 / 6 <= D <= 1) as HD. { unfold D. split; [rewrite <- (sqrt_square (5 / 6)) by lra; apply sqrt_le_1; lra|rewrite <- sqrt_1; apply sqrt_le_1; lra]. }
  assert (@magnitude RA (vsub (@Pt RA (8 / 10) (4 / 10)) (@Pt RA 0 0)) = D) as ED by (unfold magnitude, magnitude2, dot, D; cbn [vsub px py]; unR; f_equal; lra).
  unfold equidistant_points_along_curve. change (i_min (c_bounds corner)) with (0 : @num RA). change (i_max (c_bounds corner)) with (1 : @num RA). change (c_bounds corner) with (@Itv RA 0 1). change (c_sample corner 0) with (corner_at 0). change (c_sample corner 1) with (corner_at 1). rewrite corner_0, corner_1, ED. cbn [eq_outer e_dists i_max].
  match goal with |- context [@nltb ?A ?x ?y] => replace (@nltb A x y) with true by (symmetry; apply ltb_R; lra) end.
  change (@n0 RA) with 0. rewrite (corner_inner D 99 HD). cbn [e_dists i_max]. match goal with |- context [@nltb ?A ?x ?y] => replace (@nltb A x y) with false by (symmetry; apply ltb_R_false; lra) end.
  cbn [bind e_points e_ps hd snd length]. rewrite corner_m2. match goal with |- context [@nltb ?A ?x ?y] => replace (@nltb A x y) with true by (symmetry; apply ltb_R; unfold lit; unR; lra) end. f_equal. f_equal.
  - cbn [rev app]. f_equal. f_equal. f_equal. unfold normalize_to. rewrite corner_m2. apply pt_ext; cbn [vadd vmul vsub px py]; unR; field.
  - cbn. lra.
Qed.
Example C39_example : exists lc, lc_with_step 2 corner (/ 2) = Ok lc /\ few lc /\ sm_pos (sample_centre lc (/ 2)%R) = @Pt RA (3 / 10) (4 / 10).
Proof.
  assert (exists lc, lc_with_step 2 corner (/ 2) = Ok lc) as (lc & H) by (unfold lc_with_step; rewrite corner_points; eexists; reflexivity). exists lc. split; [exact H|]. split.
  - destruct (with_step_built _ _ _ _ _ _ corner_points H) as (_ & _ & E & _). unfold few. rewrite E. cbn. lia.
  - replace (/ 2) with (INR 1 * / 2) by (cbn [INR]; lra). eapply C39_points with (i := 1%nat); [lra|exact corner_points|exact H|cbn; lia|reflexivity].
Qed.
(** The same bend for C40: two steps of exactly 0.5. *)
Example C40_example : exists pts len, equidistant_points_along_curve 2 corner (/ 2) = Ok (pts, len) /\ length pts = 3%nat /\ (len : R) = 1.
Proof. eexists _, _. split; [exact corner_points|]. split; reflexivity. Qed.
