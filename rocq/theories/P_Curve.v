(** * C38, C40, C41, C42: sampling, spacing, subdivision and projection of curves *)
From Coq Require Import List Bool ZArith Arith Lia Reals Lra Psatz.
From Flocq Require Import Core.
From Flocq Require Import IEEE754.BinarySingleNaN.
From Verif Require Import Arith F64 RealArith Ord FloatLaws Base BaseProofs SlotMap SlotMapProofs Util Geom Light Accel Net Path Vehicle LinkOps Sim SpecLight SpecSim Safe NetInv SimInv StepSafe OpSafe Evo StepEvo SimProofs RFacts SimExample P_Sim NetEvo P_Motion EndsProofs LineProofs RaExample P_Ends P_Geom CoordEvo P_Coord.
Import ListNotations.

(** ** C38: positions never lead outside the segments of a curve *)
Section Sampling.
  Context {A : Arith}.
  Lemma lc_sample_internal_total (lc : @link_curve A) (x : num) : lc_segments lc <> [] -> lc_sample_internal lc x = Ok (lc_seg lc x).
  Proof.
    intros H. unfold lc_sample_internal, lc_seg. set (i := lc_sample_index lc x).
    assert (i < length (lc_segments lc))%nat as Hi. { unfold i, lc_sample_index. destruct (lc_segments lc); [congruence|cbn [length]; lia]. }
    rewrite (nth_error_nth' _ (QBez vzero vzero vzero) Hi). reflexivity.
  Qed.
  Lemma lc_seg_in (lc : @link_curve A) (x : num) : lc_segments lc <> [] -> In (fst (lc_seg lc x)) (lc_segments lc).
  Proof.
    intros H. unfold lc_seg. cbn [fst]. apply nth_In. unfold lc_sample_index. destruct (lc_segments lc); [congruence|cbn [length]; lia].
  Qed.
  (** The unchecked access of a curve that was built reads one of its segments, for every number
      given as position (including infinities and NaN). *)
  Theorem C38_curve : forall fuel (c : @curve A) step lc (x : num), lc_with_step fuel c step = Ok lc ->
    exists seg t, lc_sample_internal lc x = Ok (seg, t) /\ In seg (lc_segments lc).
  Proof.
    intros fuel c step lc x H. assert (lc_segments lc <> []) as N.
    { unfold lc_with_step in H. destruct (equidistant_points_along_curve fuel c step) as [pl| |]; cbn [bind] in H; [|discriminate H|discriminate H]. destruct (segments_of (make_odd (fst pl))) eqn:E; [discriminate H|]. inversion H. cbn [lc_segments]. discriminate. }
    exists (fst (lc_seg lc x)), (snd (lc_seg lc x)). rewrite <- surjective_pairing. split; [apply lc_sample_internal_total; exact N|apply lc_seg_in; exact N].
  Qed.
  (** The same for every link of every simulation. *)
  Theorem C38_links : forall s id (l : @link A) (x : num), reachable s -> sm_get (s_links s) id = Some l ->
    exists seg t, lc_sample_internal (lk_curve l) x = Ok (seg, t) /\ In seg (lc_segments (lk_curve l)).
  Proof.
    intros s id l x R G. destruct (reachable_curve_built s R id l G) as (_ & N).
    exists (fst (lc_seg (lk_curve l) x)), (snd (lc_seg (lk_curve l) x)). rewrite <- surjective_pairing. split; [apply lc_sample_internal_total; exact N|apply lc_seg_in; exact N].
  Qed.
  (** The table of a projection is read within its bounds, if it has any entries. *)
  Theorem C38_projection : forall (p : @projection A) (x : num), pj_samples p <> [] -> exists smp, proj_sample p x = Ok smp /\ In smp (pj_samples p).
  Proof.
    intros p x H. unfold proj_sample. destruct (pj_samples p) as [|s0 l] eqn:E; [congruence|]. cbn [length].
    set (i := Nat.min _ _). assert (i < length (s0 :: l))%nat as Hi by (unfold i; cbn [length]; lia).
    rewrite (nth_error_nth' _ s0 Hi). cbn [of_option]. eexists. split; [reflexivity|]. apply nth_In. exact Hi.
  Qed.
End Sampling.
Print Assumptions C38_curve.
Print Assumptions C38_links.
Print Assumptions C38_projection.

(** ** C40: the points computed along a curve *)
(** [f] holds of every two neighbours in the list. *)
Fixpoint neighbours {T : Type} (f : T -> T -> Prop) (l : list T) : Prop :=
  match l with
  | x :: ((y :: _) as tl) => f x y /\ neighbours f tl
  | _ => True
  end.
Lemma neighbours_app {T} (f : T -> T -> Prop) l x y : neighbours f (l ++ [x]) -> f x y -> neighbours f (l ++ [x; y]).
Proof.
  induction l as [|a l IH]; cbn [app]; intros H Hf; [cbn; auto|].
  destruct l as [|b l]; cbn [app neighbours] in *; [tauto|]. destruct H as (H1 & H2). split; [exact H1|]. apply IH; assumption.
Qed.
Section Spacing.
  Context {A : Arith}.
  Local Open Scope num_scope.
  (** The distance of two points relative to [dist] is not below 0.99 and not above 1.01. *)
  Definition about (dist : num) (p q : pt) : Prop :=
    nltb (magnitude (vsub q p) / dist) (lit 99 100) = false /\ nltb (lit 101 100) (magnitude (vsub q p) / dist) = false.
  Variables (c : @curve A) (dist : num).
  Let sp := c_sample c (i_min (c_bounds c)).
  Let ep := c_sample c (i_max (c_bounds c)).
  Definition spaced (s : @eqst A) : Prop :=
    exists ts, rev (e_points s) = map (c_sample c) (i_min (c_bounds c) :: ts) /\ neighbours (about dist) (rev (e_points s)) /\ hd sp (e_points s) = e_last s.
  (** The search ends at the end of the curve, or the last distance found is too large. *)
  Definition ends (s : @eqst A) : Prop :=
    (snd (e_ps s) = ep /\ i_max (e_dists s) = magnitude (vsub ep (e_last s))) \/
    ((exists t, snd (e_ps s) = c_sample c t) /\ nltb (lit 101 100) (i_max (e_dists s) / dist) = true).
  Lemma spaced_inner n : forall s, spaced s -> ends s -> spaced (eq_inner c dist (i_max (c_bounds c)) ep n s) /\ ends (eq_inner c dist (i_max (c_bounds c)) ep n s).
  Proof.
    induction n as [|n IH]; intros s Hs He; cbn [eq_inner]; [auto|].
    set (nt := i_lerp _ _). set (np := c_sample c nt). set (nd := magnitude _).
    destruct (nltb (nd / dist) (lit 99 100)) eqn:E1; [apply IH; auto|]. destruct (nltb (lit 101 100) (nd / dist)) eqn:E2; [apply IH; [exact Hs|right; split; [exists nt; reflexivity|exact E2]]|].
    split; [|left; split; reflexivity]. destruct Hs as (ts & H1 & H2 & H3). exists (ts ++ [nt]). cbn [e_points e_last hd rev]. split; [|split; [|reflexivity]].
    - rewrite H1. rewrite app_comm_cons, map_app. reflexivity.
    - destruct (e_points s) as [|q pts] eqn:Eq; [cbn [rev] in H1; discriminate H1|]. cbn [rev hd] in *. rewrite <- app_assoc. cbn [app]. apply neighbours_app; [exact H2|]. subst q. split; [exact E1|exact E2].
  Qed.
  Lemma spaced_outer fuel : forall s s', spaced s -> ends s -> eq_outer fuel c dist (i_max (c_bounds c)) ep s = Ok s' -> spaced s' /\ ends s' /\ nltb dist (i_max (e_dists s')) = false.
  Proof.
    induction fuel as [|fuel IH]; intros s s' Hs He H; cbn [eq_outer] in H; [discriminate H|]. destruct (nltb dist (i_max (e_dists s))) eqn:E.
    - destruct (spaced_inner 100 s Hs He) as (K1 & K2). exact (IH _ _ K1 K2 H).
    - injection H as <-. auto.
  Qed.
  (** What the last, usually shorter, step contributes: [full] are the points found on the curve. *)
  Definition remainder (full : list pt) (e : pt) (pts : list pt) (len : num) : Prop :=
    let lastp := last full sp in
    let rest := magnitude (vsub e lastp) in
    let steps := nofZ (Z.of_nat (length full - 1)) in
    (nltb (lit 1 1000 * dist) rest = true /\ pts = full ++ [vadd lastp (normalize_to (vsub e lastp) dist)] /\ len = steps * dist + rest) \/
    (nltb (lit 1 1000 * dist) rest = false /\ pts = full /\ len = steps * dist).
  (** The points start at the start of the curve and lie on it, about [dist] apart; the length is
      the number of full steps times [dist] plus the remaining distance. *)
  Theorem C40_points : forall fuel pts len, equidistant_points_along_curve fuel c dist = Ok (pts, len) ->
    exists ts e, let full := map (c_sample c) (i_min (c_bounds c) :: ts) in
      neighbours (about dist) full /\ remainder full e pts len /\
      ((e = c_sample c (i_max (c_bounds c)) /\ nltb dist (magnitude (vsub e (last full sp))) = false) \/
       exists t d, e = c_sample c t /\ nltb (lit 101 100) (d / dist) = true /\ nltb dist d = false).
  Proof.
    intros fuel pts len H. unfold equidistant_points_along_curve in H. fold sp ep in H. destruct (eq_outer fuel c dist (i_max (c_bounds c)) ep _) as [s| |] eqn:Eo; cbn [bind] in H; [|discriminate H|discriminate H].
    assert (spaced s /\ ends s /\ nltb dist (i_max (e_dists s)) = false) as ((ts & H1 & H2 & H3) & He & Hd). { apply (spaced_outer _ _ _) in Eo; [exact Eo|exists []; cbn; auto|left; split; reflexivity]. }
    exists ts, (snd (e_ps s)). cbn zeta. rewrite <- H1. assert (last (rev (e_points s)) sp = hd sp (e_points s)) as El. { destruct (e_points s) as [|q l]; [reflexivity|]. cbn [rev hd]. apply last_last. }
    split; [exact H2|]. split.
    - unfold remainder. rewrite El, rev_length. destruct (nltb (lit 1 1000 * dist) (magnitude (vsub (snd (e_ps s)) (hd sp (e_points s))))) eqn:Er; injection H as <- <-; [left|right]; auto.
    - rewrite El, H3. destruct He as [(-> & E)|((t & ->) & E)]; [left; split; [reflexivity|rewrite <- E; exact Hd]|right; exists t, (i_max (e_dists s)); auto].
  Qed.
End Spacing.
Print Assumptions C40_points.

(** With a positive step the remaining distance is the one to the end of the curve, and at most
    one step: in binary64 ... *)
Lemma ratio_f64 (d dist : @num F64) : nltb n0 dist = true -> nltb dist d = false -> nltb (lit 101 100) (ndiv d dist) = false.
Proof.
  intros H0 H1. apply (lt_iff F64_ord) in H0. destruct H0 as (_ & Nd & Pd). change (val F64_ord n0) with 0%R in Pd. change (val F64_ord dist) with (fval dist) in Pd. cbn [nltb ndiv nnan F64] in *.
  assert (Bltb (@lit F64 101 100) (B754_nan : f64) = false) as Hnan by (vm_compute; reflexivity).
  assert (forall b, Bltb (@lit F64 101 100) (B754_zero b : f64) = false) as Hzero by (intros []; vm_compute; reflexivity).
  assert (Bltb (@lit F64 101 100) (B754_infinity true : f64) = false) as Hneg by (vm_compute; reflexivity).
  assert (fval (@lit F64 101 100) >= 1)%R as H101.
  { assert (Bltb (@lit F64 101 100) (f_of_Z 1) = false) as K by (vm_compute; reflexivity). rewrite bltb_fval in K. assert (is_nan (@lit F64 101 100) = false) as N by (vm_compute; reflexivity). rewrite N, f_of_Z_nan in K. cbn [negb orb andb] in K. destruct (Rlt_bool_spec (fval (@lit F64 101 100)) (fval (f_of_Z 1))) as [K1|K1]; [discriminate K|].
    assert (fval (f_of_Z 1) = 1%R) as E1. { rewrite fval_finite by reflexivity. replace (f_of_Z 1) with (Bone : binary_float prec emax) by (apply B2SF_inj; vm_compute; reflexivity). apply Bone_correct. } rewrite E1 in K1. lra. }
  rewrite bltb_fval in H1. rewrite Nd in H1. cbn [orb] in H1.
  destruct dist as [sz|[|]| |[|] m e Hb]; try discriminate Nd; cbn [fval] in Pd.
  - cbn in Pd. lra.
  - pose proof (bpow_gt_0 radix2 emax). lra.
  - destruct d as [s'|s'| |s' m' e' Hb']; cbn [Bdiv]; try apply Hzero; apply Hnan.
  - exfalso. cbn [B2R] in Pd. pose proof (F2R_lt_0 radix2 (Float radix2 (Z.neg m) e)). cbn in H. specialize (H ltac:(lia)). cbn in Pd. lra.
  - destruct (is_nan d) eqn:Nn; [destruct d; try discriminate Nn; exact Hnan|]. cbn [negb andb] in H1. match type of H1 with Rlt_bool ?x ?y = false => destruct (Rlt_bool_spec x y) as [K|K]; [discriminate H1|] end. clear H1.
    destruct (is_finite d) eqn:Fd.
    + rewrite (fval_finite d Fd) in K. set (y := B754_finite false m e Hb) in *. change (fval y) with (B2R y) in K. assert (B2R y <> 0)%R as Y0 by (change (fval y) with (B2R y) in Pd; cbn [fval] in Pd; lra).
      pose proof (Bdiv_correct prec emax Hp Hm mode_NE d y Y0) as Hc. fold big in Hc. fold (rnd (B2R d / B2R y)) in Hc.
      assert (0 < B2R y)%R as Yp by exact Pd.
      assert (B2R d / B2R y <= 1)%R as Hq by (apply (Rmult_le_reg_r (B2R y)); [exact Yp|]; unfold Rdiv; rewrite Rmult_assoc, Rinv_l by exact Y0; lra).
      assert (rnd 1 = 1)%R as R1 by (replace 1%R with (B2R (Bone : f64)) by apply Bone_correct; apply rnd_float).
      assert (rnd (B2R d / B2R y) <= 1)%R as Hr by (rewrite <- R1; apply rnd_mono; exact Hq).
      destruct (Rlt_bool_spec (Rabs (rnd (B2R d / B2R y))) big) as [L|L].
      * destruct Hc as (Hc1 & Hc2 & _). rewrite bltb_fval. rewrite (fval_finite _ (eq_trans Hc2 Fd)), Hc1. match goal with |- _ && Rlt_bool ?x ?y = false => destruct (Rlt_bool_spec x y) as [J|J]; [lra|apply andb_false_r] end.
      * apply fval_over in Hc. destruct Hc as (Hn & Hv). rewrite bltb_fval, Hv. pose proof big_pos. change (Bsign y) with false in Hv |- *. rewrite xorb_false_r in *. destruct (Bsign d) eqn:Sd.
        -- match goal with |- _ && Rlt_bool ?x ?y = false => destruct (Rlt_bool_spec x y) as [J|J]; [lra|apply andb_false_r] end.
        -- exfalso. apply sign_pos in Sd; [|exact Fd]. assert (0 <= rnd (B2R d / B2R y))%R as Hr0 by (rewrite <- rnd_0; apply rnd_mono; apply Rmult_le_pos; [exact Sd|apply Rlt_le, Rinv_0_lt_compat; exact Yp]). rewrite Rabs_pos_eq in L by exact Hr0.
           assert (1 < big)%R by (unfold big; change 1%R with (bpow radix2 0); apply bpow_lt; unfold emax; lia). lra.
    + destruct d as [s'|[|]| |s' m' e' Hb']; try discriminate; [exact Hneg|]. exfalso. cbn [fval] in K. pose proof (fval_bound (B754_finite false m e Hb) eq_refl) as (_ & B). cbn [fval] in B. lra.
Qed.
Lemma ratio_R (d dist : R) : (0 < dist)%R -> (d <= dist)%R -> @nltb RA (@lit RA 101 100) (@ndiv RA d dist) = false.
Proof.
  intros H0 H1. apply ltb_R_false. unfold lit. unR. apply (Rmult_le_reg_r dist); [exact H0|]. unfold Rdiv at 1. rewrite Rmult_assoc, Rinv_l by lra. lra.
Qed.
Theorem C40_f64 : forall (c : @curve F64) dist fuel pts len, nltb n0 dist = true -> equidistant_points_along_curve fuel c dist = Ok (pts, len) ->
  let start := c_sample c (i_min (c_bounds c)) in
  let end_ := c_sample c (i_max (c_bounds c)) in
  exists ts, let full := map (c_sample c) (i_min (c_bounds c) :: ts) in
    neighbours (about dist) full /\ remainder c dist full end_ pts len /\ nltb dist (magnitude (vsub end_ (last full start))) = false.
Proof.
  intros c dist fuel pts len Hd H start end_. destruct (C40_points c dist fuel pts len H) as (ts & e & H1 & H2 & [(-> & H3)|(t & d & _ & H3 & H4)]).
  - exists ts. auto.
  - exfalso. pose proof (ratio_f64 d dist Hd H4) as K. rewrite K in H3. discriminate H3.
Qed.
Print Assumptions C40_f64.
(** ... and in exact arithmetic, where the length differs from the length of the chain of points
    to the end of the curve by at most one percent of the full steps. *)
Fixpoint chain_length (l : list (@pt RA)) : R :=
  match l with
  | x :: ((y :: _) as tl) => (@magnitude RA (vsub y x) + chain_length tl)%R
  | _ => 0%R
  end.
Lemma chain_app l p q : chain_length (l ++ [p; q]) = (chain_length (l ++ [p]) + @magnitude RA (vsub q p))%R.
Proof.
  induction l as [|a l IH]; cbn [app chain_length]; [unR; lra|]. destruct l as [|b l]; cbn [app] in *; [cbn [chain_length] in *; unR; lra|]. cbn [chain_length] in *. rewrite IH. ring.
Qed.
Lemma chain_about dist l : (0 < dist)%R -> l <> [] -> neighbours (@about RA dist) l ->
  (99 / 100 * (INR (length l - 1) * dist) <= chain_length l <= 101 / 100 * (INR (length l - 1) * dist))%R.
Proof.
  intros Hd. induction l as [|p l IH]; intros N H; [congruence|]. destruct l as [|q l]; [cbn; lra|]. destruct H as ((H1 & H2) & H3). specialize (IH ltac:(discriminate) H3).
  apply ltb_R_false in H1, H2. unfold lit in H1, H2. unR. cbn [chain_length]. change (chain_length (q :: l)) with (chain_length (q :: l)) in IH.
  replace (length (p :: q :: l) - 1)%nat with (S (length (q :: l) - 1)) by (cbn [length]; lia). rewrite S_INR. set (m := @magnitude RA (vsub q p)) in *. cbn [chain_length] in IH.
  assert (99 / 100 * dist <= m)%R. { apply (Rmult_le_compat_r dist) in H1; [|lra]. unfold Rdiv in H1 at 2. rewrite Rmult_assoc, Rinv_l in H1 by lra. lra. }
  assert (m <= 101 / 100 * dist)%R. { apply (Rmult_le_compat_r dist) in H2; [|lra]. unfold Rdiv in H2 at 1. rewrite Rmult_assoc, Rinv_l in H2 by lra. lra. }
  fold m in IH. destruct IH as (IH1 & IH2). unR. split; lra.
Qed.
Theorem C40_exact : forall (c : @curve RA) (dist : R) fuel pts (len : R), (0 < dist)%R -> equidistant_points_along_curve fuel c dist = Ok (pts, len) ->
  let start := c_sample c (i_min (c_bounds c)) in
  let end_ := c_sample c (i_max (c_bounds c)) in
  exists ts, let full := map (c_sample c) (i_min (c_bounds c) :: ts) in
    neighbours (@about RA dist) full /\ @remainder RA c dist full end_ pts len /\ (@magnitude RA (vsub end_ (last full start)) <= dist)%R /\
    (Rabs (len - chain_length (full ++ [end_])) <= 1 / 100 * (INR (length ts) * dist) + 1 / 1000 * dist)%R.
Proof.
  intros c dist fuel pts len Hd H start end_. destruct (C40_points c dist fuel pts len H) as (ts & e & H1 & H2 & [(-> & H3)|(t & d & _ & H3 & H4)]).
  - exists ts. set (full := map (c_sample c) (i_min (c_bounds c) :: ts)) in *. fold start end_ in H2, H3. apply ltb_R_false in H3. split; [exact H1|]. split; [exact H2|]. split; [exact H3|].
    assert (full <> []) as Nf by (unfold full; discriminate). pose proof (chain_about dist full Hd Nf H1) as Hc.
    assert (length full - 1 = length ts)%nat as Hl by (unfold full; rewrite map_length; cbn [length]; lia). rewrite Hl in Hc.
    destruct (exists_last Nf) as (l0 & p & Ef). assert (last full start = p) as Elast by (rewrite Ef; apply last_last). rewrite Elast in H3.
    assert (chain_length (full ++ [end_]) = chain_length full + @magnitude RA (vsub end_ p))%R as -> by (rewrite Ef, <- app_assoc; apply chain_app).
    pose proof (mag_pos (vsub end_ p)) as M0. unfold remainder in H2. fold start in H2. rewrite Elast, Hl in H2. cbn zeta in H2. unfold lit in H2. unR. rewrite <- INR_IZR_INZ in H2.
    destruct H2 as [(_ & _ & ->)|(E & _ & ->)].
    + apply Rabs_le. split; lra.
    + apply ltb_R_false in E. apply Rabs_le. split; lra.
  - exfalso. apply ltb_R_false in H4. pose proof (ratio_R d dist Hd H4) as K. rewrite K in H3. discriminate H3.
Qed.
Print Assumptions C40_exact.

(** ** C41: subdivision *)
Section Subdivide.
  Context {A : Arith}.
  Local Open Scope num_scope.
  Variable c : @curve A.
  Definition on_curve (x : num * pt) : Prop := snd x = c_sample c (fst x).
  (** The squares are compared, as in the code. *)
  Definition near2 (length2 : num) (x y : num * @pt A) : Prop := nltb length2 (magnitude2 (vsub (snd y) (snd x))) = false.
  Variable before : num -> num -> Prop.
  Hypothesis mid_between : forall x y, before x y -> before x (nhalf * (x + y)) /\ before (nhalf * (x + y)) y.
  Definition ordered := neighbours (fun x y : num * @pt A => before (fst x) (fst y)).
  Lemma sub_push_spec fuel length2 t1 p1 : forall t2 p2 rest st, sub_push fuel c length2 t1 p1 t2 p2 ((t2, p2) :: rest) = Ok st ->
    List.Forall on_curve ((t2, p2) :: rest) -> before t1 t2 -> ordered ((t2, p2) :: rest) ->
    exists y pre, st = y :: pre /\ List.Forall on_curve st /\ ordered st /\ before t1 (fst y) /\ near2 length2 (t1, p1) y /\ forall d, last st d = last ((t2, p2) :: rest) d.
  Proof.
    induction fuel as [|fuel IH]; intros t2 p2 rest st H F B Ho; cbn [sub_push] in H; [discriminate H|].
    destruct (nltb length2 (magnitude2 (vsub p2 p1))) eqn:E.
    - destruct (mid_between _ _ B) as (B1 & B2). apply IH in H; [|constructor; [reflexivity|exact F]|exact B1|split; [exact B2|exact Ho]].
      destruct H as (y & pre & K1 & K2 & K3 & K4 & K5 & K6). exists y, pre. split; [exact K1|]. split; [exact K2|]. split; [exact K3|]. split; [exact K4|]. split; [exact K5|]. intros d. rewrite K6. reflexivity.
    - injection H as <-. exists (t2, p2), rest. split; [reflexivity|]. split; [exact F|]. split; [exact Ho|]. split; [exact B|]. split; [exact E|]. reflexivity.
  Qed.
  Lemma sub_collect_spec length2 fuel : forall x stack l, sub_collect fuel c length2 (x :: stack) = Ok l ->
    List.Forall on_curve (x :: stack) -> ordered (x :: stack) ->
    exists tl, l = x :: tl /\ List.Forall on_curve l /\ ordered l /\ neighbours (near2 length2) l /\ forall d, last l d = last (x :: stack) d.
  Proof.
    induction fuel as [|fuel IH]; intros (t1, p1) stack l H F Ho; cbn [sub_collect] in H; [discriminate H|].
    destruct stack as [|(t2, p2) rest]; cbn [sub_next] in H.
    - cbn [bind] in H. destruct fuel as [|fuel]; cbn [sub_collect sub_next bind] in H; [discriminate H|]. injection H as <-. exists []. split; [reflexivity|]. split; [exact F|]. split; [exact Ho|]. split; [exact I|reflexivity].
    - destruct (sub_push (S fuel) c length2 t1 p1 t2 p2 ((t2, p2) :: rest)) as [st| |] eqn:Ep; cbn [bind] in H; [|discriminate H|discriminate H].
      inversion F as [|x0 l0 F1 F2]; subst x0 l0. destruct Ho as (Ho1 & Ho2). destruct (sub_push_spec _ _ _ _ _ _ _ _ Ep F2 Ho1 Ho2) as (y & pre & -> & K2 & K3 & K4 & K5 & K6).
      destruct (sub_collect fuel c length2 (y :: pre)) as [l'| |] eqn:Ec; cbn [bind] in H; [|discriminate H|discriminate H]. injection H as <-.
      destruct (IH _ _ _ Ec K2 K3) as (tl & -> & J1 & J2 & J3 & J4). exists (y :: tl). split; [reflexivity|]. split; [constructor; assumption|]. split; [split; [exact K4|exact J2]|]. split; [split; [exact K5|exact J3]|].
      intros d. change (last ((t1, p1) :: y :: tl) d) with (last (y :: tl) d). rewrite J4, K6. reflexivity.
  Qed.
End Subdivide.
(** The samples start and end at the ends of the curve, lie on it, and neighbours are at most
    [max_length] apart (the squares are compared, as in the code). *)
Theorem C41_samples : forall (A : Arith) (c : @curve A) max_length fuel l, subdivided_samples_along_curve fuel c max_length = Ok l ->
  let ends t := (t, c_sample c t) in
  (exists tl, l = ends (i_min (c_bounds c)) :: tl) /\ (exists pre, l = pre ++ [ends (i_max (c_bounds c))]) /\
  (forall t p, In (t, p) l -> p = c_sample c t) /\
  neighbours (fun x y => nltb (powi2 max_length) (magnitude2 (vsub (snd y) (snd x))) = false) l.
Proof.
  intros A c m fuel l H ends. unfold subdivided_samples_along_curve in H. apply (sub_collect_spec c (fun _ _ => True)) in H; [|auto|repeat constructor|unfold ordered; cbn; auto].
  destruct H as (tl & K1 & K2 & _ & K3 & K4). split; [exists tl; exact K1|]. split; [|split].
  - assert (l <> []) as N by (rewrite K1; discriminate). destruct (exists_last N) as (pre & y & E). exists pre. rewrite E. f_equal. f_equal. specialize (K4 (ends (i_max (c_bounds c)))). rewrite E, last_last in K4. exact K4.
  - intros t p Hi. rewrite List.Forall_forall in K2. exact (K2 _ Hi).
  - exact K3.
Qed.
Print Assumptions C41_samples.
(** In exact arithmetic the parameters increase strictly, and the distances are bounded. *)
Theorem C41_exact : forall (c : @curve RA) (max_length : R) fuel l, (0 <= max_length)%R -> ((i_min (c_bounds c) : R) < i_max (c_bounds c))%R -> subdivided_samples_along_curve fuel c max_length = Ok l ->
  neighbours (fun x y => ((fst x : R) < fst y)%R /\ (@distance RA (snd x) (snd y) <= max_length)%R) l.
Proof.
  intros c m fuel l Hm Hb H. unfold subdivided_samples_along_curve in H. apply (sub_collect_spec c (fun x y : R => (x < y)%R)) in H.
  - destruct H as (tl & _ & _ & K2 & K3 & _). unfold ordered in K2. clear tl. induction l as [|x l IH]; [exact I|]. destruct l as [|y l]; [exact I|]. destruct K2 as (K2 & K2'). destruct K3 as (K3 & K3'). split; [|apply IH; assumption]. split; [exact K2|].
    unfold near2 in K3. apply ltb_R_false in K3. unfold powi2 in K3. unR. unfold distance. pose proof (mag_sq (vsub (snd y) (snd x))) as Q. pose proof (mag_pos (vsub (snd y) (snd x))) as P. unfold magnitude2, dot in K3. unR. set (k := @magnitude RA (vsub (snd y) (snd x))) in *. nra.
  - intros x y Hxy. rewrite half_R. unR. lra.
  - repeat constructor.
  - unfold ordered. cbn [sub_stack neighbours fst]. rewrite half_R. unR. split; [lra|split; [lra|exact I]].
Qed.
Print Assumptions C41_exact.

(** ** C42: projection and intersection *)
(** The Newton correction of the parameter [t]. *)
Definition correction {A : Arith} (c : @curve A) (point : pt) (t : num) : num :=
  ndiv (dot (c_dt c t) (vsub point (c_sample c t))) (magnitude (c_dt c t)).
Theorem C42_projection : forall (A : Arith) (c : @curve A) point max_error t0 t, project_point_onto_curve c point max_error t0 = Ok (Some t) -> i_contains (c_bounds c) t = true ->
  exists t', t = nadd t' (correction c point t') /\ nltb (nabs (correction c point t')) max_error = true.
Proof.
  intros A c point err t0 t H Hb. unfold project_point_onto_curve in H. destruct (match t0 with Some t => Ok t | None => initial_guess c point end) as [g| |]; cbn [bind] in H; [|discriminate H|discriminate H]. revert H. generalize 64%nat. intros n H. injection H as H. revert g H.
  induction n as [|n IH]; intros g H; [discriminate H|]. cbn [newton] in H. fold (correction c point g) in H. destruct (nltb (nabs (correction c point g)) err || negb (i_contains (c_bounds c) (nadd g (correction c point g)))) eqn:E.
  - injection H as H. exists g. split; [auto|]. rewrite <- H in Hb. rewrite Hb in E. cbn [negb] in E. rewrite orb_false_r in E. exact E.
  - exact (IH _ H).
Qed.
Print Assumptions C42_projection.
(** On a line the projection is the foot of the perpendicular: no point of the line is nearer. *)
Lemma guess_ok (c : @curve RA) point : exists t, initial_guess c point = Ok t.
Proof.
  unfold initial_guess. assert (forall l b, exists x, @min_by_snd RA (@num RA) b l = Ok x) as K by (induction l as [|y l IH]; intros b; cbn [min_by_snd]; [eauto|]; unR; cbn [orb]; destruct (Rlt_bool _ _); apply IH). match goal with |- context [min_by_snd ?b ?l] => destruct (K l b) as (x & ->) end. cbn [bind]. eauto.
Qed.
Lemma project_line (a u : @pt RA) (L err : R) point t0 : unit u -> (0 < err)%R -> project_point_onto_curve (@ls_curve RA (LineSeg a u L)) point err t0 = Ok (Some (@dot RA (vsub point a) u)).
Proof.
  intros U He. unfold project_point_onto_curve. destruct (guess_ok (@ls_curve RA (LineSeg a u L)) point) as (g & ->). assert (forall t : R, c_sample (@ls_curve RA (LineSeg a u L)) t = on_line a u t) as Hs by (intros t; apply pt_ext; cbn; unR; reflexivity).
  destruct t0 as [t|]; cbn [bind]; (rewrite (newton_straight _ a u); [reflexivity|exact U|exact Hs|reflexivity|exact He]).
Qed.
Lemma foot_aux (q s k : R) : (q * q * 1 - 2 * q * q + k <= s * s * 1 - 2 * s * q + k)%R.
Proof. pose proof (Rle_0_sqr (s - q)) as H. unfold Rsqr in H. nra. Qed.
Lemma foot (a u point : @pt RA) (s : R) : unit u -> (@distance RA point (on_line a u (@dot RA (vsub point a) u)) <= @distance RA point (on_line a u s))%R.
Proof.
  intros U. unfold distance. set (p := @dot RA (vsub point a) u). pose proof (mag_pos (vsub (on_line a u p) point)). pose proof (mag_pos (vsub (on_line a u s) point)). pose proof (mag_sq (vsub (on_line a u p) point)) as Q1. pose proof (mag_sq (vsub (on_line a u s) point)) as Q2.
  set (m1 := @magnitude RA (vsub (on_line a u p) point)) in *. set (m2 := @magnitude RA (vsub (on_line a u s) point)) in *. assert (m1 * m1 <= m2 * m2)%R; [|apply Rsqr_incr_0; assumption]. rewrite Q1, Q2. unfold p, dot, on_line, unit in *. cbn [vsub px py] in *. unR.
  set (x := (px point - px a)%R). set (y := (py point - py a)%R). set (ux := px u : R) in *. set (uy := py u : R) in *.
  replace (px a + (x * ux + y * uy) * ux - px point)%R with ((x * ux + y * uy) * ux - x)%R by (unfold x; ring). replace (py a + (x * ux + y * uy) * uy - py point)%R with ((x * ux + y * uy) * uy - y)%R by (unfold y; ring).
  replace (px a + s * ux - px point)%R with (s * ux - x)%R by (unfold x; ring). replace (py a + s * uy - py point)%R with (s * uy - y)%R by (unfold y; ring).
  clearbody x y ux uy. clear - U. set (q := (x * ux + y * uy)%R) in *.
  assert ((s * ux - x) * (s * ux - x) + (s * uy - y) * (s * uy - y) = s * s * (ux * ux + uy * uy) - 2 * s * q + (x * x + y * y))%R as -> by (unfold q; ring).
  assert ((q * ux - x) * (q * ux - x) + (q * uy - y) * (q * uy - y) = q * q * (ux * ux + uy * uy) - 2 * q * q + (x * x + y * y))%R as -> by (unfold q; ring). rewrite U. apply foot_aux.
Qed.
Theorem C42_line : forall (a u : @pt RA) (L err : R) point t0, unit u -> (0 < err)%R ->
  let line := @ls_curve RA (LineSeg a u L) in
  exists t, project_point_onto_curve line point err t0 = Ok (Some t) /\ @dot RA (vsub point (c_sample line t)) u = 0%R /\
    forall s : R, (@distance RA point (c_sample line t) <= @distance RA point (c_sample line s))%R.
Proof.
  intros a u L err point t0 U He line. exists (@dot RA (vsub point a) u). split; [apply project_line; assumption|]. assert (forall t : R, c_sample line t = on_line a u t) as Hs by (intros t; apply pt_ext; cbn; unR; reflexivity). split.
  - rewrite Hs. unfold dot, on_line, unit in *. cbn [vsub px py]. unR. set (x := (px point - px a)%R). set (y := (py point - py a)%R). replace (px point - (px a + (x * px u + y * py u) * px u))%R with (x - (x * px u + y * py u) * px u)%R by (unfold x; ring). replace (py point - (py a + (x * px u + y * py u) * py u))%R with (y - (x * px u + y * py u) * py u)%R by (unfold y; ring).
    transitivity ((x * px u + y * py u) * (1 - (px u * px u + py u * py u)))%R; [ring|]. rewrite U. ring.
  - intros s. rewrite !Hs. apply foot. exact U.
Qed.
Print Assumptions C42_line.
(** Two curves are reported to meet only where they are less than 0.01 apart, within the first. *)
Theorem C42_intersection : forall (A : Arith) (c1 c2 : @curve A) fuel t1 t2, intersect_curves fuel c1 c2 = Ok (Some (t1, t2)) ->
  nltb (distance (c_sample c1 t1) (c_sample c2 t2)) (lit 1 100) = true /\ nltb t1 (i_max (c_bounds c1)) = true.
Proof.
  intros A c1 c2 fuel t1 t2. unfold intersect_curves. generalize (i_min (c_bounds c1)). generalize (@None num). induction fuel as [|fuel IH]; intros o p H; cbn [intersect_loop] in H; [discriminate H|].
  destruct (nltb p (i_max (c_bounds c1))) eqn:E; [|discriminate H]. destruct (project_point_onto_curve c2 (c_sample c1 p) (lit 1 10) o) as [o'| |]; cbn [bind] in H; [|discriminate H|discriminate H].
  destruct o' as [p2|]; [|exact (IH _ _ H)]. destruct (nltb (distance (c_sample c1 p) (c_sample c2 p2)) (lit 1 100)) eqn:E2; [|exact (IH _ _ H)]. injection H as <- <-. auto.
Qed.
Print Assumptions C42_intersection.
(** Crossing lines are found, at or shortly before the crossing. *)
Theorem C42_lines : forall (a1 u1 a2 u2 : @pt RA) (L1 L2 x y : R) fuel, unit u1 -> unit u2 -> (0 <= x < L1)%R -> on_line a1 u1 x = on_line a2 u2 y -> (100 * x + 1 <= INR fuel)%R ->
  exists t1 t2, intersect_curves fuel (@ls_curve RA (LineSeg a1 u1 L1)) (@ls_curve RA (LineSeg a2 u2 L2)) = Ok (Some (t1, t2)) /\ (0 <= (t1 : R) <= x)%R.
Proof.
  intros a1 u1 a2 u2 L1 L2 x y fuel U1 U2 Hx E Hf. unfold intersect_curves. cbn [c_bounds ls_curve i_min ls_length].
  assert (forall n (p : R) o, (0 <= p <= x)%R -> (100 * (x - p) + 1 <= INR n)%R -> exists t1 t2, intersect_loop n (@ls_curve RA (LineSeg a1 u1 L1)) (@ls_curve RA (LineSeg a2 u2 L2)) p o = Ok (Some (t1, t2)) /\ (0 <= (t1 : R) <= x)%R) as K.
  2:{ unfold n0. unR. apply (K fuel 0%R None); lra. }
  induction n as [|n IH]; intros p o Hp Hn; [cbn [INR] in Hn; lra|]. cbn [intersect_loop]. cbn [c_bounds ls_curve i_max ls_length].
  match goal with |- context [@nltb ?A ?x ?y] => replace (@nltb A x y) with true by (symmetry; apply ltb_R; lra) end.
  fold (@ls_curve RA (LineSeg a1 u1 L1)). fold (@ls_curve RA (LineSeg a2 u2 L2)).
  rewrite (project_line a2 u2 L2) by (auto; unfold lit; unR; lra). cbn [bind]. assert (forall a u L (t : R), c_sample (@ls_curve RA (LineSeg a u L)) t = on_line a u t) as Hs by (intros; apply pt_ext; cbn; unR; reflexivity). rewrite !Hs.
  set (d := @distance RA _ _). destruct (@nltb RA d (lit 1 100)) eqn:Ed; [eexists _, _; split; [reflexivity|lra]|]. apply ltb_R_false in Ed. unfold lit in Ed. unR.
  assert (d <= x - p)%R as Hd. { unfold d. eapply Rle_trans; [apply (foot a2 u2 (on_line a1 u1 p) y U2)|]. rewrite <- E. unfold distance. rewrite (line_dist a1 u1 U1) by lra. lra. }
  apply IH; [lra|]. rewrite S_INR in Hn. lra.
Qed.
Print Assumptions C42_lines.
(** The position on the second curve need not be within its bounds: here the first line crosses
    the extension of the second beyond its start. *)
Definition across := ls_curve (@LineSeg F64 (Pt (fz 0) (fz 0)) (Pt (fz 1) (fz 0)) (fz 10)).
Definition beside := ls_curve (@LineSeg F64 (Pt (fz 5) (fz 5)) (Pt (fz 0) (fz 1)) (fz 4)).
Lemma beside_met : match intersect_curves 20 across beside with Ok (Some (t1, t2)) => neqb t1 (fz 5) && neqb t2 (fz (-5)) && negb (i_contains (c_bounds beside) t2) | _ => false end = true.
Proof. vm_compute. reflexivity. Qed.
Theorem C42_second_in_bounds_refuted : exists (c1 c2 : @curve F64) fuel t1 t2, intersect_curves fuel c1 c2 = Ok (Some (t1, t2)) /\ i_contains (c_bounds c2) t2 = false.
Proof.
  pose proof beside_met as H. exists across, beside, 20%nat. destruct (intersect_curves 20 across beside) as [[(t1, t2)|]| |]; [|discriminate H|discriminate H|discriminate H]. exists t1, t2. split; [reflexivity|]. apply andb_prop in H. destruct H as (_ & H). apply negb_true_iff in H. exact H.
Qed.
Print Assumptions C42_second_in_bounds_refuted.
(** Two crossing lines of the exact arithmetic meet the conditions of [C42_lines]. *)
Example C42_lines_example : exists t1 t2, intersect_curves 502 (@ls_curve RA (LineSeg (@Pt RA 0%R 0%R) (@Pt RA 1%R 0%R) 10%R)) (@ls_curve RA (LineSeg (@Pt RA 5%R (-4)%R) (@Pt RA 0%R 1%R) 9%R)) = Ok (Some (t1, t2)) /\ (0 <= (t1 : R) <= 5)%R.
Proof.
  apply (C42_lines (@Pt RA 0%R 0%R) (@Pt RA 1%R 0%R) (@Pt RA 5%R (-4)%R) (@Pt RA 0%R 1%R) 10 9 5 4).
  - unfold unit. cbn [px py]. lra.
  - unfold unit. cbn [px py]. lra.
  - lra.
  - apply pt_ext; cbn [on_line px py]; lra.
  - replace (INR 502) with 502%R by (cbn [INR]; lra). lra.
Qed.

(** ** C38: a projection without samples *)
Definition bend : @curve F64 := qb_curve (QBez (Pt (fz 0) (fz 0)) (Pt (fz 3) (fz 6)) (Pt (fz 6) (fz 0))).
Definition bend_setup : list (@op F64) :=
  [ OAddLink (ex_line 3 6 23 6) (fz 15); OAddLink bend (fz 15); OAddGroup [nth_id 0; nth_id 1] 15; OAddVehicle ex_car (nth_id 0) ].
Lemma bend_no_samples : okb (run ex_env sim_new bend_setup) (fun s =>
  match sm_get (s_links s) (nth_id 0) with
  | Some l => match lk_group l with Some g => match g_projs g with p :: _ => Nat.eqb (length (pj_samples p)) 0 | [] => false end | None => false end
  | None => false end) = true.
Proof. vm_compute. reflexivity. Qed.
Lemma bend_panics : okb (run ex_env sim_new (bend_setup ++ [OStep (fz 1)])) (fun s => match exec ex_env s (OStep (fz 1)) with Panic PEmptySamples => true | _ => false end) = true.
Proof. vm_compute. reflexivity. Qed.
(** A straight lane that starts beside the tip of a tight bend: the search for the nearest point of
    the bend does not settle, the table stays empty, and the second step panics (in a build without
    overflow checks the index wraps around and memory outside the table is read). *)
Theorem C38_projection_table_refuted : exists (s : @sim F64) dt, reachable s /\ exec ex_env s (OStep dt) = Panic PEmptySamples.
Proof.
  destruct (okb_ok _ _ bend_panics) as (s & Hr & H). exists s, (fz 1). split; [eapply history_reachable; [eapply run_history; exact Hr|constructor]|].
  destruct (exec ex_env s (OStep (fz 1))) as [s'|p|]; [discriminate H| |discriminate H]. destruct p; (reflexivity || discriminate H).
Qed.
Print Assumptions C38_projection_table_refuted.
