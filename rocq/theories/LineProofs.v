(** * Straight links in exact arithmetic *)
From Coq Require Import List Bool ZArith Arith Lia Reals Lra Psatz.
From Flocq Require Import Core.
From Verif Require Import Arith RealArith Base Util Geom RFacts.
Import ListNotations.
Local Open Scope R_scope.

(** The point at distance [t] from [a] in the direction [u]. *)
Definition on_line (a u : @pt RA) (t : R) : @pt RA := @Pt RA (px a + t * px u)%R (py a + t * py u)%R.
Definition unit (u : @pt RA) : Prop := px u * px u + py u * py u = 1.
Lemma pt_ext (p q : @pt RA) : (px p : R) = px q -> (py p : R) = py q -> p = q.
Proof. destruct p, q. cbn. intros -> ->. reflexivity. Qed.
Lemma magnitude_along (u : @pt RA) (v : @pt RA) (d : R) : unit u -> 0 <= d -> (px v : R) = d * px u -> (py v : R) = d * py u -> @magnitude RA v = d.
Proof.
  intros U D Ex Ey. unfold magnitude, magnitude2, dot. unR. rewrite Ex, Ey. replace (d * px u * (d * px u) + d * py u * (d * py u)) with (d * d) by (unfold unit in U; nra). apply sqrt_square. exact D.
Qed.
Section Line.
  Variables (a u : @pt RA) (L : R).
  Hypothesis U : unit u.
  Let c := @ls_curve RA (LineSeg a u L).
  Let g (i : nat) := on_line a u (INR i * / 2).
  Lemma line_sample t : c_sample c t = on_line a u t.
  Proof. apply pt_ext; cbn; unR; reflexivity. Qed.
  Lemma line_dist s t : s <= t -> @magnitude RA (vsub (on_line a u t) (on_line a u s)) = t - s.
  Proof. intros H. apply (magnitude_along u); [exact U|lra| |]; cbn; unR; lra. Qed.
  (** The state of the search after [i] points beyond the first. *)
  Definition line_state (i : nat) (s : @eqst RA) : Prop :=
    e_ts s = @Itv RA (INR i * / 2)%R L /\ snd (e_ps s) = on_line a u L /\ e_dists s = @Itv RA 0%R (L - INR i * / 2)%R /\
    e_points s = rev (map g (seq 0 (S i))) /\ e_last s = g i.
  Lemma line_points i : e_points (@EqSt RA (@Itv RA 0%R 0%R) (a, a) (@Itv RA 0%R 0%R) (g (S i) :: rev (map g (seq 0 (S i)))) a) = rev (map g (seq 0 (S (S i)))).
  Proof. cbn [e_points]. rewrite (seq_S (S i) 0), map_app, rev_app_distr. reflexivity. Qed.
  Lemma line_inner i n s : line_state i s -> / 2 < L - INR i * / 2 -> line_state (S i) (@eq_inner RA c (/ 2) L (on_line a u L) (S n) s).
  Proof.
    intros (E1 & E2 & E3 & E4 & E5) H. cbn [eq_inner]. rewrite E1, E3, E5.
    assert (@i_lerp RA (@Itv RA (INR i * / 2)%R L) (@i_inv_lerp RA (@Itv RA 0%R (L - INR i * / 2)) (/ 2)) = INR (S i) * / 2) as Ht.
    { unfold i_lerp, i_inv_lerp. cbn [i_min i_max]. unR. rewrite S_INR. field. lra. }
    rewrite Ht. clear Ht. rewrite line_sample.
    assert (@magnitude RA (vsub (on_line a u (INR (S i) * / 2)) (g i)) = / 2) as Hd by (unfold g; rewrite line_dist by (rewrite S_INR; lra); rewrite S_INR; lra).
    rewrite Hd. clear Hd. assert (@ndiv RA (/ 2) (/ 2) = 1) as -> by (change (/ 2 / / 2 = 1); field).
    match goal with |- context [@nltb ?A ?x ?y] => replace (@nltb A x y) with false by (symmetry; apply ltb_R_false; unfold lit; unR; lra) end.
    match goal with |- context [@nltb ?A ?x ?y] => replace (@nltb A x y) with false by (symmetry; apply ltb_R_false; unfold lit; unR; lra) end.
    repeat split; cbn [e_ts e_ps e_dists e_points e_last snd].
    - rewrite line_dist by (rewrite S_INR; lra). unfold n0. unR. reflexivity.
    - rewrite E4. apply line_points.
  Qed.
  Lemma line_outer : forall m i fuel s, line_state i s -> (m < fuel)%nat -> INR i * / 2 < L -> L <= (INR i + INR m) * / 2 + / 2 -> exists j s', (i <= j)%nat /\ @eq_outer RA fuel c (/ 2) L (on_line a u L) s = Ok s' /\ line_state j s' /\ 0 < L - INR j * / 2 <= / 2.
  Proof.
    induction m as [|m IH]; intros i fuel s Hs Hf Hlt Hle; (destruct fuel as [|fuel]; [lia|]); cbn [eq_outer]; destruct Hs as (E1 & E2 & E3 & E4 & E5); rewrite E3; cbn [i_max].
    - match goal with |- context [@nltb ?A ?x ?y] => replace (@nltb A x y) with false by (symmetry; apply ltb_R_false; cbn [INR] in Hle; lra) end.
      exists i, s. repeat split; auto; cbn [INR] in *; lra.
    - match goal with |- context [@nltb ?A ?x ?y] => destruct (@nltb A x y) eqn:E end; [apply ltb_R in E|apply ltb_R_false in E].
      + destruct (IH (S i) fuel (@eq_inner RA c (/2) L (on_line a u L) 100 s)) as (j & s' & J1 & J2 & J3 & J4).
        * apply line_inner; [repeat split; auto|exact E].
        * lia.
        * rewrite S_INR. lra.
        * rewrite !S_INR in *. lra.
        * exists j, s'. repeat split; auto; try apply J3; try apply J4. lia.
      + exists i, s. repeat split; auto; lra.
  Qed.
  Lemma line_equidistant fuel : 0 < L -> 2 * L < INR fuel -> exists j m, @equidistant_points_along_curve RA fuel c (/ 2) = Ok (map g (seq 0 m), if Nat.eqb m (S j) then INR j * / 2 else L) /\
    0 < L - INR j * / 2 <= / 2 /\ ((m = S j /\ L - INR j * / 2 <= / 2000) \/ (m = S (S j) /\ / 2000 < L - INR j * / 2)).
  Proof.
    intros HL Hf. assert (0 < INR fuel) as Hf0 by lra. destruct fuel as [|fuel]; [cbn in Hf0; lra|]. unfold equidistant_points_along_curve. cbn [c_bounds c ls_curve i_min i_max ls_length].
    fold c. rewrite !line_sample.
    set (s0 := EqSt _ _ _ _ _). destruct (line_outer fuel 0 (S fuel) s0) as (j & s & _ & Ho & (E1 & E2 & E3 & E4 & E5) & Hj).
    { repeat split; cbn [s0 e_ts e_ps e_dists e_points e_last snd].
      - cbn [INR]. unfold n0. unR. rewrite Rmult_0_l. reflexivity.
      - unfold n0. unR. rewrite line_dist by lra. cbn [INR]. rewrite Rmult_0_l. reflexivity.
      - cbn [seq map rev app]. unfold g. cbn [INR]. rewrite Rmult_0_l. reflexivity.
      - unfold g. cbn [INR]. rewrite Rmult_0_l. reflexivity. }
    { lia. } { cbn [INR]. lra. } { rewrite S_INR in Hf. cbn [INR]. lra. }
    unfold n0 in *. unR. rewrite Ho. cbn [bind]. rewrite E4.
    assert (hd (on_line a u 0) (rev (map g (seq 0 (S j)))) = g j) as Hh by (rewrite seq_S, map_app, rev_app_distr; reflexivity).
    rewrite Hh, E2. clear Hh. set (lastp := g j).
    assert (@magnitude RA (vsub (on_line a u L) lastp) = L - INR j * / 2) as Hm by (apply line_dist; lra). rewrite Hm.
    match goal with |- context [Rlt_bool ?x ?y] => destruct (Rlt_bool_spec x y) as [E|E] end.
    - assert (/ 2000 < L - INR j * / 2) as E' by (unfold lit in E; unR; lra). exists j, (S (S j)).
      replace (Nat.eqb (S (S j)) (S j)) with false by (symmetry; apply Nat.eqb_neq; lia). split; [|split; [exact Hj|right; auto]]. f_equal. f_equal.
      + rewrite (seq_S (S j) 0), map_app. cbn [rev]. rewrite rev_involutive. f_equal. cbn [map Nat.add]. f_equal. unfold normalize_to. rewrite Hm. unfold lastp, g.
        apply pt_ext; cbn [vadd vmul vsub px py on_line]; unR; rewrite S_INR; field; lra.
      + rewrite rev_length, map_length, seq_length. replace (S j - 1)%nat with j by lia. rewrite <- INR_IZR_INZ. unR. lra.
    - assert (L - INR j * / 2 <= / 2000) as E' by (unfold lit in E; unR; lra). exists j, (S j). rewrite Nat.eqb_refl. split; [|split; [exact Hj|left; auto]]. f_equal. f_equal.
      + apply rev_involutive.
      + rewrite rev_length, map_length, seq_length. replace (S j - 1)%nat with j by lia. rewrite <- INR_IZR_INZ. unR. lra.
  Qed.
  Lemma line_odd m : (2 <= m)%nat -> exists n, (1 <= n)%nat /\ (m <= 2 * n + 1)%nat /\ @make_odd RA (map g (seq 0 m)) = map g (seq 0 (2 * n + 1)).
  Proof.
    intros Hm. unfold make_odd. rewrite map_length, seq_length. destruct (Nat.even m) eqn:E.
    - destruct m as [|[|m]]; [lia|lia|]. apply Nat.even_spec in E. destruct E as (n & En). exists n. split; [lia|]. split; [lia|]. replace (2 * n + 1)%nat with (S (S (S m))) by lia.
      rewrite (seq_S (S (S m)) 0), map_app. set (pts := map g (seq 0 (S (S m)))). assert (rev pts = g (S m) :: g m :: rev (map g (seq 0 m))) as -> by (unfold pts; rewrite (seq_S (S m) 0), (seq_S m 0), !map_app, !rev_app_distr; reflexivity).
      f_equal. cbn [map Nat.add]. f_equal. unfold g. apply pt_ext; cbn [vlerp vadd vmul vsub px py on_line]; unfold n2; unR; rewrite !S_INR; field.
    - assert (Nat.odd m = true) as O by (unfold Nat.odd; rewrite E; reflexivity). apply Nat.odd_spec in O. destruct O as (n & En). exists n. split; [lia|]. split; [lia|]. rewrite <- En. reflexivity.
  Qed.
  Definition line_seg (i : nat) : @qbez RA := QBez (on_line a u (INR i)) (on_line a u (INR i + / 2)) (on_line a u (INR i + 1)).
  Lemma segments_cons (p1 p2 p3 : @pt RA) tl : segments_of (p1 :: p2 :: p3 :: tl) = mk_segment p1 p2 p3 :: segments_of (p3 :: tl).
  Proof. reflexivity. Qed.
  Lemma line_segments n : forall k, @segments_of RA (map g (seq (2 * k) (2 * n + 1))) = map line_seg (seq k n).
  Proof.
    induction n as [|n IH]; intros k; [reflexivity|]. replace (2 * S n + 1)%nat with (S (S (2 * n + 1))) by lia.
    specialize (IH (S k)). replace (2 * S k)%nat with (S (S (2 * k))) in IH by lia. replace (2 * n + 1)%nat with (S (2 * n)) in * by lia. cbn [seq map] in *. rewrite segments_cons, IH. f_equal.
    assert (INR (2 * k) = 2 * INR k) as E0 by (rewrite mult_INR; cbn [INR]; lra).
    unfold mk_segment, line_seg, g. f_equal; apply pt_ext; cbn [vlerp vadd vmul vsub px py on_line]; rewrite ?half_R; unR; rewrite ?S_INR, ?E0; first [field | lra].
  Qed.
  (** The link curve built along a straight line. *)
  Lemma line_curve fuel : / 2000 < L -> 2 * L < INR fuel ->
    exists lc, @lc_new RA fuel c = Ok lc /\ L - / 2000 <= lc_length lc <= L /\ (0 < lc_length lc) /\ (forall pos, sample_centre lc pos = LSample (on_line a u pos) u) /\
      forall pos, qb_sample (fst (lc_seg lc pos)) (snd (lc_seg lc pos)) = on_line a u pos /\ qb_dt (fst (lc_seg lc pos)) (snd (lc_seg lc pos)) = u /\ qb_dt2 (fst (lc_seg lc pos)) (snd (lc_seg lc pos)) = @Pt RA 0%R 0%R.
  Proof.
    intros HL Hf. destruct (line_equidistant fuel) as (j & m & He & Hj & Hm); [lra|exact Hf|]. unfold lc_new, lc_with_step. rewrite half_R. rewrite He. cbn [bind fst snd].
    assert (2 <= m)%nat as Hm2. { destruct Hm as [(-> & H)|(-> & H)]; [|lia]. destruct j as [|j]; [cbn [INR] in H; lra|lia]. }
    destruct (line_odd m Hm2) as (n & Hn & _ & ->). pose proof (line_segments n 0) as Hseg. change (2 * 0)%nat with 0%nat in Hseg. rewrite Hseg. clear Hseg.
    destruct n as [|n]; [lia|]. remember (map line_seg (seq 0 (S n))) as segs eqn:Es. destruct segs as [|sg0 sgs]; [discriminate Es|]. remember (sg0 :: sgs) as segs eqn:E0. clear E0 sg0 sgs.
    eexists. split; [reflexivity|]. cbn [lc_length]. split; [split|split].
    - destruct Hm as [(-> & H)|(-> & H)]; [rewrite Nat.eqb_refl; lra|]. replace (Nat.eqb (S (S j)) (S j)) with false by (symmetry; apply Nat.eqb_neq; lia). lra.
    - destruct (Nat.eqb m (S j)); lra.
    - destruct Hm as [(-> & H)|(-> & H)]; [rewrite Nat.eqb_refl; lra|]. replace (Nat.eqb (S (S j)) (S j)) with false by (symmetry; apply Nat.eqb_neq; lia). lra.
    - assert (forall pos, qb_sample (fst (lc_seg (@LinkCurve RA (@ndiv RA (/ 2) (/ 2)) (if Nat.eqb m (S j) then INR j * / 2 else L) segs) pos)) (snd (lc_seg (@LinkCurve RA (@ndiv RA (/ 2) (/ 2)) (if Nat.eqb m (S j) then INR j * / 2 else L) segs) pos)) = on_line a u pos /\
        qb_dt (fst (lc_seg (@LinkCurve RA (@ndiv RA (/ 2) (/ 2)) (if Nat.eqb m (S j) then INR j * / 2 else L) segs) pos)) (snd (lc_seg (@LinkCurve RA (@ndiv RA (/ 2) (/ 2)) (if Nat.eqb m (S j) then INR j * / 2 else L) segs) pos)) = u /\
        qb_dt2 (fst (lc_seg (@LinkCurve RA (@ndiv RA (/ 2) (/ 2)) (if Nat.eqb m (S j) then INR j * / 2 else L) segs) pos)) (snd (lc_seg (@LinkCurve RA (@ndiv RA (/ 2) (/ 2)) (if Nat.eqb m (S j) then INR j * / 2 else L) segs) pos)) = @Pt RA 0%R 0%R) as K.
      { intros pos. unfold lc_seg. cbn [lc_scale lc_segments fst snd]. set (i := lc_sample_index _ pos).
      assert (i < S n)%nat as Hi. { unfold i, lc_sample_index. cbn [lc_segments]. rewrite Es, map_length, seq_length. lia. }
      assert (nth i segs (QBez vzero vzero vzero) = line_seg i) as ->.
      { rewrite Es. rewrite (nth_indep _ _ (line_seg 0)) by (rewrite map_length, seq_length; exact Hi). rewrite map_nth. rewrite seq_nth by exact Hi. reflexivity. }
      assert (@nmul RA pos (@ndiv RA (/ 2) (/ 2)) = pos) as Hpos by (change (pos * (/ 2 / / 2) = pos); field). rewrite Hpos. clear Hpos.
      split; [apply pt_ext; unfold qb_sample, line_seg, n2, n1; cbn [vadd vscale px py q0 q1 q2 on_line]; unR; rewrite <- INR_IZR_INZ; field|].
      split; apply pt_ext; unfold qb_dt, qb_dt2, line_seg, n2, n1; cbn [vadd vsub vscale px py q0 q1 q2 on_line]; unR; field. }
      split; [|exact K]. intros pos. destruct (K pos) as (K1 & K2 & _). unfold sample_centre. destruct (lc_seg _ pos) as (sg & t). cbn [fst snd] in K1, K2. rewrite K1, K2. f_equal.
      unfold normalize, normalize_to. rewrite (magnitude_along u u 1); [|exact U|lra|lra|lra]. apply pt_ext; unfold n1; cbn [vmul px py]; unR; field.
  Qed.
End Line.
