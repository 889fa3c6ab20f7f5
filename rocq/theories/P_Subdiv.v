(** * C41: the subdivision of a curve of bounded speed ends *)
From Coq Require Import List Bool ZArith Arith Lia Reals Lra Psatz.
From Flocq Require Import Core.
From Verif Require Import Arith F64 RealArith Base BaseProofs Util Geom RFacts SimExample LineProofs P_Geom P_Curve.
Import ListNotations.
Local Open Scope R_scope.

Section Ends.
  Variables (c : @curve RA) (K m : R) (N : nat).
  Let a := i_min (c_bounds c) : R.
  Let b := i_max (c_bounds c) : R.
  Let unit_ := (b - a) / 2 ^ N.
  Hypothesis ab : a < b.
  Hypothesis m_pos : 0 < m.
  Hypothesis lip : forall s t : R, @distance RA (c_sample c s) (c_sample c t) <= K * Rabs (t - s).
  Hypothesis fine : K * unit_ <= m.
  (** The parameters are multiples of a small unit. *)
  Definition grid (i : nat) : R := a + INR i * unit_.
  Lemma unit_pos : 0 < unit_.
  Proof. unfold unit_. apply Rdiv_lt_0_compat; [lra|apply pow_lt; lra]. Qed.
  Lemma grid_mid i j : / 2 * (grid i + grid (i + 2 ^ S j)) = grid (i + 2 ^ j).
  Proof. unfold grid. rewrite !plus_INR. rewrite Nat.pow_succ_r', mult_INR. cbn [INR]. lra. Qed.
  Lemma near_unit i : @nltb RA (@powi2 RA m) (magnitude2 (vsub (c_sample c (grid (i + 1))) (c_sample c (grid i)))) = false.
  Proof.
    apply ltb_R_false. pose proof (lip (grid i) (grid (i + 1))) as L. unfold distance in L. replace (grid (i + 1) - grid i) with unit_ in L by (unfold grid; rewrite plus_INR; cbn [INR]; lra). pose proof unit_pos. rewrite Rabs_pos_eq in L by lra.
    pose proof (mag_pos (vsub (c_sample c (grid (i + 1))) (c_sample c (grid i)))) as P. pose proof (mag_sq (vsub (c_sample c (grid (i + 1))) (c_sample c (grid i)))) as Q. set (k := @magnitude RA _) in *. unfold magnitude2, dot, powi2. unR. rewrite <- Q. nra.
  Qed.
  (** Stacks: the parameters are grid points, and neighbours are a power of two of units apart. *)
  Fixpoint stacked (i : nat) (st : list (@num RA * @pt RA)) : Prop :=
    match st with
    | [] => i = (2 ^ N)%nat
    | (t, p) :: st => exists j, t = grid (i + 2 ^ j) /\ p = c_sample c (grid (i + 2 ^ j)) /\ stacked (i + 2 ^ j) st
    end.
  Lemma push_ends fuel : forall i j st, (j < fuel)%nat -> stacked (i + 2 ^ j) st ->
    exists st', sub_push fuel c (@powi2 RA m) (grid i) (c_sample c (grid i)) (grid (i + 2 ^ j)) (c_sample c (grid (i + 2 ^ j))) (@pair (@num RA) (@pt RA) (grid (i + 2 ^ j)) (c_sample c (grid (i + 2 ^ j))) :: st) = Ok st' /\ st' <> [] /\ stacked i st'.
  Proof.
    induction fuel as [|fuel IH]; intros i j st Hf Hs; [lia|]. cbn [sub_push]. destruct (nltb _ _) eqn:E.
    - destruct j as [|j]; [change (2 ^ 0)%nat with 1%nat in E; rewrite near_unit in E; discriminate E|].
      change (@nmul RA nhalf (@nadd RA (grid i) (grid (i + 2 ^ S j)))) with (@nhalf RA * (grid i + grid (i + 2 ^ S j))). rewrite half_R, grid_mid. apply IH; [lia|].
      exists j. replace (i + 2 ^ j + 2 ^ j)%nat with (i + 2 ^ S j)%nat by (rewrite Nat.pow_succ_r'; lia). repeat split. exact Hs.
    - eexists. split; [reflexivity|]. split; [discriminate|]. exists j. repeat split. exact Hs.
  Qed.
  Lemma stacked_le st : forall i, stacked i st -> (i <= 2 ^ N)%nat.
  Proof.
    induction st as [|(t, p) st IH]; intros i H; [cbn in H; lia|]. destruct H as (j & _ & _ & H). apply IH in H. lia.
  Qed.
  Lemma stacked_pow i j st : stacked (i + 2 ^ j) st -> (j <= N)%nat.
  Proof. intros H. apply stacked_le in H. apply (Nat.pow_le_mono_r_iff 2); lia. Qed.
  Lemma collect_ends fuel : forall i st, (N + 2 ^ N + 2 < fuel + i)%nat -> stacked i st -> (i <= 2 ^ N)%nat -> exists l, sub_collect fuel c (@powi2 RA m) (@pair (@num RA) (@pt RA) (grid i) (c_sample c (grid i)) :: st) = Ok l.
  Proof.
    induction fuel as [|fuel IH]; intros i st Hf Hs Hi; [lia|]. cbn [sub_collect sub_next]. destruct st as [|(t, p) st].
    - cbn [bind]. destruct fuel as [|fuel]; [lia|]. cbn [sub_collect sub_next bind]. eauto.
    - destruct Hs as (j & -> & -> & Hs). pose proof (stacked_pow _ _ _ Hs) as Hj. pose proof (stacked_le _ _ Hs) as Hle. destruct (push_ends (S fuel) i j st) as (st' & Hpush & Hne & Hs'); [lia|exact Hs|].  rewrite Hpush. cbn [bind].
      destruct st' as [|(t', p') st']; [congruence|]. destruct Hs' as (j' & -> & -> & Hs'). pose proof (stacked_le _ _ Hs') as Hle'. assert (1 <= 2 ^ j')%nat by (apply Nat.neq_0_lt_0, Nat.pow_nonzero; lia).
      destruct (IH (i + 2 ^ j')%nat st') as (l & ->); [lia|exact Hs'|exact Hle'|cbn [bind]; eauto].
  Qed.
End Ends.

(** A curve of speed at most [K] is subdivided in finitely many steps. *)
Theorem C41_ends : forall (c : @curve RA) (K max_length : R), ((i_min (c_bounds c) : R) < i_max (c_bounds c)) -> 0 < max_length ->
  (forall s t : R, @distance RA (c_sample c s) (c_sample c t) <= K * Rabs (t - s)) ->
  exists fuel l, subdivided_samples_along_curve fuel c max_length = Ok l.
Proof.
  intros c K m ab Hm lip. set (a := i_min (c_bounds c) : R) in *. set (b := i_max (c_bounds c) : R) in *.
  assert (exists N, (1 <= N)%nat /\ K * ((b - a) / 2 ^ N) <= m) as (N & N1 & fine).
  { destruct (Pow_x_infinity 2 ltac:(rewrite Rabs_pos_eq; lra) (Rabs K * (b - a) / m)) as (N & HN). exists (S N). split; [lia|]. specialize (HN (S N) ltac:(lia)). rewrite Rabs_pos_eq in HN by (apply Rlt_le, pow_lt; lra).
    assert (0 < 2 ^ S N) as P by (apply pow_lt; lra). apply (Rmult_le_reg_r (2 ^ S N)); [exact P|]. replace (K * ((b - a) / 2 ^ S N) * 2 ^ S N) with (K * (b - a)) by (field; lra). pose proof (Rle_abs K).
    assert (Rabs K * (b - a) <= m * 2 ^ S N); [|nra]. apply Rge_le in HN. apply (Rmult_le_compat_r m) in HN; [|lra]. unfold Rdiv in HN. rewrite Rmult_assoc, Rinv_l in HN by lra. lra. }
  destruct N as [|n]; [lia|]. set (N := S n) in *.
  destruct (collect_ends c K m N ab lip fine (N + 2 ^ N + 3) 0 [@pair (@num RA) (@pt RA) (@nmul RA nhalf (@nadd RA a b)) (c_sample c (@nmul RA nhalf (@nadd RA a b))); @pair (@num RA) (@pt RA) b (c_sample c b)]) as (l & Hl).
  - lia.
  - assert (grid c N 0 = a) as G0 by (unfold grid; cbn [INR]; fold a; lra).
    assert (INR (2 ^ N) = 2 ^ N) as P2 by (rewrite pow_INR; cbn [INR]; f_equal; lra). assert (0 < 2 ^ N) as PP by (apply pow_lt; lra).
    assert (grid c N (2 ^ N) = b) as GN. { unfold grid. fold a b. rewrite P2. field. lra. }
    assert (grid c N (2 ^ n) = @nmul RA nhalf (@nadd RA a b)) as GM. { change (@nmul RA nhalf (@nadd RA a b)) with (@nhalf RA * (a + b)). rewrite half_R. rewrite <- (Nat.add_0_l (2 ^ n)). rewrite <- (grid_mid c N 0 n). cbn [Nat.add]. fold N. rewrite G0, GN. reflexivity. }
    exists n. cbn [Nat.add]. rewrite GM. split; [reflexivity|]. split; [reflexivity|]. exists n. assert (2 ^ n + 2 ^ n = 2 ^ N)%nat as -> by (unfold N; rewrite Nat.pow_succ_r'; lia). rewrite GN. repeat split.
  - lia.
  - exists (N + 2 ^ N + 3)%nat, l. unfold subdivided_samples_along_curve, sub_stack. cbn zeta. fold a b. assert (grid c N 0 = a) as G0 by (unfold grid; cbn [INR]; fold a; lra). rewrite G0 in Hl. exact Hl.
Qed.
Print Assumptions C41_ends.
Definition line10 : @curve F64 := ls_curve (@LineSeg F64 (Pt (fz 0) (fz 0)) (Pt (fz 1) (fz 0)) (fz 10)).
Lemma subdivide_line10 : match subdivided_samples_along_curve 40 line10 (fz 1) with Ok l => Nat.eqb (length l) 17 | _ => false end = true.
Proof. vm_compute. reflexivity. Qed.
(** A line of 10 m in steps of at most 1 m gives 17 samples. *)
Example C41_example : exists l, subdivided_samples_along_curve 40 line10 (fz 1) = Ok l /\ length l = 17%nat.
Proof.
  pose proof subdivide_line10 as H. destruct (subdivided_samples_along_curve 40 line10 (fz 1)) as [l|p|]; [|discriminate H|discriminate H]. exists l. split; [reflexivity|]. apply Nat.eqb_eq. exact H.
Qed.
Example C41_ends_example : exists fuel l, subdivided_samples_along_curve fuel (@ls_curve RA (LineSeg (@Pt RA 0 0) (@Pt RA 1 0) 10)) (1 / 2) = Ok l.
Proof.
  apply (C41_ends _ 1); [cbn; unfold n0; unR; lra|lra|]. intros s t. unfold distance. set (v := vsub _ _). assert (v = @Pt RA (t - s) 0) as -> by (apply pt_ext; unfold v; cbn; unR; ring).
  unfold magnitude, magnitude2, dot. cbn [px py]. unR. apply Req_le. rewrite <- sqrt_Rsqr_abs. rewrite Rmult_1_l. f_equal. unfold Rsqr. ring.
Qed.
