(** * Intervals (C45), rotated ranges (C46) and lookup tables (C47) *)
From Coq Require Import List Bool ZArith NArith Arith Lia Reals Lra Psatz Permutation.
From Flocq Require Import Core.Raux.
From Verif Require Import Arith F64 RealArith RFacts Base BaseProofs SlotMap Util Geom Light Accel Net Path Vehicle LinkOps Sim SpecSim SlotMapProofs Safe NetInv SimInv StepSafe OpSafe Evo StepEvo SimExample.
Import ListNotations.

(** ** C45: intervals in exact arithmetic *)
Section C45.
  Local Open Scope R_scope.
  Notation itv := (@interval RA).
  (** The set of points of an interval. *)
  Definition point_of (a : itv) (x : R) : Prop := i_min a <= x <= i_max a.
  Definition proper (a : itv) : Prop := i_min a <= i_max a.
  Definition inside (a : itv) (x : R) : Prop := i_min a < x < i_max a.

  Theorem C45_contains : forall (a : itv) (x : R), i_contains a x = true <-> point_of a x.
  Proof. intros a x. unfold i_contains, point_of. rewrite andb_true_iff, !leb_R. tauto. Qed.
  (** Two intervals overlap if they have an inner point in common. *)
  Theorem C45_overlaps : forall (a b : itv), i_min a < i_max a -> i_min b < i_max b ->
    (i_overlaps a b = true <-> exists x, inside a x /\ inside b x).
  Proof.
    intros a b Ha Hb. unfold i_overlaps, inside. rewrite andb_true_iff, !ltb_R. split.
    - intros (H1 & H2). exists ((Rmax (i_min a) (i_min b) + Rmin (i_max a) (i_max b)) / 2). unfold Rmax, Rmin. repeat destruct Rle_dec; lra.
    - intros (x & H1 & H2). lra.
  Qed.
  (** The clearance is negative exactly if they overlap; otherwise it is the smallest distance of a
      point of one to a point of the other. *)
  Theorem C45_clearance : forall (a b : itv), proper a -> proper b ->
    (i_clearance_with a b < 0 <-> i_overlaps a b = true) /\
    (0 <= i_clearance_with a b ->
       (forall x y, point_of a x -> point_of b y -> i_clearance_with a b <= Rabs (x - y)) /\
       exists x y, point_of a x /\ point_of b y /\ Rabs (x - y) = i_clearance_with a b).
  Proof.
    intros a b Ha Hb. unfold i_clearance_with, i_overlaps, proper, point_of in *. rewrite max_R, andb_true_iff, !ltb_R. unR. split.
    - unfold Rmax. destruct Rle_dec; lra.
    - intros H. split.
      + intros x y Hx Hy. unfold Rmax in *. destruct Rle_dec; unfold Rabs; destruct Rcase_abs; lra.
      + unfold Rmax in *. destruct Rle_dec.
        * exists (i_min a), (i_max b). split; [lra|]. split; [lra|]. rewrite Rabs_pos_eq; lra.
        * exists (i_max a), (i_min b). split; [lra|]. split; [lra|]. rewrite Rabs_minus_sym, Rabs_pos_eq; lra.
  Qed.
  (** Likewise for the distance to a point. *)
  Theorem C45_distance : forall (a : itv) (x : R), proper a ->
    (i_distance a x <= 0 <-> point_of a x) /\
    (0 <= i_distance a x -> (forall y, point_of a y -> i_distance a x <= Rabs (x - y)) /\ exists y, point_of a y /\ Rabs (x - y) = i_distance a x).
  Proof.
    intros a x Ha. unfold i_distance, proper, point_of in *. rewrite max_R. unR. split.
    - unfold Rmax. destruct Rle_dec; lra.
    - intros H. split.
      + intros y Hy. unfold Rmax in *. destruct Rle_dec; unfold Rabs; destruct Rcase_abs; lra.
      + unfold Rmax in *. destruct Rle_dec.
        * exists (i_min a). split; [lra|]. rewrite Rabs_minus_sym, Rabs_pos_eq; lra.
        * exists (i_max a). split; [lra|]. rewrite Rabs_pos_eq; lra.
  Qed.
  Theorem C45_lerp : forall (a : itv) (t x : R), i_min a <> i_max a ->
    i_lerp a 0 = i_min a /\ i_lerp a 1 = i_max a /\ i_inv_lerp a (i_lerp a t) = t /\ i_lerp a (i_inv_lerp a x) = x.
  Proof. intros a t x H. assert (i_max a - i_min a <> 0) as N by (intros E; apply H; lra). unfold i_lerp, i_inv_lerp. unR. repeat split; try ring; field; exact N. Qed.
  (** [disc(c, r)] is the interval of the points at most [r] away from [c]; [c] is its middle. *)
  Theorem C45_disc : forall c r x : R,
    (point_of (@i_disc RA c r) x <-> Rabs (x - c) <= r) /\ i_midpoint (@i_disc RA c r) = c /\ i_length (@i_disc RA c r) = 2 * r.
  Proof.
    intros c r x. unfold point_of, i_disc, i_midpoint, i_length. cbn [i_min i_max]. rewrite half_R. unR. split; [|split; field].
    unfold Rabs. destruct Rcase_abs; split; lra.
  Qed.
  (** Adding and subtracting shift the points. *)
  Theorem C45_shift : forall (a : itv) (d x : R),
    (point_of (i_add a d) (x + d) <-> point_of a x) /\ (point_of (i_sub a d) (x - d) <-> point_of a x) /\
    i_length (i_add a d) = i_length a /\ i_length (i_sub a d) = i_length a.
  Proof. intros a d x. unfold point_of, i_add, i_sub, i_length. cbn [i_min i_max]. unR. repeat split; intros; lra. Qed.
  Example C45_example : proper (@Itv RA 0 5) /\ i_overlaps (@Itv RA 0 5) (@Itv RA 3 8) = true /\ i_clearance_with (@Itv RA 0 5) (@Itv RA 7 8) = 2 /\ i_distance (@Itv RA 0 5) (-3) = 3.
  Proof.
    unfold proper, i_clearance_with, i_distance. rewrite !max_R. cbn [i_min i_max]. unR. split; [lra|]. split.
    - apply (C45_overlaps (@Itv RA 0 5) (@Itv RA 3 8)); cbn; unR; try lra. exists 4. unfold inside. cbn. lra.
    - split; unfold Rmax; destruct Rle_dec; lra.
  Qed.
End C45.
Print Assumptions C45_contains.
Print Assumptions C45_overlaps.
Print Assumptions C45_clearance.
Print Assumptions C45_distance.
Print Assumptions C45_lerp.
Print Assumptions C45_disc.
Print Assumptions C45_shift.

(** ** C46: every conflict is visited once *)
Lemma seq_map_add n b c : map (fun i => i + b) (seq c n) = seq (c + b) n.
Proof. revert c. induction n; intros c; simpl; [reflexivity|]. f_equal. apply (IHn (S c)). Qed.
Lemma rotated_eq count start : start <= count -> rotated_range count start = seq start (count - start) ++ seq 0 start.
Proof.
  intros H. unfold rotated_range. rewrite seq_map_add. cbn [Nat.add].
  assert (seq start count = seq start (count - start) ++ seq (start + (count - start)) start) as -> by (rewrite <- seq_app; f_equal; lia).
  rewrite map_app. f_equal.
  - rewrite <- (map_id (seq start (count - start))) at 2. apply map_ext_in. intros i Hi. apply in_seq in Hi. destruct (Nat.leb_spec count i); lia.
  - replace (start + (count - start)) with (0 + count) by lia. rewrite <- seq_map_add, map_map.
    rewrite <- (map_id (seq 0 start)) at 2. apply map_ext_in. intros i Hi. apply in_seq in Hi. destruct (Nat.leb_spec count (i + count)); lia.
Qed.
Theorem C46_rotated_range :
  forall count start, start < count \/ count = 0 /\ start = 0 ->
    Permutation (rotated_range count start) (seq 0 count) /\ (count <> 0 -> hd_error (rotated_range count start) = Some start).
Proof.
  intros count start H. assert (start <= count) as L by lia. rewrite (rotated_eq count start L). split.
  - rewrite Permutation_app_comm. replace (seq start (count - start)) with (seq (0 + start) (count - start)) by reflexivity. rewrite <- seq_app. replace (start + (count - start)) with count by lia. reflexivity.
  - intros N. destruct (count - start) eqn:E; [lia|]. reflexivity.
Qed.
Print Assumptions C46_rotated_range.
(** The remembered index is always in range. *)
Theorem C46_start_in_range :
  forall (A : Arith) s k l, reachable s -> link_at s k = Some l -> lk_last l < length (lk_conflicts l) \/ lk_last l = 0.
Proof. intros A s k l R G. pose proof (reachable_Inv _ R) as I. exact (lo_last _ _ _ (nk_link _ (st_net _ _ _ (i_st _ I)) _ _ G)). Qed.
Print Assumptions C46_start_in_range.

(** The give-way decision does not depend on where the inspection of the conflicts starts. *)
Section Order.
  Context {A : Arith}.
  Lemma enter_loop_none fuel links vs l r q p idxs : enter_loop fuel links vs l r q p idxs = Ok None ->
    forall i, In i idxs -> enter_loop fuel links vs l r q p [i] = Ok None.
  Proof.
    induction idxs as [|j idxs IH]; intros H i Hi; [destruct Hi|]. cbn [enter_loop] in H. bok H c Hc. bok H l2 Hl. bok H g Hg.
    destruct g; [|discriminate H]. destruct Hi as [->|Hi].
    - cbn [enter_loop]. rewrite Hc. cbn [bind]. rewrite Hl. cbn [bind]. rewrite Hg. reflexivity.
    - apply IH; auto.
  Qed.
  Lemma enter_loop_some fuel links vs l r q p idxs i : enter_loop fuel links vs l r q p idxs = Ok (Some i) ->
    In i idxs /\ enter_loop fuel links vs l r q p [i] = Ok (Some i).
  Proof.
    induction idxs as [|j idxs IH]; intros H; [discriminate H|]. cbn [enter_loop] in H. bok H c Hc. bok H l2 Hl. bok H g Hg.
    destruct g; [destruct (IH H); simpl; auto|]. injection H as <-. split; [simpl; auto|].
    cbn [enter_loop]. rewrite Hc. cbn [bind]. rewrite Hl. cbn [bind]. rewrite Hg. reflexivity.
  Qed.
  Lemma enter_loop_perm fuel links vs l r q p a b o1 o2 : Permutation a b ->
    enter_loop fuel links vs l r q p a = Ok o1 -> enter_loop fuel links vs l r q p b = Ok o2 -> o1 = None -> o2 = None.
  Proof.
    intros P H1 H2 ->. destruct o2 as [i|]; auto. exfalso. destruct (enter_loop_some _ _ _ _ _ _ _ _ _ H2) as (I & E).
    rewrite (enter_loop_none _ _ _ _ _ _ _ _ H1 i) in E; [discriminate E|]. eapply Permutation_in; [symmetry; exact P|exact I].
  Qed.
End Order.
Theorem C46_order_irrelevant :
  forall (A : Arith) fuel links vs l r queued_at priority log1 log2 i1 i2 b1 b2 log1' log2',
    let n := length (lk_conflicts l) in
    i1 < n \/ n = 0 /\ i1 = 0 -> i2 < n \/ n = 0 /\ i2 = 0 ->
    read_last log1 (lk_id l) (lk_last l) = i1 -> read_last log2 (lk_id l) (lk_last l) = i2 ->
    can_enter fuel links vs l r queued_at priority log1 = Ok (b1, log1') ->
    can_enter fuel links vs l r queued_at priority log2 = Ok (b2, log2') -> b1 = b2.
Proof.
  intros A fuel links vs l r q p log1 log2 i1 i2 b1 b2 l1 l2 n V1 V2 R1 R2 H1 H2. unfold can_enter in *.
  rewrite R1 in H1. rewrite R2 in H2. bok H1 o1 Ha. bok H2 o2 Hb.
  assert (Permutation (rotated_range n i1) (rotated_range n i2)) as P
    by (rewrite (proj1 (C46_rotated_range n i1 V1)), (proj1 (C46_rotated_range n i2 V2)); reflexivity).
  pose proof (enter_loop_perm _ _ _ _ _ _ _ _ _ _ _ P Ha Hb). pose proof (enter_loop_perm _ _ _ _ _ _ _ _ _ _ _ (Permutation_sym P) Hb Ha).
  destruct o1 as [x|], o2 as [y|]; injection H1 as <- <-; injection H2 as <- <-; auto; exfalso; [discriminate (H0 eq_refl)|discriminate (H eq_refl)].
Qed.
Print Assumptions C46_order_irrelevant.
Example C46_example : rotated_range 5 3 = [3; 4; 0; 1; 2] /\ (3 < 5 \/ 5 = 0 /\ 3 = 0).
Proof. split; [reflexivity|lia]. Qed.

(** ** C47: lookup tables *)
Theorem C47_safe : forall (A : Arith) (T : Type) (t : lut T) x,
  (lut_values t = [] -> lut_sample t x = Panic PEmptyTable) /\
  (lut_values t <> [] -> exists y, lut_sample t x = Ok y /\ In y (lut_values t)).
Proof.
  intros A T t x. unfold lut_sample. split.
  - intros ->. reflexivity.
  - intros N. destruct (length (lut_values t)) eqn:L; [apply length_zero_iff_nil in L; contradiction|].
    destruct (nth_error (lut_values t) (Nat.min (Z.to_nat (ncast u32_max ((x - lut_offset t) / lut_step t)%num)) n)) as [y|] eqn:E.
    + exists y. split; [reflexivity|]. eapply nth_error_In; eauto.
    + apply nth_error_None in E. lia.
Qed.
Print Assumptions C47_safe.

(** The table made from [f] over a range: sampling gives [f] at the middle of the cell containing
    [x]; arguments outside the range give the first or the last cell. *)
Section C47.
  Local Open Scope R_scope.
  Definition table_size (range : @interval RA) (step : R) : nat := length (lut_values (@lut_from_samples RA unit range step (fun _ => tt))).
  Definition cell_middle (range : @interval RA) (step : R) (i : nat) : R := i_min range + (INR i + /2) * step.
  Theorem C47_size : forall (range : @interval RA) (step : R) (T : Type) (f : R -> T),
    0 < step -> i_min range < i_max range -> i_max range - i_min range <= step * IZR u32_max ->
    let n := length (lut_values (@lut_from_samples RA T range step f)) in
    (0 < n)%nat /\ i_min range + (INR n - 1) * step < i_max range <= i_min range + INR n * step.
  Proof.
    intros range step T f Hs Hr Hb. unfold lut_from_samples. cbn [lut_values]. rewrite map_length, seq_length.
    unfold i_length. unR. cbn [ncast nceil RA]. set (q := (i_max range - i_min range) / step).
    assert (0 < q) as Hq by (apply Rdiv_lt_0_compat; lra).
    assert (q * step = i_max range - i_min range) as Eq by (unfold q; field; lra).
    assert (q <= IZR u32_max) as Hq2 by (apply Rmult_le_reg_r with step; [auto|]; lra).
    rewrite Ztrunc_IZR. set (c := Zceil q). assert (IZR c - 1 < q <= IZR c) as (C1 & C2) by (split; [pose proof (Zceil_lb q); fold c in H; lra|apply Zceil_ub]).
    assert (0 < c)%Z as Pc by (apply lt_IZR; lra). assert (c <= u32_max)%Z as Uc by (apply Zceil_glb; auto).
    assert (u32_max <= usize_max)%Z by (vm_compute; discriminate). rewrite Z.min_r, Z.max_r by lia.
    split; [lia|]. rewrite INR_IZR_INZ, Z2Nat.id by lia. split; nra.
  Qed.
  Theorem C47_cell : forall (range : @interval RA) (step : R) (T : Type) (f : R -> T) (x : R),
    0 < step -> i_min range < i_max range -> i_max range - i_min range <= step * IZR u32_max ->
    let t := @lut_from_samples RA T range step f in let n := length (lut_values t) in
    (x < i_min range -> lut_sample t x = Ok (f (cell_middle range step 0))) /\
    (i_min range + INR n * step <= x -> lut_sample t x = Ok (f (cell_middle range step (n - 1)))) /\
    (forall i, (i < n)%nat -> i_min range + INR i * step <= x < i_min range + INR (i + 1) * step ->
       lut_sample t x = Ok (f (cell_middle range step i)) /\ Rabs (x - cell_middle range step i) <= step / 2).
  Proof.
    intros range step T f x Hs Hr Hb t n. destruct (C47_size range step T f Hs Hr Hb) as (Pn & Sz). fold t n in Pn, Sz.
    assert (forall i, (i < n)%nat -> nth_error (lut_values t) i = Some (f (cell_middle range step i))) as NE.
    { intros i Hi. unfold t, lut_from_samples in *. cbn [lut_values] in *. unfold n in Hi. rewrite map_length, seq_length in Hi.
      rewrite nth_error_map, nth_error_seq by exact Hi.
      cbn [option_map]. unfold cell_middle. rewrite half_R. unR. rewrite INR_IZR_INZ. reflexivity. }
    assert (INR n - 1 < IZR u32_max) as Un by nra.
    assert (Z.of_nat n <= u32_max)%Z as Un2. { rewrite INR_IZR_INZ in Un. assert (IZR (Z.of_nat n) < IZR (u32_max + 1)) as K by (rewrite plus_IZR; lra). apply lt_IZR in K. lia. }
    assert (forall i, (i < n)%nat -> Nat.min (Z.to_nat (Z.max 0 (Z.min u32_max (Ztrunc ((x - i_min range) / step))))) (n - 1) = i ->
       lut_sample t x = Ok (f (cell_middle range step i))) as K.
    { intros i Hi E. unfold lut_sample. fold n. destruct n as [|m] eqn:En; [lia|]. replace (lut_offset t) with (i_min range) by reflexivity. replace (lut_step t) with step by reflexivity.
      unR. cbn [ncast RA]. replace (S m - 1)%nat with m in E by lia. rewrite E, NE by lia. reflexivity. }
    assert ((x - i_min range) / step * step = x - i_min range) as Eq by (field; lra).
    split; [|split].
    - intros H. apply K; [lia|]. assert ((x - i_min range) / step < 0) as N by (apply Rmult_lt_reg_r with step; [auto|]; lra).
      assert (Ztrunc ((x - i_min range) / step) <= 0)%Z as Z. { rewrite Ztrunc_ceil by lra. apply Zceil_glb. lra. }
      assert (0 <= u32_max)%Z by (vm_compute; discriminate). lia.
    - intros H. apply K; [lia|]. assert (INR n <= (x - i_min range) / step) as N by (apply Rmult_le_reg_r with step; [auto|]; lra).
      assert (Z.of_nat n <= Ztrunc ((x - i_min range) / step))%Z as Z.
      { rewrite Ztrunc_floor by (pose proof (pos_INR n); lra). apply Zfloor_lub. rewrite <- INR_IZR_INZ. exact N. }
      lia.
    - intros i Hi (H1 & H2). rewrite plus_INR in H2. cbn [INR] in H2. split.
      + apply K; [auto|]. set (y := (x - i_min range) / step). assert (INR i <= y < INR i + 1) as N.
        { unfold y. split; [apply Rmult_le_reg_r with step|apply Rmult_lt_reg_r with step]; auto; lra. }
        assert (Ztrunc y = Z.of_nat i) as ->.
        { rewrite Ztrunc_floor by (pose proof (pos_INR i); lra). apply Zfloor_imp. rewrite plus_IZR, <- INR_IZR_INZ. exact N. }
        lia.
      + unfold cell_middle. unfold Rabs. destruct Rcase_abs; nra.
  Qed.
  (** The table of the repository's own unit test: range 50..200 in steps of 5. *)
  Example C47_example : lut_sample (@lut_from_samples RA R (@Itv RA 50 200) 5 (fun x => 2 * x)) (92 : R) = Ok 185.
  Proof.
    destruct (C47_cell (@Itv RA 50 200) 5 R (fun x => 2 * x) 92) as (_ & _ & H); cbn [i_min i_max]; try lra.
    - assert (40 <= IZR u32_max) by (apply IZR_le; vm_compute; discriminate). lra.
    - destruct (C47_size (@Itv RA 50 200) 5 R (fun x => 2 * x)) as (P & Sz1 & Sz2); cbn [i_min i_max] in *; try lra.
      + assert (40 <= IZR u32_max) by (apply IZR_le; vm_compute; discriminate). lra.
      + destruct (H 8%nat) as (E & _).
        * apply INR_lt. assert (INR 8 = 8) as -> by (cbn; lra). change @num with (fun _ : Arith => R) in *. cbn beta in *. apply (Rmult_lt_reg_r 5); [lra|]. apply Rlt_le_trans with 150; [lra|]. clear - Sz2. apply (Rplus_le_reg_l 50). refine (Rle_trans _ _ _ _ Sz2). lra.
        * cbn [i_min Nat.add INR]. lra.
        * etransitivity; [exact E|]. unfold cell_middle. cbn [i_min INR]. f_equal. lra.
  Qed.
End C47.
Print Assumptions C47_size.
Print Assumptions C47_cell.
