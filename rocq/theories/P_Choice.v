(** * Lane distances (C33) and the choice of a path (C58) *)
From Coq Require Import List Bool ZArith NArith Arith Lia Reals Lra.
From Flocq Require Import Core IEEE754.BinarySingleNaN.
From Verif Require Import Arith F64 RealArith Base BaseProofs SlotMap SlotMapProofs Util Geom Light Accel Net Path Vehicle LinkOps Sim SpecLight SpecSim SpecChoice Safe NetInv SimInv StepSafe OpSafe Evo StepEvo SimProofs StepProofs RFacts SimExample P_Sim P_Motion NetEvo SpecNet SpecRoute P_Lane RouteProofs P_Route P_Exit.
Import ListNotations.

(** ** C33: lane distances *)
Lemma dists_ext a b : (forall i, i < 4 -> entry a i = entry b i) -> a = b.
Proof.
  intros H. destruct a as [a0 a1 a2 a3], b as [c0 c1 c2 c3].
  pose proof (H 0 ltac:(lia)). pose proof (H 1 ltac:(lia)). pose proof (H 2 ltac:(lia)). pose proof (H 3 ltac:(lia)). cbn in *. congruence.
Qed.
Lemma combine_entry a b i : i < 4 -> entry (dists_combine a b) i = Z.max (entry a i) (entry b i).
Proof. intros H. destruct i as [|[|[|[|i]]]]; try reflexivity; lia. Qed.
(** Combining takes the better of two lanes: it is the least upper bound, so it is commutative, associative and idempotent. *)
Theorem C33_combine :
  forall a b c, no_further a (dists_combine a b) /\ no_further b (dists_combine a b) /\
    (no_further a c -> no_further b c -> no_further (dists_combine a b) c) /\
    dists_combine a b = dists_combine b a /\ dists_combine a (dists_combine b c) = dists_combine (dists_combine a b) c /\ dists_combine a a = a.
Proof.
  intros a b c. unfold no_further. split; [|split; [|split; [|split; [|split]]]].
  - intros i Hi. rewrite combine_entry by exact Hi. lia.
  - intros i Hi. rewrite combine_entry by exact Hi. lia.
  - intros Ha Hb i Hi. rewrite combine_entry by exact Hi. specialize (Ha i Hi). specialize (Hb i Hi). lia.
  - apply dists_ext. intros i Hi. rewrite !combine_entry by exact Hi. lia.
  - apply dists_ext. intros i Hi. rewrite !combine_entry by exact Hi. lia.
  - apply dists_ext. intros i Hi. rewrite !combine_entry by exact Hi. lia.
Qed.
Print Assumptions C33_combine.
Lemma offset_entry {A : Arith} d x i : i < 4 -> entry (dists_offset d x) i = Z.min (entry d i + make_dist x) u32_max.
Proof. intros H. destruct i as [|[|[|[|i]]]]; try reflexivity; lia. Qed.
Lemma shift_entry d i : i < 4 -> entry (dists_shift d) i = match i with O => 0%Z | S j => entry d j end.
Proof. intros H. destruct i as [|[|[|[|i]]]]; try reflexivity; lia. Qed.
(** Adding the length of a link never wraps around: the sum stays in 32 bits, and is exact unless it would not fit, when it is the
    greatest value.  It makes no distance shorter, keeps the order, and distributes over combining. *)
Theorem C33_offset :
  forall (A : Arith) a b x, @cast_in_range A -> u32s a -> u32s b ->
    u32s (dists_offset a x) /\ no_further a (dists_offset a x) /\
    (forall i, i < 4 -> entry (dists_offset a x) i = Z.min (entry a i + ncast u32_max (nmul (nofZ 10) x)) u32_max) /\
    (no_further a b -> no_further (dists_offset a x) (dists_offset b x)) /\
    dists_offset (dists_combine a b) x = dists_combine (dists_offset a x) (dists_offset b x).
Proof.
  intros A a b x Cast Ua Ub. assert (0 <= make_dist x <= u32_max)%Z as M by (apply Cast; unfold u32_max; lia). split; [|split; [|split; [|split]]].
  - intros i Hi. rewrite offset_entry by exact Hi. specialize (Ua i Hi). lia.
  - intros i Hi. rewrite offset_entry by exact Hi. specialize (Ua i Hi). lia.
  - intros i Hi. rewrite offset_entry by exact Hi. reflexivity.
  - intros H i Hi. rewrite !offset_entry by exact Hi. specialize (H i Hi). lia.
  - apply dists_ext. intros i Hi. rewrite combine_entry, !offset_entry, combine_entry by exact Hi. lia.
Qed.
Print Assumptions C33_offset.
(** A lane change shifts the distances by one place, which also keeps the order and distributes over combining and adding, but for the
    first place, which is zero. *)
Theorem C33_shift :
  forall a b, u32s a -> u32s (dists_shift a) /\ entry (dists_shift a) 0 = 0%Z /\ (forall i, i < 3 -> entry (dists_shift a) (S i) = entry a i) /\
    (no_further a b -> no_further (dists_shift a) (dists_shift b)) /\
    dists_shift (dists_combine a b) = dists_combine (dists_shift a) (dists_shift b).
Proof.
  intros a b Ua. split; [|split; [|split; [|split]]].
  - intros i Hi. rewrite shift_entry by exact Hi. destruct i as [|j]; [unfold u32_max; lia|apply Ua; lia].
  - reflexivity.
  - intros i Hi. rewrite shift_entry by lia. reflexivity.
  - intros H i Hi. rewrite !shift_entry by exact Hi. destruct i as [|j]; [lia|apply H; lia].
  - apply dists_ext. intros i Hi. rewrite combine_entry, !shift_entry by exact Hi. destruct i as [|j]; [reflexivity|apply combine_entry; lia].
Qed.
Print Assumptions C33_shift.

(** The cost in exact arithmetic. *)
Local Open Scope R_scope.
Definition left_of (d : dists) (pos : R) (i : nat) : R := IZR (entry d i) / 10 - pos.
Lemma remaining_R d (pos : R) i : @remaining RA d pos i = left_of d pos i.
Proof. unfold remaining, left_of, lit. unR. lra. Qed.
Lemma cost_R d (pos : R) : @dists_cost RA d pos = Rmax (Rmax (Rmax (1 / left_of d pos 0) (2 / left_of d pos 1)) (3 / left_of d pos 2)) (4 / left_of d pos 3).
Proof.
  unfold dists_cost. rewrite !max_R. unfold lit. unR. unfold left_of, entry.
  replace (1 / 10 * IZR (d0 d)) with (IZR (d0 d) / 10) by lra. replace (1 / 10 * IZR (d1 d)) with (IZR (d1 d) / 10) by lra.
  replace (1 / 10 * IZR (d2 d)) with (IZR (d2 d) / 10) by lra. replace (1 / 10 * IZR (d3 d)) with (IZR (d3 d) / 10) by lra. reflexivity.
Qed.
Lemma max_dec (x y : R) : Rmax x y = x \/ Rmax x y = y.
Proof. unfold Rmax. destruct (Rle_dec x y); auto. Qed.
(** The cost is the greatest of the numbers [(i+1) / remaining distance]. *)
Lemma cost_greatest d (pos : R) : (forall i, (i < 4)%nat -> INR (S i) / left_of d pos i <= @dists_cost RA d pos) /\ exists i, (i < 4)%nat /\ @dists_cost RA d pos = INR (S i) / left_of d pos i.
Proof.
  assert (INR 1 = 1 /\ INR 2 = 2 /\ INR 3 = 3 /\ INR 4 = 4) as (I1 & I2 & I3 & I4) by (cbn; lra).
  rewrite cost_R. set (a := 1 / left_of d pos 0). set (b := 2 / left_of d pos 1). set (c := 3 / left_of d pos 2). set (e := 4 / left_of d pos 3). split.
  - intros i Hi. assert (i = 0 \/ i = 1 \/ i = 2 \/ i = 3)%nat as [->|[->|[->| ->]]] by lia; rewrite ?I1, ?I2, ?I3, ?I4; [fold a|fold b|fold c|fold e]; unfold Rmax; repeat destruct (Rle_dec _ _); lra.
  - destruct (max_dec (Rmax (Rmax a b) c) e) as [-> | ->]; [|exists 3%nat; rewrite I4; split; [lia|reflexivity]].
    destruct (max_dec (Rmax a b) c) as [-> | ->]; [|exists 2%nat; rewrite I3; split; [lia|reflexivity]].
    destruct (max_dec a b) as [-> | ->]; [exists 0%nat; rewrite I1; split; [lia|reflexivity]|exists 1%nat; rewrite I2; split; [lia|reflexivity]].
Qed.
Theorem C33_cost_exact :
  forall d (pos : R), (forall i, (i < 4)%nat -> INR (S i) / (@remaining RA d pos i) <= @dists_cost RA d pos) /\
    exists i, (i < 4)%nat /\ @dists_cost RA d pos = INR (S i) / (@remaining RA d pos i).
Proof.
  intros d pos. destruct (cost_greatest d pos) as (H1 & i & Hi & H2). split; [intros j Hj; rewrite remaining_R; auto|]. exists i. rewrite remaining_R. auto.
Qed.
Print Assumptions C33_cost_exact.
(** As long as something remains of all distances: the cost is positive, a lane on which one gets further costs no more, and the cost grows
    as the vehicle moves on. *)
Theorem C33_cost_falls :
  forall a b (p q : R), (forall i, (i < 4)%nat -> 0 < @remaining RA a q i) -> no_further a b -> p <= q ->
    0 < @dists_cost RA b p <= @dists_cost RA a q.
Proof.
  intros a b p q Hr Hn Hpq.
  assert (forall i, (i < 4)%nat -> 0 < left_of a q i <= left_of b p i) as Hl.
  { intros i Hi. specialize (Hr i Hi). rewrite remaining_R in Hr. split; [exact Hr|]. specialize (Hn i Hi). apply IZR_le in Hn. unfold left_of. lra. }
  destruct (cost_greatest b p) as (_ & i & Hi & ->). destruct (cost_greatest a q) as (H1 & _). destruct (Hl i Hi) as (L0 & L1).
  assert (0 < INR (S i)) as Hs by (apply lt_0_INR; lia). split; [apply Rdiv_lt_0_compat; lra|].
  apply Rle_trans with (INR (S i) / left_of a q i); [|apply H1; exact Hi]. apply Rmult_le_compat_l; [lra|]. apply Rinv_le_contravar; lra.
Qed.
Print Assumptions C33_cost_falls.
(** Strictly, if one gets further with any number of lane changes. *)
Theorem C33_cost_strict :
  forall a b (p : R), (forall i, (i < 4)%nat -> 0 < @remaining RA a p i) -> (forall i, (i < 4)%nat -> (entry a i < entry b i)%Z) -> @dists_cost RA b p < @dists_cost RA a p.
Proof.
  intros a b p Hr Hn. destruct (cost_greatest b p) as (_ & i & Hi & ->). destruct (cost_greatest a p) as (H1 & _). specialize (Hr i Hi). rewrite remaining_R in Hr.
  assert (left_of a p i < left_of b p i) as L1 by (specialize (Hn i Hi); apply IZR_lt in Hn; unfold left_of; lra).
  assert (0 < INR (S i)) as Hs by (apply lt_0_INR; lia).
  apply Rlt_le_trans with (INR (S i) / left_of a p i); [|apply H1; exact Hi]. apply Rmult_lt_compat_l; [lra|]. apply Rinv_lt_contravar; [apply Rmult_lt_0_compat|]; lra.
Qed.
Print Assumptions C33_cost_strict.
Lemma below4 (P : nat -> Prop) : P 0%nat -> P 1%nat -> P 2%nat -> P 3%nat -> forall i, (i < 4)%nat -> P i.
Proof. intros P0 P1 P2 P3 i Hi. destruct i as [|[|[|[|i]]]]; auto. lia. Qed.
Example C33_example : u32s (Dists 100 200 300 400) /\ u32s (Dists 150 200 350 4294967295) /\ no_further (Dists 100 200 300 400) (Dists 150 200 350 4294967295) /\
  (forall i, (i < 4)%nat -> 0 < @remaining RA (Dists 100 200 300 400) 5 i).
Proof.
  unfold u32s, no_further.
  split; [apply below4; cbn; unfold u32_max; lia|]. split; [apply below4; cbn; unfold u32_max; lia|]. split; [apply below4; cbn; lia|]. apply below4; rewrite remaining_R; unfold left_of, entry; cbn [d0 d1 d2 d3]; lra.
Qed.
(** But a lane on which nothing remains is not expensive: at 15 m, a lane that ends at 10 m costs nothing, in the whole units in which costs
    are compared, one on which there are 85 m left costs 47. *)
Theorem C33_no_distance_left_refuted :
  exists a b : dists, no_further a b /\ (forall i, (i < 4)%nat -> @nltb F64 (remaining a (fz 15) i) n0 = true) /\ (forall i, (i < 4)%nat -> @nltb F64 n0 (remaining b (fz 15) i) = true) /\
    (@ncast F64 usize_max (nmul (nofZ 1000) (dists_cost a (fz 15))) < @ncast F64 usize_max (nmul (nofZ 1000) (dists_cost b (fz 15))))%Z.
Proof.
  exists (Dists 100 100 100 100), (Dists 1000 1000 1000 1000).
  unfold u32s, no_further.
  split; [apply below4; cbn; lia|]. split; [apply below4; vm_compute; reflexivity|]. split; [apply below4; vm_compute; reflexivity|]. apply Z.ltb_lt. vm_compute. reflexivity.
Qed.
Print Assumptions C33_no_distance_left_refuted.
Local Close Scope R_scope.

(** ** C58: the cheapest path is taken *)
Section Choice.
  Context {A : Arith}.
  Lemma min_by_key_first {X} (l : list (X * Z)) : forall x, exists before y after, x :: l = before ++ y :: after /\ min_by_key x l = fst y /\
    (forall z, In z before -> (snd y < snd z)%Z) /\ (forall z, In z after -> (snd y <= snd z)%Z).
  Proof.
    induction l as [|y l IH]; intros x; cbn [min_by_key]; [exists [], x, []; split; [reflexivity|]; split; [reflexivity|]; split; intros ? []|].
    destruct (Z.ltb_spec (snd y) (snd x)) as [L|L].
    - destruct (IH y) as (bf & z & af & E & Em & Hb & Ha). exists (x :: bf), z, af. rewrite E. split; [reflexivity|]. split; [exact Em|]. split; [|exact Ha].
      intros w [<-|Hw]; auto. assert (snd z <= snd y)%Z; [|lia]. destruct bf as [|y' bf]; cbn in E; injection E as E1 E2; [rewrite E1; lia|]. subst y'. specialize (Hb y (or_introl eq_refl)). lia.
    - destruct (IH x) as (bf & z & af & E & Em & Hb & Ha). destruct bf as [|x' bf]; cbn in E; injection E as E1 E2.
      + subst z l. exists [], x, (y :: af). split; [reflexivity|]. split; [exact Em|]. split; [intros ? []|]. intros w [<-|Hw]; auto.
      + subst x'. exists (x :: y :: bf), z, af. split; [cbn; rewrite E2; reflexivity|]. split; [exact Em|]. split; [|exact Ha]. pose proof (Hb x (or_introl eq_refl)). intros w [<-|[<-|Hw]]; [lia|lia|]. apply Hb. right. exact Hw.
  Qed.
  Lemma evaluate_costs links v p c : evaluate_path links v p = Ok c -> costs links v p c.
  Proof.
    unfold evaluate_path. intros H. bok H a Ha. bok H b Hb. apply of_option_ok in Ha, Hb. destruct (key_eqb_spec a b) as [<-|Ne].
    - injection H as <-. eapply costs_own; eauto.
    - bok H l Hl. bok H ps Hps. injection H as <-. unfold get_link in Hl. apply of_option_ok in Hl. eapply costs_change; eauto.
  Qed.
  Lemma mapM_split {X Y} (f : X -> res Y) l before y after : mapM f l = Ok (before ++ y :: after) ->
    exists lb x la, l = lb ++ x :: la /\ f x = Ok y /\ (forall z, In z lb -> exists w, In w before /\ f z = Ok w) /\ (forall z, In z la -> exists w, In w after /\ f z = Ok w).
  Proof.
    revert before. induction l as [|x l IH]; intros before H; cbn [mapM] in H; [destruct before; discriminate H|].
    bok H w Hw. bok H r Hr. injection H as H. destruct before as [|w' before]; cbn in H; injection H as -> ->.
    - exists [], x, l. split; [reflexivity|]. split; [exact Hw|]. split; [intros ? []|]. intros z Hz. exact (mapM_in_l _ _ _ _ Hr Hz).
    - destruct (IH _ Hr) as (lb & x0 & la & -> & E & Hb & Ha). exists (x :: lb), x0, la. split; [reflexivity|]. split; [exact E|]. split; [|exact Ha].
      intros z [<-|Hz]; [exists w'; split; [left; reflexivity|exact Hw]|]. destruct (Hb z Hz) as (u & Hu & Eu). exists u. split; [right; exact Hu|exact Eu].
  Qed.
  Lemma choose_cheapest links v o : choose_path links v = Ok o -> v_lane_change v = None -> pf_paths (v_pathfind v) <> [] ->
    exists p, cheapest links v p /\ match o with None => pt_links p = v_route v | Some q => q = p end.
  Proof.
    unfold choose_path. intros H Nc Np. rewrite Nc in H. bok H x Hx. destruct x as [|y l].
    { exfalso. destruct (pf_paths (v_pathfind v)) as [|p ps]; [contradiction|]. cbn [mapM] in Hx. bok Hx w Hw. bok Hx r Hr. discriminate Hx. }
    destruct (min_by_key_first l y) as (bf & z & af & E & Em & Hb & Ha). rewrite E in Hx. destruct (mapM_split _ _ _ _ _ Hx) as (lb & p & la & Ep & Ez & Kb & Ka).
    cbv beta in Ez. bok Ez c Hc. injection Ez as <-. cbn [fst snd] in *. exists p. split.
    - exists lb, la, c. split; [exact Ep|]. split; [apply evaluate_costs; exact Hc|].
      split; intros q Hq; [destruct (Kb q Hq) as (w & Hw & Ew)|destruct (Ka q Hq) as (w & Hw & Ew)]; cbv beta in Ew; bok Ew c' Hc'; injection Ew as <-; exists c'; (split; [apply evaluate_costs; exact Hc'|]); [exact (Hb _ Hw)|exact (Ha _ Hw)].
    - rewrite Em in H. destruct (keys_eqb (pt_links p) (v_route v)) eqn:Ek; injection H as <-; [apply keys_eqb_eq; exact Ek|reflexivity].
  Qed.
End Choice.
(** Whenever lane changes are due (see C24), every vehicle that is not changing lanes and has candidate paths is put on the cheapest of them,
    the first if there are several. *)
Theorem C58_cheapest :
  forall (A : Arith) ops e s s1 k v v1, history sim_new ops s -> due (lit 3 10) ops = true -> calculate_lane_changes e s = Ok s1 ->
    vehicle_at s k = Some v -> v_lane_change v = None -> pf_paths (v_pathfind v) <> [] -> vehicle_at s1 k = Some v1 ->
    exists p, cheapest (s_links s) v p /\ v_route v1 = pt_links p /\ (v_route v1 <> v_route v -> v_can_exit v1 = pt_exit p).
Proof.
  intros A ops e s s1 k v v1 Hh D H G Nc Np G1. pose proof (history_Inv _ _ _ Hh Inv_new) as I. pose proof (history_timers _ _ Hh) as (_ & T). pose proof (due_true _ _ _ T D) as D'.
  destruct (lane_changes_exact _ _ _ _ _ (i_st _ I) H G1) as (v0 & G0 & C). unfold vehicle_at in *. assert (v0 = v) by congruence. subst v0.
  destruct C as [(C & _)|(_ & C)]; [unfold LANE_CHANGE_UPDATE_SEC in C; congruence|].
  destruct C as [C|p C Hd|p b links' pos lc v2 C Hd Nl Hs]; destruct (choose_cheapest _ _ _ C Nc Np) as (q & Hq & Em); exists q; (split; [exact Hq|]).
  - split; [congruence|]. intros N. contradiction.
  - subst q. auto.
  - subst q. auto.
Qed.
Print Assumptions C58_cheapest.
(** A vehicle that is changing lanes keeps its route, as does one without candidate paths; and nobody's route changes when no lane changes are due. *)
Theorem C58_otherwise :
  forall (A : Arith) ops e s s1 k v v1, history sim_new ops s -> calculate_lane_changes e s = Ok s1 ->
    vehicle_at s k = Some v -> vehicle_at s1 k = Some v1 -> v_lane_change v <> None \/ pf_paths (v_pathfind v) = [] \/ due (lit 3 10) ops = false -> v1 = v.
Proof.
  intros A ops e s s1 k v v1 Hh H G G1 D. pose proof (history_Inv _ _ _ Hh Inv_new) as I. pose proof (history_timers _ _ Hh) as (_ & T).
  destruct (lane_changes_exact _ _ _ _ _ (i_st _ I) H G1) as (v0 & G0 & C). unfold vehicle_at in *. assert (v0 = v) by congruence. subst v0. destruct C as [(_ & ->)|(N & C)]; [reflexivity|].
  destruct D as [D|[D|D]]; [| |pose proof (due_false _ _ _ T D) as E; unfold LANE_CHANGE_UPDATE_SEC in N; congruence].
  - destruct C as [C|p C Hd|p b links' pos lc v2 C Hd Nl Hs]; [reflexivity| |]; apply choose_path_in in C; destruct C as (_ & C); contradiction.
  - destruct C as [C|p C Hd|p b links' pos lc v2 C Hd Nl Hs]; [reflexivity| |]; apply choose_path_in in C; destruct C as (C & _); rewrite D in C; destruct C.
Qed.
Print Assumptions C58_otherwise.
(** In the example of the routes, the car on the second lane has two candidates, and the one that starts on the first lane is cheaper. *)
Lemma ex_choice_ok : okb (run ex_env sim_new ex_before) (fun s0 => okb (run ex_env s0 (OSetDestination car1 exit1 :: ex_steps 1)) (fun s =>
  veh_b s car1 (fun v => match v_lane_change v with None => true | _ => false end && Nat.leb 2 (length (pf_paths (v_pathfind v))) && keys_eqb (v_route v) [lane2]) &&
  okb (calculate_lane_changes ex_env s) (fun s1 => route_is s1 car1 [lane1; exit1]))) = true.
Proof. vm_compute. reflexivity. Qed.
Lemma ex_choice_due : due (@lit F64 3 10) (ex_before ++ OSetDestination car1 exit1 :: ex_steps 1) = true.
Proof. vm_compute. reflexivity. Qed.
Example C58_example : exists s s1 v v1, history (@sim_new F64) (ex_before ++ OSetDestination car1 exit1 :: ex_steps 1) s /\ due (lit 3 10) (ex_before ++ OSetDestination car1 exit1 :: ex_steps 1) = true /\
  calculate_lane_changes ex_env s = Ok s1 /\ vehicle_at s car1 = Some v /\ v_lane_change v = None /\ 2 <= length (pf_paths (v_pathfind v)) /\ v_route v = [lane2] /\ vehicle_at s1 car1 = Some v1 /\ v_route v1 = [lane1; exit1].
Proof.
  destruct (okb_ok _ _ ex_choice_ok) as (s0 & H0 & H). destruct (okb_ok _ _ H) as (s & H1 & Hb). bsplit Hb. destruct (okb_ok _ _ B) as (s1 & H2 & Hc). apply veh_b_ok in Hb. destruct Hb as (v & G & Hv). bsplit Hv.
  destruct (route_is_ok _ _ _ Hc) as (v1 & G1 & R1). exists s, s1, v, v1. split; [eapply history_app; [eapply run_history; exact H0|eapply run_history; exact H1]|]. split; [exact ex_choice_due|]. split; [exact H2|]. split; [exact G|].
  split; [destruct (v_lane_change v); [discriminate Hv|reflexivity]|]. split; [apply Nat.leb_le; assumption|]. split; [apply keys_eqb_eq; assumption|auto].
Qed.
