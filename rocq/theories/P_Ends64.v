(** * A step ends in binary64 (C50, C65) *)
From Coq Require Import List Bool ZArith NArith Arith Lia Reals Lra.
From Flocq Require Import Core IEEE754.BinarySingleNaN.
From Verif Require Import Arith F64 RealArith Ord FloatLaws FBound Base BaseProofs SlotMap SlotMapProofs Util Geom Light Accel Net Path Vehicle LinkOps Sim SpecSim SpecMotion Safe NetInv SimInv AccSafe SimSafe StepSafe OpSafe Evo StepEvo SimProofs NetEvo Motion SpecConf ConfProofs P_Conf RouteProofs RouteEvo P_Route EndsProofs FEnds ProgProofs P_Prog SpecModerate.
Import ListNotations.
Local Open Scope R_scope.

Lemma centi_in : is_finite (@lit F64 1 100) = true /\ /128 <= B2R (@lit F64 1 100 : f64).
Proof.
  assert (is_finite (@lit F64 1 100) = true) as F by reflexivity. split; [exact F|].
  assert (B2SF (@lit F64 1 100) = SpecFloat.S754_finite false 5764607523034235 (-59)) as E by (vm_compute; reflexivity). rewrite <- SF2R_B2SF, E. simpl. unfold F2R. simpl. lra.
Qed.
Lemma tenth_in : is_finite (@lit F64 1 10) = true /\ /16 <= B2R (@lit F64 1 10 : f64).
Proof.
  assert (is_finite (@lit F64 1 10) = true) as F by reflexivity. split; [exact F|].
  assert (B2SF (@lit F64 1 10) = SpecFloat.S754_finite false 7205759403792794 (-56)) as E by (vm_compute; reflexivity). rewrite <- SF2R_B2SF, E. simpl. unfold F2R. simpl. lra.
Qed.
Lemma quarter_in : inr (@lit F64 1 4 : f64) (/4) (/4).
Proof.
  assert (is_finite (@lit F64 1 4) = true) as F by reflexivity. split; [exact F|].
  assert (B2SF (@lit F64 1 4) = SpecFloat.S754_finite false 4503599627370496 (-54)) as E by (vm_compute; reflexivity). rewrite <- SF2R_B2SF, E. simpl. unfold F2R. simpl. lra.
Qed.
Lemma int_in z : (Z.abs z <= 2 ^ 53)%Z -> inr (@nofZ F64 z : f64) (IZR z) (IZR z).
Proof.
  intros H. destruct (rep_Z z H) as (R1 & R2). change (@nofZ F64 z) with (f_of_Z z). unfold f_of_Z. pose proof (binary_normalize_correct prec emax Hp Hm mode_NE z 0 false) as C.
  assert (F2R (Float radix2 z 0) = IZR z) as E by (unfold F2R; simpl; ring). rewrite E in C. cbv zeta in C. change (round radix2 (SpecFloat.fexp prec emax) (round_mode mode_NE) (IZR z)) with (rnd (IZR z)) in C. rewrite R1 in C. change (bpow radix2 emax) with big in C. rewrite Rlt_bool_true in C by (apply Rabs_def1; lra). destruct C as (C1 & C2 & _).
  split; [exact C2|]. rewrite C1. lra.
Qed.
Ltac fz z := let F := fresh "F" in let B := fresh "B" in destruct (int_in z) as (F & B); [vm_compute; discriminate|].

(** ** Conflict zones *)
Lemma quarters_in (c : @link_curve F64) i : (exists hi, is_finite (lc_length c) = true /\ B2R (lc_length c : f64) <= hi /\ hi <= 1048576) -> on_link c i -> inr (@quarters F64 i) 0 1048576 .
Proof.
  intros (hi & Fl & B1 & B2). induction i as [|i IH]; intros On.
  - destruct zero_in as (F0 & B0). split; [exact F0|]. change (B2R (@quarters F64 0 : f64)) with (B2R (@n0 F64 : f64)). lra.
  - destruct IH as (F & B); [intros j Hj; apply On; lia|]. destruct quarter_in as (Fq & Bq). destruct (plus_in (@quarters F64 i) (@lit F64 1 4) 0 1048577 F Fq) as ((F1 & C1) & _); [lra|repz|repz|].
    change (@nadd F64 (@quarters F64 i) (@lit F64 1 4)) with (@quarters F64 (S i)) in F1, C1. specialize (On (S i) (le_n _)). rewrite (ltb_in _ _ F1 Fl) in On. destruct (Rlt_bool_spec (B2R (@quarters F64 (S i) : f64)) (B2R (lc_length c : f64))) as [L|]; [|discriminate On].
    split; [exact F1|lra].
Qed.
Lemma zone_in (c1 c2 : @link_curve F64) lo hi : len_ok (lc_length c1) -> zone c1 c2 lo hi -> inr lo (-1) 1048577 /\ inr hi (-1) 1048577.
Proof.
  intros (Fl & Bl) (p & q & _ & (Op & _) & (Oq & _) & _ & -> & ->).
  assert (exists hi, is_finite (lc_length c1) = true /\ B2R (lc_length c1 : f64) <= hi /\ hi <= 1048576) as Hl by (exists 1048576; split; [exact Fl|lra]).
  destruct (quarters_in c1 p Hl Op) as (Fp & Bp). destruct (quarters_in c1 q Hl Oq) as (Fq & Bq). destruct quarter_in as (F4 & B4).
  split; [destruct (minus_in (@quarters F64 p) (@lit F64 1 4) (-1) 1048577 Fp F4) as (K & _)|destruct (plus_in (@quarters F64 q) (@lit F64 1 4) (-1) 1048577 Fq F4) as (K & _)]; try exact K; try repz; lra.
Qed.
Lemma conflicts_in (s : @sim F64) : CI s -> (forall k l, sm_get (s_links s) k = Some l -> len_ok (lk_length l)) -> forall cp, In cp (s_conflicts s) ->
  (inr (cpl_min (cp_a cp)) (-1) 1048577 /\ inr (cpl_max (cp_a cp)) (-1) 1048577) /\ inr (cpl_min (cp_b cp)) (-1) 1048577 /\ inr (cpl_max (cp_b cp)) (-1) 1048577.
Proof.
  intros (_ & C) Hl cp Hin. rewrite List.Forall_forall in C. destruct (C _ Hin) as (_ & fuel & la & lb & Ga & Gb & H). unfold cpoint_new in H. bok H ca Ha. destruct ca as [ca|]; [|discriminate H]. bok H cb Hb. destruct cb as [cb|]; [|discriminate H]. apply (f_equal (fun r => match r with Ok (Some x) => x | _ => cp end)) in H. cbv beta iota in H. subst cp. cbn [cp_a cp_b] in Ga, Gb, Ha, Hb |- *.
  apply cpl_new_zone in Ha, Hb. destruct Ha as (_ & Za), Hb as (_ & Zb). split; [exact (zone_in _ _ _ _ (Hl _ _ Ga) Za)|exact (zone_in _ _ _ _ (Hl _ _ Gb) Zb)].
Qed.
Lemma entries_in (s : @sim F64) : CI s -> (forall k l, sm_get (s_links s) k = Some l -> len_ok (lk_length l)) -> forall k l c, sm_get (s_links s) k = Some l -> In c (lk_conflicts l) ->
  inr (cf_own_max c) (-1) 1048577 /\ inr (cf_min c) (-1) 1048577.
Proof.
  intros C Hl k l c G Hin. pose proof C as (C1 & _). rewrite (C1 _ _ G) in Hin. apply in_flat_map in Hin. destruct Hin as (cp & Hcp & Hin). destruct (conflicts_in s C Hl cp Hcp) as ((A1 & A2) & B1 & B2).
  unfold entries_of in Hin. apply in_map_iff in Hin. destruct Hin as (x & <- & Hin). apply filter_In in Hin. destruct Hin as (Hin & _). unfold link_conflicts in Hin. destruct Hin as [<-|[<-|[]]]; cbn [snd cf_own_max cf_min]; auto.
Qed.

(** ** Moderate numbers *)
Lemma from_to_in lo x hi a b : is_finite lo = true -> is_finite hi = true -> a <= B2R (lo : f64) -> B2R (hi : f64) <= b -> from_to lo x hi -> inr x a b.
Proof. intros Fl Fh La Hb (H1 & H2). destruct (between lo x hi Fl Fh H1 H2) as (F & B). split; [exact F|lra]. Qed.
Lemma roads_in s : moderate_roads s -> forall k l, link_at s k = Some l -> len_ok (lk_length l) /\ lim_ok (lk_limit l).
Proof.
  intros H k l G. destruct (H k l G) as (H1 & H2). destruct centi_in as (Fc & Bc). destruct tenth_in as (Ft & Bt). fz 1000000%Z. fz 250%Z.
  split; [eapply (from_to_in _ _ _ _ _ Fc F); [exact Bc| |exact H1]; lra|eapply (from_to_in _ _ _ _ _ Ft F0); [exact Bt| |exact H2]; lra].
Qed.
Lemma vehicles_in s : moderate_vehicles s -> forall k v, vehicle_at s k = Some v -> veh_ok v.
Proof.
  intros H k v G. destruct (H k v G) as (H1 & H2 & H3). destruct centi_in as (Fc & Bc). fz 100%Z. fz 0%Z. fz 1000%Z. fz 2000000%Z.
  split; [eapply (from_to_in _ _ _ _ _ Fc F); [exact Bc| |exact H1]; lra|]. split; [eapply (from_to_in _ _ _ _ _ F0 F1); [| |exact H2]; lra|eapply (from_to_in _ _ _ _ _ F0 F2); [| |exact H3]; lra].
Qed.
(** Without lanes beside each other, the choice of paths moves nothing. *)
Lemma choice_moderate e (s s1 : @sim F64) : reachable s -> no_lanes_beside s -> calculate_lane_changes e s = Ok s1 -> moderate_vehicles s -> moderate_vehicles s1.
Proof.
  intros R N H M k v' G'. destruct (lane_changes_evo _ _ _ (i_st _ (reachable_Inv _ R)) H k v' G') as (v & G & B & [S|(a & b & _ & _ & (l & Gl & Hin) & _)] & _).
  - destruct S as (_ & Ep & _). apply body_spec in B. destruct B as (_ & Ea & Ev & _). unfold max_acc. rewrite Ea, Ev, Ep. exact (M k v G).
  - exfalso. destruct (N a l Gl) as (_ & E). rewrite E in Hin. destruct Hin.
Qed.

(** In binary64: in every state that can be reached, with numbers of a moderate size and without lanes beside each other, the acceleration update
    of a step ends. *)
Theorem C50_update_ends_binary64 :
  forall (s s1 : @sim F64) e0, reachable s -> moderate_roads s -> moderate_vehicles s -> no_lanes_beside s -> calculate_lane_changes e0 s = Ok s1 ->
    exists n r, r <> OutOfFuel /\ forall e, (n <= e_fuel e)%nat -> sim_apply_accelerations e s1 = r.
Proof.
  intros s s1 e0 R MR MV NB H1. pose proof (choice_moderate _ _ _ R NB H1 MV) as MV1. destruct (reachable_Inv _ R) as [St0 F0 LW LI CP FR].
  destruct (safe_ok (fun _ => True) _ _ _ (calculate_lane_changes_safe (fun _ => True) e0 s St0 F0 (fun _ _ => Logic.I)) H1) as (St1 & F1 & S0 & _).
  destruct (lc_fields _ _ _ H1) as (_ & _ & _ & _ & _ & E3 & _). pose proof (CI_lane_changes _ _ (reachable_CI _ R) S0 E3) as C1.
  unfold sim_apply_accelerations. destruct (nltb _ _); [exists 0%nat, (Ok s1); split; [discriminate|reflexivity]|].
  assert (fin (activate_all (with_acc_update s1 n0))) as F by apply fin_activate_all.
  destruct (activate_all (with_acc_update s1 n0)) as [(links & vs)|p|] eqn:E; [|exists 0%nat, (Panic p); split; [discriminate|reflexivity]|contradiction]. cbn [bind].
  destruct (safe_ok (fun _ => True) _ _ _ (activate_all_safe (fun _ => True) (with_acc_update s1 n0) (fun k v Hk => vb_chain _ _ _ _ (st_veh _ _ _ St1 k v Hk))) E) as (S1 & _ & _ & _ & V1). cbn [fst snd with_acc_update s_links s_vehicles] in S1, V1.
  assert (forall k l, sm_get links k = Some l -> exists l1 l0, sm_get (s_links s1) k = Some l1 /\ link_at s k = Some l0 /\ lk_static l = lk_static l1 /\ lk_static l = lk_static l0) as Same.
  { intros k l G. destruct (same_net_get _ _ _ _ S1 G) as (l1 & G1 & Es). destruct (same_net_get _ _ _ _ S0 G1) as (l0 & G0 & Es0). exists l1, l0. split; [exact G1|]. split; [exact G0|]. split; congruence. }
  assert (forall k l, sm_get (s_links s1) k = Some l -> len_ok (lk_length l)) as L1.
  { intros k l G. destruct (same_net_get _ _ _ _ S0 G) as (l0 & G0 & Es). unfold lk_static in Es. injection Es as E1 E2 E4 E5 E6 E7 E8 E9 E10. destruct (roads_in s MR k l0 G0) as (K & _). unfold lk_length in *. congruence. }
  destruct (settles_update64 links vs) with (cps := s_conflicts s1) as (n & r & Hr & Hn).
  - intros k l G. destruct (Same k l G) as (l1 & l0 & G1 & G0 & E1 & E2). unfold lk_static in E2. injection E2 as X1 X2 X3 X4 X5 X6 X7 X8 X9. destruct (roads_in s MR k l0 G0) as (K & K2). unfold lk_length in *. split; congruence.
  - intros k v G. destruct (V1 k v G) as (v1 & G1 & ->). exact (vehicles_in s1 MV1 k v1 G1).
  - intros k l c G Hin. destruct (Same k l G) as (l1 & l0 & G1 & G0 & E1 & E2). unfold lk_static in E1. injection E1 as X1 X2 X3 X4 X5 X6 X7 X8 X9. apply (entries_in s1 C1 L1 k l1 c G1). congruence.
  - intros k l G. destruct (Same k l G) as (l1 & l0 & G1 & G0 & E1 & E2). unfold lk_static in E2. injection E2 as X1 X2 X3 X4 X5 X6 X7 X8 X9. destruct (NB k l0 G0) as (K & _). congruence.
  - intros c Hc. destruct (conflicts_in s1 C1 L1 c Hc) as (((A1 & A2) & _) & (B1 & B2) & _). split; (split; [assumption|lra]).
  - exists n. cbn [with_acc_update s_conflicts].
    exists (bind r (fun log => let '(links', vs') := apply_log (links, vs) log in let '(vs'', frozen) := apply_frozen vs' (s_frozen s1) in Ok (with_frozen (with_vehicles (with_links (with_acc_update s1 n0) links') vs'') frozen))).
    split.
    + destruct r as [log|p|]; [|discriminate|contradiction]. cbn [bind]. destruct (apply_log (links, vs) log) as (l' & v'). destruct (apply_frozen v' (s_frozen s1)). discriminate.
    + intros e Le. rewrite <- (Hn _ Le). destruct (sim_stoplines (e_fuel e) links vs []) as [log|p|]; reflexivity.
Qed.
Print Assumptions C50_update_ends_binary64.

(** And so does the step. *)
Theorem C65_step_ends_binary64 :
  forall (s : @sim F64) dt pick, reachable s -> moderate_roads s -> moderate_vehicles s -> no_lanes_beside s ->
    exists n r, r <> OutOfFuel /\ forall fuel, (n <= fuel)%nat -> step (Env fuel pick) s dt = r.
Proof.
  intros s dt pick Rc MR MV NB. pose proof (reachable_Inv _ Rc) as Iv. destruct (reachable_history _ Rc) as (ops & Hist).
  assert (forall links, same_net (s_links s) links -> costs_pos links) as C.
  { intros links Sn k l G. exact (costs_ok ops s Hist F64_cast links Sn k l G). }
  assert (settles (fun n => pre_advance (Env n pick) s dt)) as S1.
  { unfold pre_advance. apply (settles_bind' (fun n => calculate_lane_changes (Env n pick) s) (fun n s1 => bind (sim_apply_accelerations (Env n pick) s1) (fun s => bind (update_lights s dt) (fun s => sim_integrate s dt)))).
    - apply settles_lane_changes. apply C. apply same_net_refl.
    - intros n s1 H1. apply (settles_bind (fun n => sim_apply_accelerations (Env n pick) s1)).
      + destruct (C50_update_ends_binary64 s s1 (Env n pick) Rc MR MV NB H1) as (m & r & Hr & Hm). exists m, r. split; [exact Hr|]. intros fuel L. apply Hm. exact L.
      + intros s2. apply settles_fin. apply fin_bind; [apply fin_update_lights|]. intros s3. apply fin_integrate. }
  assert (forall n, step (Env n pick) s dt = bind (pre_advance (Env n pick) s dt) (fun s4 => bind (advance_vehicles (Env n pick) s4) (fun s5 => bind (update_vehicle_coords s5) (fun s => Ok (Sim (s_links s) (s_lights s) (s_conflicts s) (s_vehicles s) (s_frozen s) (S (s_frame s)) (s_seq s) (nadd (s_acc_update s) dt) (nadd (s_lc_update s) dt)))))) as E.
  { intros n. unfold step, pre_advance. destruct (calculate_lane_changes (Env n pick) s) as [s1| |]; [|reflexivity|reflexivity]. cbn [bind]. destruct (sim_apply_accelerations (Env n pick) s1) as [s2| |]; [|reflexivity|reflexivity]. cbn [bind].
    destruct (update_lights s2 dt) as [s3| |]; [|reflexivity|reflexivity]. reflexivity. }
  assert (settles (fun n => step (Env n pick) s dt)) as S2; [|exact S2].
  apply (settles_late _ _ 0 (fun fuel _ => E fuel)). apply (settles_bind' (fun n => pre_advance (Env n pick) s dt)); [exact S1|].
  intros n s4 H4. apply (settles_bind (fun n => advance_vehicles (Env n pick) s4)); [apply settles_advance; apply C; exact (pre_net _ _ _ _ Iv H4)|].
  intros s5. apply settles_fin. apply fin_bind; [apply fin_coords|discriminate].
Qed.
Print Assumptions C65_step_ends_binary64.
