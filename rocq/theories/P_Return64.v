(** * A step returns in binary64 (C65) *)
From Coq Require Import List Bool ZArith NArith Arith Lia Reals Lra.
From Flocq Require Import Core IEEE754.BinarySingleNaN.
From Verif Require Import Arith F64 RealArith Ord FloatLaws FBound Base BaseProofs SlotMap SlotMapProofs Util Geom Light Accel Net Path Vehicle LinkOps Sim SpecSim SpecMotion SpecProg Safe NetInv SimInv AccSafe SimSafe StepSafe OpSafe Evo StepEvo SimProofs NetEvo Motion SpecConf ConfProofs P_Conf StepProofs RouteProofs RouteEvo P_Route EndsProofs FEnds ProgProofs P_Prog SpecModerate P_Ends64 SimExample P_Motion P_Stall.
Import ListNotations.
Local Open Scope R_scope.

Section Found.
  Variables (links : @linkset F64) (vs : @vehset F64).
  Hypothesis HL : forall k l, sm_get links k = Some l -> len_ok (lk_length l) /\ lim_ok (lk_limit l).
  Hypothesis HV : forall k v, sm_get vs k = Some v -> veh_ok v /\ inr (v_half_len v) 0 128.
  Definition fair (r : @relveh F64) : Prop := veh_ok (rv_veh r) /\ inr (v_half_len (rv_veh r)) 0 128 /\ place_ok (rv_pos r).
  Lemma fair_front r : fair r -> nnan (rv_front r) = false.
  Proof.
    intros ((_ & _ & (Fp & Bp)) & (Fh & Bh) & (Fr & Br)). unfold rv_front, pos_front. destruct (plus_in _ _ (-1048576) 4194304 Fp Fh) as ((F1 & B1) & _); [lra|repz|repz|].
    destruct (minus_in _ _ (-4194304) 8388608 F1 Fr) as ((F2 & _) & _); [lra|repz|repz|]. change (is_nan (@nsub F64 (@nadd F64 (v_pos (rv_veh r)) (v_half_len (rv_veh r))) (rv_pos r)) = false).
    change (is_finite (@nsub F64 (@nadd F64 (v_pos (rv_veh r)) (v_half_len (rv_veh r))) (rv_pos r)) = true) in F2. destruct (@nsub F64 _ _); [reflexivity|reflexivity|discriminate F2|reflexivity].
  Qed.
  Section Scan.
    Context {S_ : Type}.
    Variable func : S_ -> @relveh F64 -> res (S_ * bool).
    Variable J : S_ -> Prop.
    Hypothesis Hf : forall s r s' b, fair r -> J s -> func s r = Ok (s', b) -> J s'.
    Lemma scan_fair len route pos mp ids : place_ok pos -> forall s s' en, J s -> @scan F64 S_ func vs len route pos mp ids s = Ok (s', en) -> J s'.
    Proof.
      intros Hpos. induction ids as [|id ids IH]; intros s s' en Js H; cbn [scan] in H; [injection H as <- <-; exact Js|]. bok H v Gv. unfold get_vehicle in Gv. apply of_option_ok in Gv.
      destruct (nltb _ _); [injection H as <- <-; exact Js|]. destruct (get_route v (fst route)) as [(l & st)|]; [|exact (IH _ _ _ Js H)]. destruct (negb _); [exact (IH _ _ _ Js H)|].
      assert (forall s' en, bind (func s (RV id v (fst route) pos)) (fun sb => if snd sb then scan func vs len route pos mp ids (fst sb) else Ok (fst sb, Stop)) = Ok (s', en) -> J s') as K.
      { intros t en' H0. bok H0 sb Hsb. destruct sb as (u & b). destruct (HV _ _ Gv) as (V1 & V2). assert (J u) as Ju by (eapply (Hf s (RV id v (fst route) pos)); [split; [exact V1|split; [exact V2|exact Hpos]]|exact Js|exact Hsb]).
        cbn [fst snd] in H0. destruct b; [exact (IH _ _ _ Ju H0)|injection H0 as <- <-; exact Ju]. }
      destruct st; try exact (K _ _ H); (destruct (nltb _ _); [injection H as <- <-; exact Js|exact (K _ _ H)]).
    Qed.
    Lemma process_fair fuel : forall (l : @link F64) route (pos : f64) skip s s', lim_ok (lk_limit l) -> place_ok pos -> J s -> @process_vehicles F64 S_ func fuel links vs l route pos skip s = Ok s' -> J s'.
    Proof.
      induction fuel as [|fuel IH]; intros l route pos skip s s' Hl Hpos Js H; [discriminate H|]. cbn [process_vehicles] in H. destruct (negb (lk_active l)); [injection H as <-; exact Js|].
      bok H se Hs. destruct se as (s1 & en). pose proof (scan_fair _ _ _ _ _ Hpos _ _ _ Js Hs) as J1. cbn [fst snd] in H. destruct en; [injection H as <-; exact J1|].
      pose proof (far_in pos (lk_limit l) Hpos Hl) as Far. destruct (nleb _ _); [injection H as <-; exact J1|].
      eapply (foldM_inv J); [|exact H|exact J1]. intros a id b _ Ja H0. bok H0 l' G. unfold get_link in G. apply of_option_ok in G. destruct (HL _ _ G) as (L1 & L2). pose proof L1 as (Fl & Bl). destruct Hpos as (F & B).
      destruct (plus_in pos (lk_length l') (-2) 1049856 F Fl) as ((F1 & B2) & _); [lra|repz|repz|]. eapply IH; [exact L2| |exact Ja|exact H0]. split; [exact F1|]. clear - B2 B Bl Far. unfold place_ok, inr in *. cbn in *. lra.
    Qed.
  End Scan.
  Lemma find_fair fuel (c : @cpoint_link F64) buf buf' : place_ok (cpl_min c) -> (forall r, In r buf -> fair r) -> find_vehicles fuel links vs c buf = Ok buf' -> forall r, In r buf' -> fair r.
  Proof.
    intros Hc Hb H. unfold find_vehicles in H. bok H l G. unfold get_link in G. apply of_option_ok in G. destruct (HL _ _ G) as (_ & L2).
    refine (process_fair _ (fun b => forall r, In r b -> fair r) _ _ _ _ _ _ _ _ L2 Hc Hb H). intros s r s' b Fr Js E. cbv beta in E. injection E as E1 _. rewrite <- E1. match goal with |- context [if ?b then _ else _] => destruct b end; [|exact Js].
    intros q Hq. apply in_app_or in Hq. destruct Hq as [Hq|[<-|[]]]; [exact (Js _ Hq)|exact Fr].
  Qed.
End Found.

Definition not_nan (p : panic) : Prop := p <> PNanCompare.

Lemma lengths_in s : moderate_lengths s -> forall k v, vehicle_at s k = Some v -> inr (v_half_len v) 0 128.
Proof. intros H k v G. specialize (H k v G). fz 0%Z. fz 100%Z. eapply (from_to_in _ _ _ _ _ F F0); [| |exact H]; lra. Qed.
Lemma choice_lengths e (s s1 : @sim F64) : reachable s -> calculate_lane_changes e s = Ok s1 -> moderate_lengths s -> moderate_lengths s1.
Proof.
  intros R H M k v' G'. destruct (lane_changes_evo _ _ _ (i_st _ (reachable_Inv _ R)) H k v' G') as (v & G & B & _). unfold body in B. injection B as E1 E2 E3 E4 E5 E6 E7 E8 E9 E10. rewrite E3. exact (M k v G).
Qed.

(** The choice of paths never compares something with what is not a number when no lanes lie beside each other. *)
Lemma choice_not_nan e (s : @sim F64) : reachable s -> no_lanes_beside s -> calculate_lane_changes e s <> Panic PNanCompare.
Proof.
  intros R NB H. destruct (reachable_Inv _ R) as [St0 F0 LW LI CP FR]. unfold calculate_lane_changes in H. destruct (nltb _ _); [discriminate H|]. cbn [with_lc_update s_links s_vehicles] in H.
  pose proof (choose_all_safe not_nan (s_links s) (s_vehicles s) (s_seq s) St0 F0 (fun q Hq _ => Hq)) as S0.
  destruct (sm_mapS (choose_one (s_links s)) (s_vehicles s) []) as [(acc & vs)|p|] eqn:E; cbn [bind] in H; [|injection H as ->; exact (S0 eq_refl)|discriminate H].
  destruct S0 as (_ & _ & _ & Ch). cbn [fst snd] in *. destruct acc as [|vp acc]; [discriminate H|]. apply List.Forall_inv in Ch. destruct Ch as (_ & first & _ & cur & l & G & Hin). destruct (NB cur l G) as (_ & E0). rewrite E0 in Hin. destruct Hin.
Qed.

Lemma update_not_nan e0 e (s s1 : @sim F64) : reachable s -> moderate_roads s -> moderate_vehicles s -> moderate_lengths s -> no_lanes_beside s -> calculate_lane_changes e0 s = Ok s1 ->
  sim_apply_accelerations e s1 <> Panic PNanCompare.
Proof.
  intros R MR MV ML NB H1 H. pose proof (choice_moderate _ _ _ R NB H1 MV) as MV1. pose proof (choice_lengths _ _ _ R H1 ML) as ML1. destruct (reachable_Inv _ R) as [St0 F0 LW LI CP FR].
  destruct (safe_ok (fun _ => True) _ _ _ (calculate_lane_changes_safe (fun _ => True) e0 s St0 F0 (fun _ _ => Logic.I)) H1) as (St1 & F1 & S0 & Sh0 & A1 & A2 & _).
  pose proof (CI_lane_changes _ _ (reachable_CI _ R) S0 A2) as C1. pose proof St1 as [N W V O].
  unfold sim_apply_accelerations in H. destruct (nltb _ _); [discriminate H|].
  pose proof (activate_all_safe not_nan (with_acc_update s1 n0) (fun k v Hk => vb_chain _ _ _ _ (V k v Hk))) as SA.
  destruct (activate_all (with_acc_update s1 n0)) as [(links & vs)|p|] eqn:E; cbn [bind] in H; [|injection H as ->; exact (SA eq_refl)|discriminate H].
  destruct SA as (S1 & L & Sh & V1 & V2). cbn [fst snd with_acc_update s_links s_vehicles s_conflicts] in *.
  assert (net_ok links) as N1 by (eapply same_net_ok; eauto).
  assert (Occ links (at_of vs)) as O1.
  { eapply Occ_same; [exact L|]. eapply Occ_ext; [|exact O]. intros k. unfold at_of. destruct (sm_get vs k) as [v'|] eqn:G.
    - destruct (V2 _ _ G) as (v & Hv & ->). rewrite Hv. auto.
    - destruct (sm_get (s_vehicles s1) k) as [v|] eqn:G2; auto. destruct (V1 _ _ G2) as (v' & Hv' & _). congruence. }
  assert (listed links vs) as Hl by (apply Occ_listed; auto).
  assert (forall k v, sm_get vs k = Some v -> chain links (v_route v)) as Hc.
  { intros k v' Hk. destruct (V2 _ _ Hk) as (v & Hv & ->). simpl. eapply chain_mono; [apply same_net_le; eauto|]. apply (V _ _ Hv). }
  pose proof (sim_stoplines_safe not_nan links vs N1 Hl Hc (e_fuel e) [] (Forall_nil _)) as SS.
  destruct (sim_stoplines (e_fuel e) links vs []) as [log1|p|] eqn:E1; cbn [bind] in H; [|injection H as ->; exact (SS eq_refl)|discriminate H].
  assert (forall k l, sm_get (s_links s1) k = Some l -> len_ok (lk_length l) /\ lim_ok (lk_limit l)) as L1.
  { intros k l G. destruct (same_net_get _ _ _ _ S0 G) as (l0 & G0 & Es). unfold lk_static in Es. injection Es as X1 X2 X3 X4 X5 X6 X7 X8 X9. destruct (roads_in s MR k l0 G0) as (K & K2). unfold lk_length in *. split; congruence. }
  assert (safe not_nan (sim_link_accelerations (e_fuel e) links vs (s_conflicts s1) log1) (fun _ => True)) as SL.
  { eapply safe_weaken; [apply (sim_link_accelerations_safe not_nan links vs N1 Hl (fun q Hq _ => Hq) (e_fuel e) (s_conflicts s1) log1)|auto].
    - rewrite A2. eapply Forall_impl; [|exact CP]. simpl. intros c (Ha & Hb). split; apply (same_net_valid _ _ _ (same_net_trans _ _ _ S0 S1)); auto.
    - exact SS.
    - intros c Hin (b1 & b2 & r & B1 & B2 & Hr & Nr). exfalso. destruct (conflicts_in s1 C1 (fun k l G => proj1 (L1 k l G)) c Hin) as (((P1 & P2) & _) & (Q1 & Q2) & _).
      assert (forall k l, sm_get links k = Some l -> len_ok (lk_length l) /\ lim_ok (lk_limit l)) as HL.
      { intros k l G. destruct (same_net_get _ _ _ _ S1 G) as (l0 & G0 & Es). unfold lk_static in Es. injection Es as X1 X2 X3 X4 X5 X6 X7 X8 X9. destruct (L1 k l0 G0) as (K & K2). unfold lk_length in *. split; congruence. }
      assert (forall k v, sm_get vs k = Some v -> veh_ok v /\ inr (v_half_len v) 0 128) as HV.
      { intros k v G. destruct (V2 k v G) as (v1 & G1 & ->). split; [exact (vehicles_in s1 MV1 k v1 G1)|exact (lengths_in s1 ML1 k v1 G1)]. }
      assert (forall r, In r b1 -> fair r) as Hb1. { apply (find_fair links vs HL HV (e_fuel e) (cp_a c) [] b1); [|intros q Hq; destruct Hq|exact B1]. split; [exact P1|lra]. }
      assert (forall r, In r b2 -> fair r) as Hb2. { eapply (find_fair links vs HL HV); [|exact Hb1|exact B2]. split; [exact Q1|lra]. }
      rewrite (fair_front r (Hb2 r Hr)) in Nr. discriminate Nr. }
  destruct (sim_link_accelerations (e_fuel e) links vs (s_conflicts s1) log1) as [log|p|]; cbn [bind] in H; [|injection H as ->; exact (SL eq_refl)|discriminate H].
  destruct (apply_log (links, vs) log) as (links' & vs'). destruct (apply_frozen vs' (s_frozen s1)). discriminate H.
Qed.

Lemma step_not_nan e (s : @sim F64) dt : reachable s -> moderate_roads s -> moderate_vehicles s -> moderate_lengths s -> no_lanes_beside s -> step e s dt <> Panic PNanCompare.
Proof.
  intros R MR MV ML NB H. pose proof (reachable_Inv _ R) as Iv. pose proof Iv as [St0 F0 LW LI CP FR]. unfold step in H.
  destruct (calculate_lane_changes e s) as [s1|p|] eqn:H1; cbn [bind] in H; [|injection H as ->; exact (choice_not_nan e s R NB H1)|discriminate H].
  destruct (sim_apply_accelerations e s1) as [s2|p|] eqn:H2; cbn [bind] in H; [|injection H as ->; exact (update_not_nan e e s s1 R MR MV ML NB H1 H2)|discriminate H].
  destruct (safe_ok (fun _ => True) _ _ _ (calculate_lane_changes_safe (fun _ => True) e s St0 F0 (fun _ _ => Logic.I)) H1) as (St1 & F1 & S1 & Sh1 & A1 & A2 & A3 & A4 & A5).
  assert (Forall (fun c => valid (s_links s1) (cpl_link (cp_a c)) /\ valid (s_links s1) (cpl_link (cp_b c))) (s_conflicts s1)) as CP1.
  { rewrite A2. eapply Forall_impl; [|exact CP]. simpl. intros c (Ha & Hb). split; apply (same_net_valid _ _ _ S1); auto. }
  destruct (safe_ok (fun _ => True) _ _ _ (sim_apply_accelerations_safe (fun _ => True) e s1 St1 F1 (fun _ _ => Logic.I) CP1) H2) as (St2 & F2 & S2 & L2 & Sh2 & K2 & B1 & B2 & B3 & B4 & B5).
  assert (forall k l, sm_get (s_lights s2) k = Some l -> light_ok l) as LI2 by (rewrite B1, A1; auto).
  pose proof (update_lights_safe not_nan s2 dt LI2) as SU. 
  assert (forall p, light_cause s2 p -> not_nan p) as LC. { intros p (k & l & _ & C) ->. exact C. }
  specialize (SU LC). destruct (update_lights s2 dt) as [s3|p|] eqn:H3; cbn [bind] in H; [|injection H as ->; exact (SU eq_refl)|discriminate H]. destruct SU as (S3 & L3 & Sh3 & LI3 & Es3).
  assert (same_net (s_links s) (s_links s3)) as S03 by (eapply same_net_trans; [exact S1|]; eapply same_net_trans; [exact S2|exact S3]).
  assert (St (s_links s3) (s_vehicles s3) (s_seq s3)) as St3.
  { rewrite Es3. simpl. eapply St_links; eauto.
    - eapply same_net_ok; [exact S03|apply St0].
    - apply same_net_le; auto.
    - eapply Occ_same; [exact L3|apply St2]. }
  assert (flags_ok (s_vehicles s3)) as F3 by (rewrite Es3; exact F2).
  pose proof (sim_integrate_safe not_nan s3 dt St3 F3) as SI. destruct (sim_integrate s3 dt) as [s4|p|] eqn:H4; cbn [bind] in H; [|injection H as ->; exact (SI eq_refl)|discriminate H]. destruct SI as (St4 & F4 & Sq4 & Sh4 & Es4).
  pose proof (advance_vehicles_safe not_nan e s4 St4 F4 (fun _ => ltac:(discriminate))) as SV. destruct (advance_vehicles e s4) as [s5|p|] eqn:H5; cbn [bind] in H; [|injection H as ->; exact (SV eq_refl)|discriminate H]. destruct SV as (St5 & F5 & S5 & Es5).
  pose proof (update_vehicle_coords_safe not_nan s5 St5 F5) as SC. destruct (update_vehicle_coords s5) as [s6|p|] eqn:H6; cbn [bind] in H; [discriminate H|injection H as ->; exact (SC eq_refl)|discriminate H].
Qed.

(** In binary64: in every state that can be reached, with numbers of a moderate size, no lanes beside each other, complete lights and costs
    that can be added up, a step of any length returns. *)
Theorem C65_step_returns_binary64 :
  forall (s : @sim F64) dt pick, reachable s -> moderate_roads s -> moderate_vehicles s -> moderate_lengths s -> no_lanes_beside s -> good_lights s -> small_costs s ->
    exists n s', forall fuel, (n <= fuel)%nat -> step (Env fuel pick) s dt = Ok s'.
Proof.
  intros s dt pick Rc MR MV ML NB Li Co. destruct (C65_step_ends_binary64 s dt pick Rc MR MV NB) as (n & r & Hr & H). destruct r as [s'|p|]; [eauto| |contradiction].
  exfalso. specialize (H n (le_n _)).
  assert (p <> PNanCompare) as Np by (intros ->; exact (step_not_nan _ s dt Rc MR MV ML NB H)).
  assert (cause s (@OStep F64 dt) p) as [C|(k & l & G & C)] by (eapply safe_panic; [apply (exec_safe (Env n pick) s (@OStep F64 dt)), reachable_Inv; exact Rc|exact H]).
  - destruct p; simpl in C; try contradiction.
    + destruct C as (k & l & g & G & Eg & N). destruct (NB k l G) as (E & _). rewrite E in Eg. discriminate Eg.
    + destruct C as (k & l & x & G & Hin & _). destruct (NB k l G) as (_ & E). rewrite E in Hin. destruct Hin.
    + destruct C as (a & b & (l & G & Hin) & _). destruct (NB a l G) as (_ & E). rewrite E in Hin. destruct Hin.
    + destruct C as (k & l & g & q & G & Eg & _). destruct (NB k l G) as (E & _). rewrite E in Eg. discriminate Eg.
    + destruct C as (k & l & G & [N|N]); [|pose proof (Co k l G); lia]. destruct (reachable_history _ Rc) as (ops & Hist). pose proof (costs_ok ops s Hist F64_cast _ (same_net_refl _) k l G). lia.
  - destruct (Li k l G) as (L1 & L2 & L3). destruct p; try contradiction; [|lia]. destruct C as (lid & Hin & N). apply (L3 lid Hin). unfold link_at. unfold valid, sm_mem in N. destruct (sm_get (s_links s) lid); [exfalso; apply N|]; reflexivity.
Qed.
Print Assumptions C65_step_returns_binary64.

(** ** And so does every number of steps, as long as the vehicles stay moderate *)
Lemma step_keeps64 (s : @sim F64) e dt s' : reachable s -> step e s dt = Ok s' -> moderate_roads s -> moderate_lengths s -> no_lanes_beside s -> good_lights s -> small_costs s ->
  moderate_roads s' /\ moderate_lengths s' /\ no_lanes_beside s' /\ good_lights s' /\ small_costs s'.
Proof.
  intros Rc H MR ML NB Li Co. pose proof (reachable_Inv _ Rc) as Iv. pose proof (step_same_net _ _ _ _ Iv H) as Sn.
  assert (forall k l, link_at s' k = Some l -> exists l0, link_at s k = Some l0 /\ lk_static l0 = lk_static l) as K. { intros k l G. exact (same_net_get _ _ _ _ Sn G). }
  split; [|split; [|split; [|split]]].
  - intros k l G. destruct (K k l G) as (l0 & G0 & E). unfold lk_static in E. injection E as F1 F2 F3 F4 F5 F6 F7 F8 F9. specialize (MR k l0 G0). unfold lk_length in *. congruence.
  - intros k v G. destruct (step_motion _ _ _ _ _ _ Iv H G) as (v0 & s1 & s2 & v1 & v2 & G0 & _ & _ & _ & _ & _ & _ & E & _). unfold spec_of in E. injection E as E1 E2 E3 E4 E5 E6. rewrite E2. exact (ML k v0 G0).
  - intros k l G. destruct (K k l G) as (l0 & G0 & E). unfold lk_static in E. injection E as F1 F2 F3 F4 F5 F6 F7 F8 F9. specialize (NB k l0 G0). destruct NB. split; congruence.
  - intros k l G. destruct (step_lights _ _ _ _ _ _ Iv H G) as (l0 & G0 & E). destruct (light_step_static _ _ _ E) as (E1 & E2 & E3). destruct (Li k l0 G0) as (L1 & L2 & L3). rewrite E1, E2, E3. split; [exact L1|]. split; [exact L2|].
    intros lid Hin. specialize (L3 lid Hin). unfold link_at in *. pose proof (same_net_valid _ _ lid Sn) as V. unfold valid, sm_mem in V. destruct (sm_get (s_links s) lid); [|contradiction]. destruct (sm_get (s_links s') lid); [discriminate|]. destruct V as (V & _). discriminate (V eq_refl).
  - intros k l G. destruct (K k l G) as (l0 & G0 & E). unfold lk_static in E. injection E as F1 F2 F3 F4 F5 F6 F7 F8 F9. rewrite <- F9, <- (shape_keys _ _ (sn_shape _ _ Sn)). exact (Co k l0 G0).
Qed.
Theorem C65_goes_on_binary64 :
  forall (dts : list (@num F64)) (s : @sim F64) pick, reachable s -> moderate_roads s -> moderate_vehicles s -> moderate_lengths s -> no_lanes_beside s -> good_lights s -> small_costs s ->
    exists n done s', (done <= length dts)%nat /\ (forall fuel, (n <= fuel)%nat -> run (Env fuel pick) s (map (@OStep F64) (firstn done dts)) = Ok s') /\
      (done = length dts \/ ~ moderate_vehicles s').
Proof.
  induction dts as [|dt dts IH]; intros s pick Rc MR MV ML NB Li Co; [exists 0%nat, 0%nat, s; auto|].
  destruct (C65_step_returns_binary64 s dt pick Rc MR MV ML NB Li Co) as (n & s1 & H). pose proof (H n (le_n _)) as H1. destruct (step_keeps64 s _ dt s1 Rc H1 MR ML NB Li Co) as (MR1 & ML1 & NB1 & Li1 & Co1).
  destruct (Classical_Prop.classic (moderate_vehicles s1)) as [MV1|N].
  - destruct (IH s1 pick) as (m & d & s' & Ld & Hm & Hd); auto; [exact (reach_call (Env n pick) s (@OStep F64 dt) s1 Rc H1)|].
    exists (Nat.max n m), (S d), s'. split; [cbn [length]; lia|]. split; [|destruct Hd as [->|Hd]; [left; reflexivity|right; exact Hd]].
    intros fuel L. cbn [firstn map run exec]. rewrite (H fuel) by lia. cbn [bind]. apply Hm. lia.
  - exists n, 1%nat, s1. split; [cbn [length]; lia|]. split; [|right; exact N]. intros fuel L. cbn [firstn map run exec]. rewrite (H fuel) by lia. reflexivity.
Qed.
Print Assumptions C65_goes_on_binary64.

(** ** Example: a car at a crossing, waiting to enter the road it crosses *)
Definition from_to_b (lo x hi : @num F64) : bool := if nleb lo x then nleb x hi else false.
Definition moderate_b (s : @sim F64) : bool :=
  forallb (fun l => from_to_b (lit 1 100) (lk_length l) (nofZ 1000000) && from_to_b (lit 1 10) (lk_limit l) (nofZ 250) && match lk_group l with None => true | _ => false end && match lk_changes l with [] => true | _ => false end &&
    Z.leb (Z.of_nat (length (sm_keys (s_links s))) * lk_cost l) usize_max) (sm_values (s_links s)) &&
  forallb (fun v => from_to_b (lit 1 100) (max_acc v) (nofZ 100) && from_to_b (nofZ 0) (v_vel v) (nofZ 1000) && from_to_b (nofZ 0) (v_pos v) (nofZ 2000000) && from_to_b (nofZ 0) (v_half_len v) (nofZ 100)) (sm_values (s_vehicles s)) &&
  match sm_values (s_lights s) with [] => true | _ => false end.
Lemma from_to_b_ok lo x hi : from_to_b lo x hi = true -> from_to lo x hi.
Proof. unfold from_to_b, from_to. destruct (nleb lo x); [auto|discriminate]. Qed.
Lemma moderate_b_ok s : moderate_b s = true -> moderate_roads s /\ moderate_vehicles s /\ moderate_lengths s /\ no_lanes_beside s /\ good_lights s /\ small_costs s.
Proof.
  unfold moderate_b. intros H. apply andb_true_iff in H. destruct H as (H & HL). apply andb_true_iff in H. destruct H as (Hl & Hv). rewrite forallb_forall in Hl, Hv.
  assert (forall k l, link_at s k = Some l -> In l (sm_values (s_links s))) as Il by (intros k l G; apply in_values; eauto).
  assert (forall k v, vehicle_at s k = Some v -> In v (sm_values (s_vehicles s))) as Iw by (intros k v G; apply in_values; eauto).
  assert (forall k l, link_at s k = Some l -> from_to (lit 1 100) (lk_length l) (nofZ 1000000) /\ from_to (lit 1 10) (lk_limit l) (nofZ 250) /\ lk_group l = None /\ lk_changes l = [] /\ (Z.of_nat (length (sm_keys (s_links s))) * lk_cost l <= usize_max)%Z) as Kl.
  { intros k l G. specialize (Hl l (Il k l G)). cbv beta in Hl. rewrite !andb_true_iff in Hl. destruct Hl as ((((K1 & K2) & K3) & K4) & K5). split; [apply from_to_b_ok; assumption|]. split; [apply from_to_b_ok; assumption|]. destruct (lk_group l); [discriminate|]. destruct (lk_changes l); [|discriminate]. split; [reflexivity|]. split; [reflexivity|]. apply Z.leb_le. assumption. }
  assert (forall k v, vehicle_at s k = Some v -> from_to (lit 1 100) (max_acc v) (nofZ 100) /\ from_to (nofZ 0) (v_vel v) (nofZ 1000) /\ from_to (nofZ 0) (v_pos v) (nofZ 2000000) /\ from_to (nofZ 0) (v_half_len v) (nofZ 100)) as Kv.
  { intros k v G. specialize (Hv v (Iw k v G)). cbv beta in Hv. rewrite !andb_true_iff in Hv. destruct Hv as (((K1 & K2) & K3) & K4). repeat (split; [apply from_to_b_ok; assumption|]). apply from_to_b_ok; assumption. }
  split; [intros k l G; destruct (Kl k l G) as (K1 & K2 & _); auto|]. split; [intros k v G; destruct (Kv k v G) as (K1 & K2 & K3 & _); auto|]. split; [intros k v G; destruct (Kv k v G) as (_ & _ & _ & K); exact K|].
  split; [intros k l G; destruct (Kl k l G) as (_ & _ & K1 & K2 & _); auto|]. split; [|intros k l G; apply (Kl k l G)].
  intros k l G. exfalso. assert (In l (sm_values (s_lights s))) as Hin by (apply in_values; eauto). destruct (sm_values (s_lights s)); [destruct Hin|discriminate HL].
Qed.
(** The roads of [ex_lame]; the car can accelerate. *)
Definition ex_waits : list (@op F64) :=
  [ OAddLink (ex_line 0 (-13) 0 (-3)) (SimExample.fz 5); OAddLink (ex_line 0 (-3) 0 5) (SimExample.fz 5); OAddLink (ex_line (-20) 0 4 0) (SimExample.fz 5);
    OAddConnection (nth_id 0) (nth_id 1); OAddConnection (nth_id 2) (nth_id 2); OAddConvergence (nth_id 2) (nth_id 1);
    OSetControl (nth_id 1) (CYield (SimExample.fz 50) false 0); OAddVehicle ex_car (nth_id 0); OSetDestination car1 (nth_id 1);
    OStep eighth; OStep eighth; OStep eighth; OStep eighth ].
Lemma ex_waits_ok : okb (run ex_env sim_new ex_waits) (fun s => moderate_b s && Nat.eqb (length (s_conflicts s)) 1 && Nat.eqb (length (sm_values (s_vehicles s))) 1 && negb (nltb (s_acc_update s) ACCELERATION_UPDATE_SEC)) = true.
Proof. vm_compute. reflexivity. Qed.
Example C50_C65_binary64_example : exists s : @sim F64, reachable s /\ moderate_roads s /\ moderate_vehicles s /\ moderate_lengths s /\ no_lanes_beside s /\ good_lights s /\ small_costs s /\
  length (s_conflicts s) = 1%nat /\ length (sm_values (s_vehicles s)) = 1%nat /\ nltb (s_acc_update s) ACCELERATION_UPDATE_SEC = false.
Proof.
  destruct (okb_ok _ _ ex_waits_ok) as (s & H0 & H). rewrite !andb_true_iff in H. destruct H as (((H & B1) & B0) & B). exists s. split; [eapply run_reachable; exact H0|]. destruct (moderate_b_ok s H) as (M1 & M2 & M3 & M4 & M5 & M6).
  repeat (split; [assumption|]). split; [apply Nat.eqb_eq; assumption|]. split; [apply Nat.eqb_eq; assumption|]. apply negb_true_iff. assumption.
Qed.
