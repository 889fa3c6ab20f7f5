(** * C72: a vehicle whose destination is taken away keeps its route and nothing else *)
From Coq Require Import List Bool ZArith NArith Arith Lia Relation_Operators Operators_Properties.
From Verif Require Import Arith RealArith Base BaseProofs SlotMap Util Geom Light Accel Net Path Vehicle LinkOps Sim SpecSim SlotMapProofs Safe NetInv SimInv AccSafe SimSafe StepSafe OpSafe Evo StepEvo SimProofs StepProofs Motion SpecRoute PlanProofs RouteProofs RouteEvo P_Route P_Exit NetEvo F64 SimExample P_Motion P_Lane.
Import ListNotations.

Section Null.
  Context {A : Arith}.
  Definition lost (pf : pathfind) : Prop := pf_dst pf = null_key /\ pf_matrix pf = [] /\ pf_paths pf = [].
  Lemma make_paths_none links pf pf' : pf_matrix pf = [] -> make_paths links pf = Ok pf' -> pf_paths pf' = [].
  Proof.
    intros E H. unfold make_paths in H. bok H r0 H0. bok H l G. bok H rs Hr. injection H as <-. cbn [pf_paths]. rewrite E in *.
    assert (forall n pre id d, make_paths_inner n links [] (pf_dst pf) pre id d = Ok (false, [])) as K by (intros [|n] pre id d; reflexivity).
    rewrite K in H0. injection H0 as <-. cbn [snd]. apply mapM_ok in Hr. induction Hr as [|x y xs ys Hx _ IH]; [reflexivity|]. rewrite K in Hx. injection Hx as <-. exact IH.
  Qed.
  Lemma reroute_null e links pf pf' : pf_dst pf = null_key -> reroute e links pf = Ok pf' -> pf_dst pf' = null_key /\ pf_matrix pf' = [].
  Proof. intros D H. unfold reroute in H. rewrite D, key_eqb_refl, orb_true_r in H. injection H as <-. auto. Qed.
  Lemma pf_step_lost links pf pf' : lost pf -> pf_step links pf pf' -> lost pf'.
  Proof.
    intros (D & M & _) (e & links' & id & Sn & V & H). unfold set_origin in H. cbn [pf_matrix pf_dst pf_paths] in H. rewrite M in H. cbn [mx_get] in H. bok H pfa Ha. apply reroute_null in Ha; [|exact D]. destruct Ha as (D1 & M1).
    pose proof (make_paths_planned _ _ _ H) as (_ & E2 & E3 & _). split; [congruence|]. split; [congruence|]. exact (make_paths_none _ _ _ M1 H).
  Qed.
  Lemma pf_evo_lost links pf pf' : lost pf -> pf_evo links pf pf' -> lost pf'.
  Proof. intros L E. induction E as [a b St|a|a b c _ IH1 _ IH2]; [exact (pf_step_lost _ _ _ L St)|exact L|auto]. Qed.
  Definition adrift (r : list key) (v : vehicle) : Prop := lost (v_pathfind v) /\ v_can_exit v = false /\ exists pre, r = pre ++ v_route v.
  Lemma exec_adrift e s o s' k r : Inv s -> exec e s o = Ok s' -> redirects k o = false -> moves k o = false -> sm_issued (s_vehicles s) k ->
    (forall v, sm_get (s_vehicles s) k = Some v -> adrift r v) -> forall v', sm_get (s_vehicles s') k = Some v' -> adrift r v'.
  Proof.
    intros I H Hr Hmv Is K v' G. assert (k = sm_next_key (s_vehicles s) -> False) as Nk by (intros ->; revert Is; apply next_key_not_issued; apply I).
    assert (lost (v_pathfind v')) as T.
    { destruct (exec_pf _ _ _ _ _ _ I H G) as [(v & Gv & E)|[(v & d & -> & _)|(a & l & _ & Q & _)]]; [|cbn [redirects] in Hr; rewrite key_eqb_refl in Hr; discriminate Hr|destruct (Nk Q)].
      destruct (K v Gv) as (L & _). exact (pf_evo_lost _ _ _ L E). }
    split; [exact T|]. destruct (is_step o) eqn:Hs.
    - destruct o; try discriminate Hs. destruct (step_exit _ _ _ _ _ _ I H G) as (v & v1 & s1 & Gv & _ & _ & C & E1 & _ & Ne & E3). destruct (K v Gv) as ((_ & _ & P0) & X0 & pre & R0).
      assert (v1 = v) as ->. { destruct C as [(_ & ->)|(_ & C)]; [reflexivity|]. destruct C as [C|p C Hh|p b links' pos lc v2 C Hh Nl Hs']; [reflexivity| |]; exfalso; apply choose_path_in in C; rewrite P0 in C; destruct C as ([] & _). }
      split; [congruence|]. destruct E3 as [(-> & _)|E3]; [eauto|]. rewrite E3 in *. destruct (v_route v) as [|x q]; [contradiction|]. exists (pre ++ [x]). rewrite <- app_assoc. exact R0.
    - destruct (call_exit _ _ _ _ _ _ I H Hs G) as [(v & Gv & E1 & _ & E3)|(_ & [D|[D|(a & l & _ & Q)]])]; [|congruence|congruence|destruct (Nk Q)].
      destruct (K v Gv) as (_ & X0 & pre & R0). split; [congruence|]. rewrite E1. eauto.
  Qed.
  Lemma history_adrift s ops s' k r : history s ops s' -> Inv s -> (forall o, In o ops -> redirects k o = false /\ moves k o = false) -> sm_issued (s_vehicles s) k ->
    (forall v, sm_get (s_vehicles s) k = Some v -> adrift r v) -> forall v', sm_get (s_vehicles s') k = Some v' -> adrift r v'.
  Proof.
    induction 1 as [|e s o s1 ops s' H Hh IH]; intros I Ho Is T; auto. destruct (Ho o (or_introl eq_refl)) as (Hr & Hmv).
    apply IH; [eapply exec_Inv; eauto|intros; apply Ho; right; auto|eapply history_issued; [econstructor; [exact H|constructor]|exact I|exact Is]|]. eapply exec_adrift; eauto.
  Qed.
End Null.

(** From the call that sets the destination to the null id until the next destination: the vehicle has no routing entries
    and no candidate paths, its route is what is left of the route it had then, and it has no leave to exit. *)
Theorem C72_no_destination :
  forall (A : Arith) e s0 k s1 ops2 s v0 v, reachable s0 -> vehicle_at s0 k = Some v0 -> exec e s0 (OSetDestination k null_key) = Ok s1 -> history s1 ops2 s ->
    (forall o, In o ops2 -> redirects k o = false /\ moves k o = false) -> vehicle_at s k = Some v ->
    candidates v = [] /\ (forall x, ~ routed v x) /\ (exists passed, v_route v0 = passed ++ v_route v) /\ v_can_exit v = false.
Proof.
  intros A e s0 k s1 ops2 s v0 v R G0 H H2 Ho G. pose proof (reachable_Inv _ R) as I. pose proof (exec_Inv _ _ _ _ I H) as I1.
  assert (adrift (v_route v0) v) as ((_ & M & P) & X & Q).
  { apply (history_adrift s1 ops2 s k (v_route v0) H2 I1 Ho); [| |exact G].
    - eapply history_issued; [econstructor; [exact H|constructor]|exact I|]. exact (issued_mem _ _ _ G0).
    - intros w Gw. cbn [exec] in H. unfold set_vehicle_destination in H. bok H x0 Hx0. bok H v1 Hv1. injection H as <-. unfold vehicle_at, get_vehicle in *. rewrite G0 in Hx0. injection Hx0 as <-.
      cbn [s_vehicles with_vehicles] in Gw. rewrite sm_get_set, key_eqb_refl in Gw. replace (sm_mem (s_vehicles s0) k) with true in Gw by (symmetry; apply sm_mem_get; eauto). injection Gw as <-.
      unfold set_destination in Hv1. bok Hv1 pfb Hpb. injection Hv1 as <-. unfold adrift. cbn [set_can_exit set_pathfind v_route v_pathfind v_can_exit].
      unfold pf_set_destination in Hpb. apply bind_ok in Hpb. destruct Hpb as (pfa & Ha & Hpl). apply reroute_null in Ha; [|reflexivity]. destruct Ha as (D1 & M1). pose proof (make_paths_planned _ _ _ Hpl) as (_ & E2 & E3 & _).
      split; [split; [congruence|]; split; [congruence|exact (make_paths_none _ _ _ M1 Hpl)]|]. split; [reflexivity|]. exists []. reflexivity. }
  split; [unfold candidates; rewrite P; reflexivity|]. split; [intros x Rx; unfold routed in Rx; rewrite M in Rx; apply Rx; reflexivity|]. auto.
Qed.
Print Assumptions C72_no_destination.

(** A car that was on its way: its destination is taken away in the second step; after that it goes on along the rest of its route. *)
Definition no_candidates (s : @sim F64) (k : key) : bool := match sm_get (s_vehicles s) k with Some v => match candidates v with [] => true | _ => false end | None => false end.
Lemma ex_null_ok : okb (run ex_env sim_new (ex_before ++ OSetDestination car1 exit1 :: ex_steps 2)) (fun s0 => route_is s0 car1 [lane1; exit1] && negb (no_candidates s0 car1) &&
  okb (exec ex_env s0 (OSetDestination car1 null_key)) (fun s1 => no_candidates s1 car1 && okb (run ex_env s1 (ex_steps 4)) (fun s => route_is s car1 [exit1]))) = true.
Proof. vm_compute. reflexivity. Qed.
Example C72_example : exists s0 v0 s1 s v, reachable s0 /\ vehicle_at s0 car1 = Some v0 /\ v_route v0 = [lane1; exit1] /\ candidates v0 <> [] /\ exec ex_env s0 (OSetDestination car1 null_key) = Ok s1 /\
  history s1 (ex_steps 4) s /\ (forall o, In o (ex_steps 4) -> redirects car1 o = false /\ moves car1 o = false) /\ vehicle_at s car1 = Some v /\ v_route v = [exit1].
Proof.
  destruct (okb_ok _ _ ex_null_ok) as (s0 & H0 & H). bsplit H. destruct (okb_ok _ _ B) as (s1 & H1 & Hb). bsplit Hb. destruct (okb_ok _ _ B1) as (s & H2 & Hc).
  apply route_is_ok in H, Hc. destruct H as (v0 & G0 & R0). destruct Hc as (v & G & Rv). apply negb_true_iff in B0. unfold no_candidates in B0. unfold vehicle_at in G0. rewrite G0 in B0.
  exists s0, v0, s1, s, v. split; [eapply history_reachable; [eapply run_history; exact H0|constructor]|]. split; [exact G0|]. split; [exact R0|]. split; [destruct (candidates v0); discriminate|]. split; [exact H1|].
  split; [eapply run_history; exact H2|]. split; [intros o Ho; apply repeat_spec in Ho; subst o; auto|]. auto.
Qed.
