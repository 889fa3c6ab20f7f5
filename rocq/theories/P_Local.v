(** * C78: parts of the network that are not connected do not influence each other *)
From Coq Require Import List Bool ZArith NArith Arith Lia.
From Verif Require Import Arith F64 Base BaseProofs SlotMap SlotMapProofs Util Geom Light Accel Net Path Vehicle LinkOps Sim SimExample SpecSim SpecLocal Safe SimInv OpSafe StepEvo Align LocElse LocStep LocCall P_Motion.
Import ListNotations.

Section P_Local.
  Context {A : Arith}.

  (** A call about the part, in two simulations that are the same on it, leaves them the same on it.  In particular a step. *)
  Theorem C78_call part e1 e2 s t o s' t' :
    reachable s -> reachable t -> separate part s -> separate part t -> same_part part s t -> same_ties part e1 e2 ->
    concerns part s o -> concerns part t o -> exec e1 s o = Ok s' -> exec e2 t o = Ok t' ->
    same_part part s' t'.
  Proof. intros Hs Ht. exact (call_same part e1 e2 s t o s' t' (reachable_Inv _ Hs) (reachable_Inv _ Ht)). Qed.

  (** A call about the rest leaves the part as it was. *)
  Theorem C78_elsewhere part e s o s' :
    reachable s -> separate part s -> elsewhere part s o -> exec e s o = Ok s' -> same_part part s s'.
  Proof.
    intros Hs Sp He H. destruct (else_all part e s o s' (reachable_Inv _ Hs) Sp He H) as (X & _). apply same_part_sym. apply (strict_left part s s' s X). split; try reflexivity.
    intros k1 k2 v1 v2 w1 w2 a1 a2 b1 b2 H1 H2 H3 H4 E1 E2 E3 E4. assert (v1 = w1 /\ v2 = w2) as (-> & ->) by (split; congruence). assert (a1 = b1 /\ a2 = b2) as (-> & ->) by (split; congruence). reflexivity.
  Qed.

  (** Neither kind of call connects the part with the rest. *)
  Theorem C78_separate part e s o s' :
    reachable s -> separate part s -> concerns part s o \/ elsewhere part s o -> exec e s o = Ok s' -> separate part s'.
  Proof.
    intros Hs Sp [Hc|He] H; [exact (call_separate part e s o s' (reachable_Inv _ Hs) Sp Hc H)|exact (proj2 (else_all part e s o s' (reachable_Inv _ Hs) Sp He H))].
  Qed.

  (** Two simulations that start the same on the part and get the same calls about it stay the same on it, whatever else is
      called about the rest. *)
  Theorem C78_goes_on part e1 e2 s t ops s' t' :
    reachable s -> reachable t -> separate part s -> separate part t -> same_part part s t -> same_ties part e1 e2 ->
    goes_on part e1 s ops s' -> goes_on part e2 t ops t' ->
    same_part part s' t'.
  Proof. intros Hs Ht Ss St0 P Ti G1 G2. exact (runs_same part e1 e2 ops s s' Ti G1 t t' (reachable_Inv _ Hs) (reachable_Inv _ Ht) Ss St0 P G2). Qed.

  (** What a user sees of the vehicles on the part. *)
  Theorem C78_vehicles part e1 e2 s ops s1 s2 k v :
    reachable s -> separate part s -> same_ties part e1 e2 -> goes_on part e1 s ops s1 -> goes_on part e2 s ops s2 ->
    vehicle_on part s1 k = Some v ->
    exists w, sm_get (s_vehicles s2) k = Some w /\ v_link w = v_link v /\ v_pos w = v_pos v /\ v_vel w = v_vel v /\
      v_world_pos w = v_world_pos v /\ v_world_dir w = v_world_dir v /\ v_route w = v_route v /\ v_destination w = v_destination v.
  Proof.
    intros Hs Sp Ti G1 G2 Hv. assert (same_part part s s) as P0. { split; try reflexivity. intros k1 k2 v1 v2 w1 w2 a1 a2 b1 b2 H1 H2 H3 H4 E1 E2 E3 E4. assert (v1 = w1 /\ v2 = w2) as (-> & ->) by (split; congruence). assert (a1 = b1 /\ a2 = b2) as (-> & ->) by (split; congruence). reflexivity. }
    pose proof (C78_goes_on part e1 e2 s s ops s1 s2 Hs Hs Sp Sp P0 Ti G1 G2) as P. pose proof (sp_vehicles _ _ _ P k) as E. rewrite Hv in E. destruct (vehicle_on part s2 k) as [w|] eqn:Ew; [|discriminate E]. apply CV_on in Ew. destruct Ew as (_ & Gw). exists w. split; [exact Gw|].
    cbn [option_map] in E. assert (unnumbered v = unnumbered w) as E' by congruence. unfold unnumbered in E'. injection E' as _ _ _ _ _ E1 E2 E3 _ E4 _ _ _ _ _ E5 E6 _ _. unfold v_link, v_destination. rewrite E1, E2, E3, E4, E5, E6. auto 10.
  Qed.
End P_Local.

(** A road with a car on it, and another road.  In one run nothing happens on the other road; in the other a car is added there, it
    drives, and the road is closed.  The first car drives the same way. *)
Definition lo_part (k : key) : bool := key_eqb k (nth_id 0).
Definition lo_setup : list (@op F64) :=
  [ OAddLink (ex_line 0 0 40 0) (fz 15); OAddLink (ex_line 0 50 40 50) (fz 15); OAddVehicle ex_car (nth_id 0) ].
Definition lo_drive : list (@op F64) := [ OStep (fz 1); OSetControl (nth_id 0) COpen; OStep (fz 1) ].
Definition lo_other : list (@op F64) := [ OAddVehicle ex_car (nth_id 1); OStep (fz 1); OSetControl (nth_id 1) CClosed; OSetControl (nth_id 0) COpen; OStep (fz 1) ].
Definition lo_plain (s : @sim F64) : bool :=
  forallb (fun kl => match lk_out (snd kl), lk_in (snd kl), lk_changes (snd kl), lk_group (snd kl), lk_conflicts (snd kl) with [], [], [], None, [] => true | _, _, _, _, _ => false end) (sm_entries (s_links s)) &&
  match s_conflicts s, sm_entries (s_lights s) with [], [] => true | _, _ => false end &&
  forallb (fun kv => key_eqb (v_destination (snd kv)) null_key) (sm_entries (s_vehicles s)).
Lemma lo_plain_ok part s : lo_plain s = true -> separate part s.
Proof.
  intros H. unfold lo_plain in H. apply andb_prop in H. destruct H as (H & H3). apply andb_prop in H. destruct H as (H1 & H2). rewrite forallb_forall in H1, H3. split.
  - intros k l y G Ht. specialize (H1 (k, l) (proj2 (in_entries _ _ _) G)). cbn [snd] in H1. unfold touches in Ht. destruct (lk_out l); [|discriminate H1]. destruct (lk_in l); [|discriminate H1]. destruct (lk_changes l); [|discriminate H1]. destruct (lk_group l); [discriminate H1|]. destruct (lk_conflicts l); [|discriminate H1].
    destruct Ht as [[]|[[]|[[]|[(g & E & _)|(c & [] & _)]]]]. discriminate E.
  - intros c Hc. destruct (s_conflicts s); [destruct Hc|discriminate H2].
  - intros k l i j G. apply in_entries in G. destruct (sm_entries (s_lights s)); [destruct G|]. destruct (s_conflicts s); discriminate H2.
  - intros k v G _. left. specialize (H3 (k, v) (proj2 (in_entries _ _ _) G)). cbn [snd] in H3. apply key_eqb_eq in H3. exact H3.
Qed.
Definition lo_seen (s : @sim F64) (k : key) : bool := match vehicle_on lo_part s k with Some v => nltb n0 (v_pos v) | None => false end.
Definition lo_none (s : @sim F64) (k : key) : bool := match vehicle_on lo_part s k with Some _ => false | None => true end.
Lemma lo_ok :
  okb (run ex_env sim_new lo_setup) (fun s => lo_plain s &&
  okb (run ex_env s lo_drive) (fun s1 => lo_seen s1 car1 && negb (sm_mem (s_vehicles s1) car2) &&
  okb (run ex_env s lo_other) (fun s2 => lo_seen s2 car1 && lo_none s2 car2 && sm_mem (s_vehicles s2) car2))) = true.
Proof. vm_compute. reflexivity. Qed.
Lemma lo_goes ops s s' : (forall o, In o ops -> match o with OStep _ => True | OSetControl l _ => True | OAddVehicle _ l => lo_part l = false | _ => False end) -> run ex_env s ops = Ok s' ->
  goes_on lo_part ex_env s (filter (fun o => match o with OStep _ => true | OSetControl l _ => lo_part l | _ => false end) ops) s'.
Proof.
  revert s. induction ops as [|o ops IH]; intros s Ho H; cbn [run] in H; [injection H as <-; constructor|]. apply bind_ok in H. destruct H as (s1 & H1 & H). pose proof (Ho o (or_introl eq_refl)) as O. specialize (IH s1 (fun x Hx => Ho x (or_intror Hx)) H).
  destruct o as [c lim|ids m|a b|a b|calls|a l|v|f|v b|v d|l c|v l d|dt]; try (exfalso; exact O); cbn [filter].
  - eapply go_else; [|exact H1|exact IH]. exact O.
  - destruct (lo_part l) eqn:E; [eapply go_call|eapply go_else]; try exact H1; try exact IH; exact E.
  - eapply go_call; [exact Logic.I|exact H1|exact IH].
Qed.
Example C78_example : exists s s1 s2 v, @reachable F64 s /\ separate lo_part s /\ same_ties lo_part ex_env ex_env /\
  goes_on lo_part ex_env s lo_drive s1 /\ goes_on lo_part ex_env s lo_drive s2 /\
  vehicle_on lo_part s1 car1 = Some v /\ nltb n0 (v_pos v) = true /\ sm_mem (s_vehicles s1) car2 = false /\ sm_mem (s_vehicles s2) car2 = true.
Proof.
  pose proof lo_ok as H. apply okb_ok in H. destruct H as (s & H0 & H). apply andb_prop in H. destruct H as (Hp & H). apply okb_ok in H. destruct H as (s1 & H1 & H). apply andb_prop in H. destruct H as (Ha & H). apply okb_ok in H. destruct H as (s2 & H2 & H). apply andb_prop in Ha. destruct Ha as (Ha & Hb). apply andb_prop in H. destruct H as (_ & Hc).
  unfold lo_seen in Ha. destruct (vehicle_on lo_part s1 car1) as [v|] eqn:Ev; [|discriminate Ha]. exists s, s1, s2, v. split; [exact (run_reachable _ _ _ H0)|]. split; [exact (lo_plain_ok _ _ Hp)|]. split; [intros a b src dst n _ _; reflexivity|].
  split; [|split; [|split; [exact Ev|split; [exact Ha|split; [|exact Hc]]]]].
  - apply (lo_goes lo_drive) in H1; [exact H1|]. intros o [<-|[<-|[<-|[]]]]; exact Logic.I.
  - apply (lo_goes lo_other) in H2; [exact H2|]. intros o [<-|[<-|[<-|[<-|[<-|[]]]]]]; try exact Logic.I. reflexivity.
  - apply negb_true_iff. exact Hb.
Qed.

Print Assumptions C78_call.
Print Assumptions C78_elsewhere.
Print Assumptions C78_separate.
Print Assumptions C78_goes_on.
Print Assumptions C78_vehicles.
