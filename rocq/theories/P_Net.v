(** * The network over whole histories (C53, C55), random speed factors (C25) *)
From Coq Require Import List Bool ZArith NArith Arith Lia Reals Lra.
From Flocq Require Import Core IEEE754.BinarySingleNaN.
From Verif Require Import Arith F64 RealArith Base BaseProofs SlotMap Util Geom Light Accel Net Path Vehicle LinkOps Sim SpecSim SpecMotion SpecNet SlotMapProofs Safe NetInv SimInv StepSafe OpSafe Evo StepEvo SimProofs StepProofs Ord FloatLaws Motion NetEvo SimExample P_Sim P_Motion P_Accel.
Import ListNotations.

(** ** C55: the network is the one the user built *)
Lemma connection_known {A : Arith} e s a b s' : exec e s (OAddConnection a b) = Ok s' -> link_at s a <> None /\ link_at s b <> None.
Proof.
  cbn [exec]. unfold add_link_connection. intros H. bok H x Hx. bok H y Hy. injection H as <-. unfold link_at.
  unfold upd_link, get_link in Hx, Hy. destruct (sm_get (s_links s) a) as [l|] eqn:G; [|discriminate Hx]. simpl in Hx. injection Hx as <-. split; [congruence|].
  destruct (sm_get (sm_set (s_links s) a (add_link_out l b)) b) as [l2|] eqn:G2; [|discriminate Hy]. rewrite sm_get_set in G2.
  destruct (key_eqb_spec a b) as [->|]; [congruence|]. simpl in G2. congruence.
Qed.
Theorem C55_connections :
  forall (A : Arith) ops s k l, history sim_new ops s -> link_at s k = Some l ->
    lk_out l = connected_to ops k /\ lk_in l = connected_from ops k.
Proof.
  intros A ops s k l H. revert k l.
  assert (forall s0 ops0, history s0 ops s -> Inv s0 ->
    (forall k, match link_at s0 k with Some l => lk_out l = connected_to ops0 k /\ lk_in l = connected_from ops0 k | None => connected_to ops0 k = [] /\ connected_from ops0 k = [] end) ->
    forall k l, link_at s k = Some l -> lk_out l = connected_to (ops0 ++ ops) k /\ lk_in l = connected_from (ops0 ++ ops) k) as K.
  { clear H. intros s0 ops0 H. revert ops0. induction H as [s0|e s0 o s1 ops s H1 Hh IH]; intros ops0 I0 P k l G.
    - rewrite app_nil_r. specialize (P k). rewrite G in P. exact P.
    - change (o :: ops) with ([o] ++ ops). rewrite app_assoc. apply IH; auto; [eapply exec_Inv; eauto|]. clear k l G. intros k. specialize (P k).
      unfold connected_to, connected_from in *. rewrite !flat_map_app. cbn [flat_map]. rewrite !app_nil_r. unfold link_at in *.
      destruct (sm_get (s_links s1) k) as [l1|] eqn:G1.
      + destruct (exec_built _ _ _ _ _ _ I0 H1 G1) as [(l & G0 & _ & E1 & E2)|(c & lim & -> & -> & E)].
        * rewrite G0 in P. destruct P as (P1 & P2). rewrite E1, E2, P1, P2. split; reflexivity.
        * assert (sm_get (s_links s0) (sm_next_key (s_links s0)) = None) as N0.
          { destruct (sm_get _ _) eqn:G0 in |- *; auto. exfalso. apply (next_key_not_issued (s_links s0)); [apply (st_net _ _ _ (i_st _ I0))|]. eapply issued_mem; eauto. }
          rewrite N0 in P. destruct P as (-> & ->). unfold link_new in E. bok E lc Hc. injection E as <-. split; reflexivity.
      + assert (sm_get (s_links s0) k = None) as N0.
        { destruct (sm_get (s_links s0) k) eqn:G0; auto. assert (sm_mem (s_links s1) k = true) as M by (eapply links_stay; eauto; apply sm_mem_get; eauto).
          unfold sm_mem in M. rewrite G1 in M. discriminate M. }
        rewrite N0 in P. destruct P as (-> & ->). destruct o; auto. destruct (connection_known _ _ _ _ _ H1) as (Ka & Kb). unfold link_at in *.
        destruct (key_eqb_spec from k), (key_eqb_spec to k); subst; auto; congruence. }
  intros k l G. refine (K sim_new [] H Inv_new _ k l G). intros k0. unfold link_at. simpl. rewrite sm_get_empty. auto.
Qed.
Print Assumptions C55_connections.
(** A link never disappears, and its curve, limit and cost never change. *)
Theorem C55_roads_stay :
  forall (A : Arith) s ops s' k l, reachable s -> history s ops s' -> link_at s k = Some l ->
    exists l', link_at s' k = Some l' /\ same_road l l'.
Proof.
  intros A s ops s' k l R H. revert l. induction H as [s|e s o s1 ops s' H1 Hh IH]; intros l G; [exists l; split; [exact G|split; auto]|].
  pose proof (reachable_Inv _ R) as I. unfold link_at in *.
  assert (sm_mem (s_links s1) k = true) as M by (eapply links_stay; eauto; apply sm_mem_get; eauto). apply sm_mem_get in M. destruct M as (l1 & G1).
  destruct (IH (reach_call _ _ _ _ R H1) l1 G1) as (l' & G' & E1 & E2 & E3). exists l'. split; auto.
  destruct (exec_built _ _ _ _ _ _ I H1 G1) as [(l0 & G0 & E & _)|(c & lim & -> & -> & E)].
  - unfold geo in E. injection E as F1 F2 F3 F4. unfold same_road. assert (l0 = l) by congruence. subst l0. rewrite E1, E2, E3. auto.
  - exfalso. apply (next_key_not_issued (s_links s)); [apply (st_net _ _ _ (i_st _ I))|]. eapply issued_mem; eauto.
Qed.
Print Assumptions C55_roads_stay.
(** A new link has the given limit, nothing is connected to it, and no other link changes. *)
Theorem C55_new_link :
  forall (A : Arith) e s c limit s', reachable s -> exec e s (OAddLink c limit) = Ok s' ->
    (exists l, link_at s' (sm_next_key (s_links s)) = Some l /\ lk_limit l = limit /\ lk_in l = [] /\ lk_out l = [] /\ lk_vehicles l = [] /\ lk_control l = COpen) /\
    forall k, k <> sm_next_key (s_links s) -> link_at s' k = link_at s k.
Proof.
  intros A e s c limit s' R H. pose proof (reachable_Inv _ R) as I. cbn [exec] in H. bok H x Hx. unfold add_link in Hx. bok Hx l Hl. injection Hx as <-. injection H as <-. unfold link_at. cbn [fst s_links with_links].
  assert (sm_wf (s_links s)) as W by apply (st_net _ _ _ (i_st _ I)). split.
  - exists l. rewrite sm_get_insert, key_eqb_refl by exact W. split; auto. unfold link_new in Hl. bok Hl lc Hc. injection Hl as <-. auto 10.
  - intros k N. rewrite sm_get_insert by exact W. destruct (key_eqb_spec (sm_next_key (s_links s)) k); congruence.
Qed.
Print Assumptions C55_new_link.
Example C55_example : exists s l, history (@sim_new F64) ex_setup s /\ link_at s lane1 = Some l /\ connected_to ex_setup lane1 = [exit1] /\ connected_from ex_setup exit1 = [lane1].
Proof.
  destruct (okb_ok _ _ ex_story_ok) as (s & H0 & H). pose proof (run_history _ _ _ _ H0) as Hh.
  assert (sm_mem (s_links s) lane1 = true) as M by (bsplit H; destruct (is_on_link _ _ _ B1) as (v & G & L); pose proof (reachable_Inv _ (run_reachable _ _ _ H0)) as I;
    unfold vehicle_at in G; destruct (vbase_link _ _ _ _ (st_veh _ _ _ (i_st _ I) _ _ G)) as (mid & Hm & Hv); assert (mid = lane1) by congruence; subst; apply Hv).
  apply sm_mem_get in M. destruct M as (l & G). exists s, l. split; [exact Hh|]. split; [exact G|]. split; reflexivity.
Qed.

(** ** C53: the cost of every link, over every history *)
Theorem C53_every_link :
  forall (A : Arith) s k l, reachable s -> link_at s k = Some l -> lk_cost l = link_cost (lk_length l) (lk_limit l).
Proof.
  intros A s k l R. revert k l. induction R as [|e s o s' R IH H]; intros k l G; unfold link_at in *; [simpl in G; rewrite sm_get_empty in G; discriminate G|].
  destruct (exec_built _ _ _ _ _ _ (reachable_Inv _ R) H G) as [(l0 & G0 & E & _)|(c & lim & -> & -> & E)].
  - unfold geo in E. injection E as F1 F2 F3 F4. unfold lk_length. rewrite F2, F3, F4. exact (IH _ _ G0).
  - unfold link_new in E. bok E lc Hc. injection E as <-. reflexivity.
Qed.
Print Assumptions C53_every_link.

(** ** C25: random speed factors *)
(** Over every history of calls, in binary64 and whatever the samples are: the factor of a vehicle is
    between 3/4 and 5/4, or it is NaN. *)
Lemma lit_nan : @nnan F64 (lit 3 4) = false /\ @nnan F64 (lit 5 4) = false /\ @nleb F64 (lit 3 4) n1 = true /\ @nleb F64 n1 (lit 5 4) = true /\ @nleb F64 (lit 3 4) (lit 5 4) = true.
Proof. vm_compute. auto. Qed.
Lemma clamp_range (x : @num F64) : nnan (nclamp (lit 3 4) (lit 5 4) x) = true \/
  nleb (lit 3 4) (nclamp (lit 3 4) (lit 5 4) x) = true /\ nleb (nclamp (lit 3 4) (lit 5 4) x) (lit 5 4) = true.
Proof.
  destruct lit_nan as (N1 & N2 & L1 & L2 & L3). unfold nclamp. destruct (nltb x (lit 3 4)) eqn:E1; [right; split; [apply (le_refl F64_ord); auto|exact L3]|].
  destruct (nltb (lit 5 4) x) eqn:E2; [right; split; [exact L3|apply (le_refl F64_ord); auto]|].
  destruct (nnan x) eqn:N; [left; auto|right]. split; apply (not_lt_le F64_ord); auto.
Qed.
Theorem C25_range :
  forall s k v, @reachable F64 s -> vehicle_at s k = Some v ->
    nnan (speed_factor v) = true \/ nleb (lit 3 4) (speed_factor v) = true /\ nleb (speed_factor v) (lit 5 4) = true.
Proof.
  intros s k v R G. revert s k v R G. apply (reachable_vehicles (fun v => nnan (speed_factor v) = true \/ nleb (lit 3 4) (speed_factor v) = true /\ nleb (speed_factor v) (lit 5 4) = true)).
  intros e s o s' k v' R H G P. pose proof (reachable_Inv _ R) as I. unfold speed_factor in *. destruct (is_step o) eqn:Es.
  - destruct o; try discriminate Es. destruct (step_motion _ _ _ _ _ _ I H G) as (v & ? & ? & ? & ? & G0 & _ & _ & _ & _ & _ & _ & _ & _ & Ea & _). rewrite Ea. exact (P _ G0).
  - destruct (exec_body _ _ _ _ _ _ I H Es G) as [(v & G0 & _ & _ & _ & [E|(f & _ & E)])|(a & l & _ & _ & _ & _ & _ & E)]; rewrite E.
    + exact (P _ G0).
    + apply clamp_range.
    + right. destruct lit_nan as (N1 & N2 & L1 & L2 & L3). auto.
Qed.
Print Assumptions C25_range.
(** Exactly: each sample is cut off at 3/4 and 5/4, and this is the only call that changes factors. *)
Theorem C25_samples :
  forall (A : Arith) e s f s' k v, reachable s -> exec e s (ORandomise f) = Ok s' -> vehicle_at s k = Some v ->
    exists v', vehicle_at s' k = Some v' /\
      speed_factor v' = if nltb (f k) (lit 3 4) then lit 3 4 else if nltb (lit 5 4) (f k) then lit 5 4 else f k.
Proof.
  intros A e s f s' k v R H G. cbn [exec] in H. unfold randomise_velocity_adjusts in H. bok H x Hx. injection H as <-. unfold vehicle_at in *. cbn [s_vehicles with_vehicles]. destruct x as [u vs].
  destruct (sm_mapS_pointwise _ (fun _ => True) _ _ _ _ (fun _ _ _ _ _ _ _ _ => I) I Hx) as (_ & K & _).
  destruct (K _ _ G) as (u1 & u2 & v' & _ & _ & E & G'). injection E as <- <-. exists (set_velocity_adjust v (nclamp (lit 3 4) (lit 5 4) (f k))). split; [exact G'|]. reflexivity.
Qed.
Print Assumptions C25_samples.
Theorem C25_kept :
  forall (A : Arith) e s o s' k v v', reachable s -> exec e s o = Ok s' -> (forall f, o <> ORandomise f) ->
    vehicle_at s k = Some v -> vehicle_at s' k = Some v' -> speed_factor v' = speed_factor v.
Proof.
  intros A e s o s' k v v' R H N G G'. pose proof (reachable_Inv _ R) as I. unfold vehicle_at, speed_factor in *. destruct (is_step o) eqn:Es.
  - destruct o; try discriminate Es. destruct (step_motion _ _ _ _ _ _ I H G') as (v0 & ? & ? & ? & ? & G0 & _ & _ & _ & _ & _ & _ & _ & _ & Ea & _). congruence.
  - destruct (exec_body _ _ _ _ _ _ I H Es G') as [(v0 & G0 & _ & _ & _ & [E|(f & E0 & E)])|(a & l & _ & N0 & _)]; [congruence|exfalso; exact (N _ E0)|congruence].
Qed.
Print Assumptions C25_kept.

(** The first car's sample is too high, the second's too low. *)
Definition ex_samples (k : key) : @num F64 := if key_eqb k car1 then fz 2 else if key_eqb k car2 then n0 else n1.
Lemma ex_random_ok :
  okb (run ex_env sim_new ex_setup) (fun s => okb (run ex_env s [ORandomise ex_samples]) (fun s' =>
    veh_b s car1 (fun _ => true) && veh_b s' car1 (fun v => neqb (speed_factor v) (lit 5 4)) && veh_b s' car2 (fun v => neqb (speed_factor v) (lit 3 4)))) = true.
Proof. vm_compute. reflexivity. Qed.
Example C25_example : exists s s' v v', @reachable F64 s /\ exec ex_env s (ORandomise ex_samples) = Ok s' /\ vehicle_at s car1 = Some v /\ vehicle_at s' car1 = Some v' /\
  neqb (speed_factor v') (lit 5 4) = true.
Proof.
  pose proof ex_random_ok as H. apply okb_ok in H. destruct H as (s & H0 & H). apply okb_ok in H. destruct H as (s' & H1 & H). bsplit H.
  apply veh_b_ok in H, B0. destruct H as (v & G & _). destruct B0 as (v' & G' & E). exists s, s', v, v'. split; [eapply run_reachable; exact H0|].
  split; [|auto]. cbn [run] in H1. destruct (exec ex_env s (ORandomise ex_samples)) eqn:Ex; cbn [bind] in H1; [injection H1 as <-; reflexivity|discriminate H1|discriminate H1].
Qed.

(** A link 20 m long: at 15 m/s it costs 13; a limit of zero gives the largest [usize], so that adding
    any other cost overflows. *)
Example C53_example : @link_cost F64 (fz 20) (fz 15) = 13%Z /\ @link_cost F64 (fz 20) n0 = usize_max.
Proof. vm_compute. auto. Qed.
