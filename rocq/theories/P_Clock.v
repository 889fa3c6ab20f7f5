(** * C94: traffic lights run by the clock alone *)
From Coq Require Import List Bool ZArith NArith Arith Lia.
From Verif Require Import Arith F64 Base BaseProofs SlotMap SlotMapProofs Util Geom Light Accel Net Path Vehicle LinkOps Sim SpecLight SpecSim Safe NetInv SimInv StepSafe OpSafe Evo StepEvo SimProofs StepProofs SimExample P_Sim P_Step LampProofs SpecClock P_Alone.
Import ListNotations.

Section P_Clock.
  Context {A : Arith}.

  Lemma call_keeps_light e s o s' k l : Inv s -> (forall dt, o <> OStep dt) -> exec e s o = Ok s' -> sm_get (s_lights s) k = Some l -> sm_get (s_lights s') k = Some l.
  Proof.
    intros I No H G. destruct o; simpl in H.
    - bok H x Hx. unfold add_link in Hx. bok Hx l0 Hl. injection Hx as <-. injection H as <-. auto.
    - unfold add_link_group in H. bok H x1 Hx1. bok H x2 Hx2. bok H x3 Hx3. bok H x4 Hx4. bok H x5 Hx5. injection H as <-. auto.
    - unfold add_link_convergance in H. destruct (key_eqb _ _); [injection H as <-; auto|].
      destruct (sm_get _ a); [|injection H as <-; auto]. destruct (sm_get _ b); [|injection H as <-; auto].
      bok H x Hx. destruct x; [|injection H as <-; auto]. bok H y Hy. injection H as <-. auto.
    - unfold add_link_connection in H. bok H x Hx. bok H y Hy. injection H as <-. auto.
    - bok H x Hx. injection H as <-. cbn [s_lights add_traffic_light fst]. rewrite sm_get_insert by apply I. destruct (key_eqb_spec (sm_next_key (s_lights s)) k) as [<-|]; auto.
      exfalso. apply (next_key_not_issued (s_lights s)); [apply I|]. eapply issued_mem. exact G.
    - bok H x Hx. destruct x as [s1 k1]. injection H as <-. unfold add_vehicle in Hx. bok Hx v0 Hv0. bok Hx v Hv. bok Hx links Hl. injection Hx as <- <-. auto.
    - unfold sim_remove_vehicle in H. destruct (sm_get _ v) as [v0|]; [|injection H as <-; auto]. simpl in H.
      destruct (v_link v0); [|injection H as <-; auto]. bok H x Hx. injection H as <-. auto.
    - unfold randomise_velocity_adjusts in H. bok H x Hx. injection H as <-. auto.
    - injection H as <-. unfold set_vehicle_frozen. destruct frozen, (position _ _); auto.
    - unfold set_vehicle_destination in H. bok H x Hx. bok H y Hy. injection H as <-. auto.
    - unfold set_link_control in H. bok H x Hx. injection H as <-. auto.
    - apply do_lane_change_ok in H. destruct H as (v0 & v1 & links & lk0 & pos & off & slope & _ & _ & _ & _ & _ & Es). rewrite Es. auto.
    - destruct (No dt eq_refl).
  Qed.

  Lemma light_after calls s ops t k l : reachable s -> history s ops t -> sm_get (s_lights s) k = Some l -> lrun calls = Ok l ->
    exists l', sm_get (s_lights t) k = Some l' /\ lrun (calls ++ map LStep (durations ops)) = Ok l'.
  Proof.
    intros Re H. revert calls l Re. induction H as [s|e s o s1 ops t H1 Hh IH]; intros calls l Re G R0; [exists l; cbn [durations flat_map map]; rewrite app_nil_r; auto|].
    assert (reachable s1) as Re1 by (eapply reach_call; eauto). pose proof (reachable_Inv _ Re) as I.
    assert ((exists dt, o = OStep dt) \/ forall dt, o <> OStep dt) as [(dt & ->)|No] by (destruct o; (right; congruence) || (left; eauto)).
    - cbn [exec] in H1. destruct (lights_forward _ _ _ _ _ _ I H1 G) as (l1 & G1 & S1). destruct (IH _ _ Re1 G1 (lrun_snoc _ _ _ _ R0 S1)) as (l' & G' & R'). exists l'. split; [exact G'|].
      cbn [durations flat_map app map]. rewrite <- app_assoc in R'. exact R'.
    - destruct (IH _ _ Re1 (call_keeps_light _ _ _ _ _ _ I No H1 G) R0) as (l' & G' & R'). exists l'. split; [exact G'|].
      replace (durations (o :: ops)) with (durations ops); [exact R'|]. destruct o; try reflexivity. destruct (No dt eq_refl).
  Qed.

  (** A light that was built by some calls and added to a simulation is, whatever is done with the simulation, the light those calls build, stepped with
      the durations of the simulation's steps. *)
  Theorem C94_clock e s calls s1 ops t : reachable s -> exec e s (OAddLight calls) = Ok s1 -> history s1 ops t ->
    exists l, sm_get (s_lights t) (sm_next_key (s_lights s)) = Some l /\ lrun (calls ++ map LStep (durations ops)) = Ok l.
  Proof.
    intros Re H Hh. assert (reachable s1) as Re1 by (eapply reach_call; eauto). pose proof (reachable_Inv _ Re) as I. cbn [exec] in H. bok H l Hl. injection H as <-.
    eapply (light_after calls); [exact Re1|exact Hh| |exact Hl]. cbn [s_lights add_traffic_light fst]. rewrite sm_get_insert by apply I. rewrite key_eqb_refl. reflexivity.
  Qed.

  (** So the same light in two simulations, whatever their roads and traffic, shows the same if their steps last the same. *)
  Theorem C94_same e1 e2 s s' calls s1 s1' ops ops' t t' : reachable s -> reachable s' -> exec e1 s (OAddLight calls) = Ok s1 -> exec e2 s' (OAddLight calls) = Ok s1' ->
    history s1 ops t -> history s1' ops' t' -> durations ops = durations ops' ->
    exists l, sm_get (s_lights t) (sm_next_key (s_lights s)) = Some l /\ sm_get (s_lights t') (sm_next_key (s_lights s')) = Some l.
  Proof.
    intros Re Re' H H' Hh Hh' E. destruct (C94_clock _ _ _ _ _ _ Re H Hh) as (l & G & Hl). destruct (C94_clock _ _ _ _ _ _ Re' H' Hh') as (l' & G' & Hl'). rewrite E, Hl' in Hl. injection Hl as ->. eauto.
  Qed.

  (** And so do the links: after a step, a link that this light alone controls is open or closed as the light on its own says. *)
  Theorem C94_links e s calls s1 ops t dt e2 t' l i lid : reachable s -> exec e s (OAddLight calls) = Ok s1 -> history s1 ops t -> exec e2 t (OStep dt) = Ok t' ->
    lrun (calls ++ map LStep (durations ops ++ [dt])) = Ok l -> controls l i lid ->
    (forall k2 l2 i2, sm_get (s_lights t') k2 = Some l2 -> controls l2 i2 lid -> k2 = sm_next_key (s_lights s) /\ i2 = i) ->
    exists lk, link_at t' lid = Some lk /\ lk_control lk = match signal l i with Some Green => COpen | _ => CClosed end.
  Proof.
    intros Re H Hh Ht Hl C U. assert (history s1 (ops ++ [OStep dt]) t') as Hh' by (eapply history_app; [exact Hh|econstructor; [exact Ht|constructor]]).
    destruct (C94_clock _ _ _ _ _ _ Re H Hh') as (l0 & G & H0). assert (durations (ops ++ [OStep dt]) = durations ops ++ [dt]) as E by (unfold durations; rewrite flat_map_app; reflexivity).
    rewrite E, Hl in H0. injection H0 as <-. assert (reachable t) as Rt by (eapply history_reachable; [exact Hh|eapply reach_call; eauto]).
    exact (C06_links_obey_light A _ _ _ _ _ _ _ _ Rt Ht G C U).
  Qed.
End P_Clock.
Print Assumptions C94_clock.
Print Assumptions C94_same.
Print Assumptions C94_links.

(** The light of the running example, with its three cars about, and the same light on its own: both after two steps. *)
Definition clock_light : list (@lop F64) := [LMovement 0 (fz 3) (fz 1) [exit1]; LPhase 1 (fz 10)].
Definition clock_ops : list (@op F64) := Eval cbv [skipn ex_setup ex_steps repeat app] in skipn 10 ex_setup ++ ex_steps 2.
Definition clock_before : list (@op F64) := Eval cbv [firstn ex_setup] in firstn 9 ex_setup.
Definition shows_green (l : @light F64) : bool := match signal l 0 with Some Green => true | _ => false end.
Lemma clock_ok : okb (run ex_env sim_new clock_before) (fun s => key_eqb (sm_next_key (s_lights s)) (nth_id 0) && okb (exec ex_env s (OAddLight clock_light)) (fun s1 => okb (run ex_env s1 clock_ops) (fun t => is_on t car1 lane1 && only_light t && exit_open t))) &&
  okb (lrun (clock_light ++ map LStep [fz 1; fz 1])) shows_green = true.
Proof. vm_compute. reflexivity. Qed.
Example C94_example : exists (s s1 t : @sim F64) l lk, reachable s /\ exec ex_env s (OAddLight clock_light) = Ok s1 /\ history s1 clock_ops t /\ durations clock_ops = [fz 1; fz 1] /\
  is_on t car1 lane1 = true /\ lrun (clock_light ++ map LStep [fz 1; fz 1]) = Ok l /\ sm_get (s_lights t) (sm_next_key (s_lights s)) = Some l /\ signal l 0 = Some Green /\
  controls l 0 exit1 /\ link_at t exit1 = Some lk /\ lk_control lk = COpen.
Proof.
  pose proof clock_ok as H. apply andb_prop in H. destruct H as (H & Hg). destruct (okb_ok _ _ H) as (s & H0 & Ha). apply andb_prop in Ha. destruct Ha as (Ek & Ha). apply key_eqb_eq in Ek. destruct (okb_ok _ _ Ha) as (s1 & H1 & Hb). destruct (okb_ok _ _ Hb) as (t & H2 & Hc). apply andb_prop in Hc. destruct Hc as (Hc & Ho). apply andb_prop in Hc. destruct Hc as (Hi & Hl).
  destruct (okb_ok _ _ Hg) as (l & Hr & Hs). assert (reachable s) as Re by (eapply history_reachable; [eapply run_history; exact H0|constructor]). assert (history s1 clock_ops t) as Hh by (eapply run_history; exact H2).
  destruct (C94_clock _ _ _ _ _ _ Re H1 Hh) as (l' & G & R'). change (durations clock_ops) with [fz 1; fz 1] in R'. rewrite Hr in R'. injection R' as <-.
  unfold exit_open in Ho. destruct (sm_get (s_links t) exit1) as [lk|] eqn:Gl; [|discriminate Ho]. exists s, s1, t, l, lk. split; [exact Re|]. split; [exact H1|]. split; [exact Hh|]. split; [reflexivity|]. split; [exact Hi|]. split; [exact Hr|]. split; [exact G|].
  split; [unfold shows_green in Hs; destruct (signal l 0) as [[]|]; congruence|]. split; [|split; [exact Gl|destruct (lk_control lk); congruence]].
  rewrite Ek in G. apply in_entries in G. unfold only_light in Hl. destruct (sm_entries (s_lights t)) as [|(k & l2) [|]]; try discriminate Hl. destruct G as [G|[]]. injection G as _ ->.
  destruct (l_mlinks l) as [|([|], lid) [|]] eqn:El; try discriminate Hl. apply andb_prop in Hl. destruct Hl as (E1 & _). apply key_eqb_eq in E1. subst. unfold controls. rewrite El. left. reflexivity.
Qed.
