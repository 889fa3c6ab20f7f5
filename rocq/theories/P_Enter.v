(** * Entering links and giving way (C23, C49) *)
From Coq Require Import List Bool ZArith NArith Arith Lia Reals Lra.
From Flocq Require Import Core IEEE754.BinarySingleNaN.
From Verif Require Import Arith F64 RealArith Base BaseProofs SlotMap Util Geom Light Accel Net Path Vehicle LinkOps Sim SpecLight SpecSim SpecMotion SpecKin SpecEnter SlotMapProofs Safe NetInv SimInv StepSafe OpSafe Evo StepEvo SimProofs StepProofs Ord FloatLaws LogProofs Motion RFacts EnterProofs SimExample P_Sim P_Motion P_Accel.
Import ListNotations.

Section Enter.
  Context {A : Arith}.

  Lemma same_length (a b : linkset) k l : same_net a b -> sm_get b k = Some l -> exists l0, sm_get a k = Some l0 /\ lk_length l0 = lk_length l.
  Proof. intros S G. destruct (same_net_get _ _ _ _ S G) as (l0 & G0 & E). exists l0. split; auto. unfold lk_static in E. unfold lk_length. inversion E. congruence. Qed.
  Lemma run_same s s1 : same_net (s_links s) (s_links s1) -> forall x, run_length s1 x -> run_length s x.
  Proof.
    intros S x H. induction H as [k l G|x k l H IH G]; destruct (same_length _ _ _ _ S G) as (l0 & G0 & <-); [eapply run_one|eapply run_more]; eauto.
  Qed.
  Lemma add_up_same s s1 : same_net (s_links s) (s_links s1) -> lengths_add_up s -> lengths_add_up s1.
  Proof. intros S Ad x k l H G. destruct (same_length _ _ _ _ S G) as (l0 & G0 & <-). apply Ad with k; auto. eapply run_same; eauto. Qed.

  Lemma integrate_queue_ok v dt q q' v' : integrate v dt q = Ok (q', v') ->
    v_flag v = 0 /\ v_entered v' = v_entered v /\ v_queued v' = v_queued v \/
    v_flag v = 1 /\ v_entered v' = v_entered v /\ v_queued v' = match v_queued v with Some q => Some q | None => Some (S q) end \/
    v_flag v = 2 /\ v_entered v' = S (v_entered v) /\ v_queued v' = None.
  Proof.
    unfold integrate, integrate_queue. intros H. destruct (v_flag v) as [|[|[|n]]]; cbn [bind] in H; try discriminate H; injection H as <- <-; cbn; auto 8.
  Qed.

  Lemma body_queued v v' : body v' = body v -> v_queued v' = v_queued v.
  Proof. unfold body. intros H. injection H as E1 E2 E3 E4 E5 E6 E7 E8 E9 E10. exact E8. Qed.

  (** What an acceleration update does to the flags. *)
  Lemma parts_ctx e s1 s2 links vs log1 log : St (s_links s1) (s_vehicles s1) (s_seq s1) -> parts e s1 s2 links vs log1 log ->
    (forall k l, sm_get links k = Some l -> exists l0, link_at s1 k = Some l0 /\ exists b, l = set_lk_active l0 b) /\
    (forall k, sm_get vs k = option_map v_reset (vehicle_at s1 k)) /\
    (forall k v, sm_get vs k = Some v -> 1 <= v_entered v <= length (v_route v)) /\ adds is_acc log1 log.
  Proof.
    intros St1 P. split; [exact (pt_lists _ _ _ _ _ _ _ P)|]. split; [exact (pt_veh _ _ _ _ _ _ _ P)|]. split.
    - intros k v G. rewrite (pt_veh _ _ _ _ _ _ _ P) in G. destruct (sm_get (s_vehicles s1) k) as [v0|] eqn:G0; [|discriminate G]. injection G as <-.
      change (v_entered (v_reset v0)) with (v_entered v0). change (v_route (v_reset v0)) with (v_route v0). apply (vb_ent _ _ _ _ (st_veh _ _ _ St1 _ _ G0)).
    - eapply link_accelerations_adds; [exact (pt_net _ _ _ _ _ _ _ P)|exact (pt_listed _ _ _ _ _ _ _ P)|exact (pt_link _ _ _ _ _ _ _ P)].
  Qed.
  Lemma flag_after k log1 log : adds is_acc log1 log -> log_flag k 0 log = log_flag k 0 log1.
  Proof.
    intros (n & -> & F). induction n as [|x n IH]; [reflexivity|]. inversion F; subst. cbn [app log_flag]. destruct x; try contradiction; auto.
  Qed.

  Lemma step_enter e s dt s' k v' : Inv s -> step e s dt = Ok s' -> vehicle_at s' k = Some v' ->
    exists s1 s2 v v1 v4 f, vehicle_at s k = Some v /\ calculate_lane_changes e s = Ok s1 /\ vehicle_at s1 k = Some v1 /\
      St (s_links s1) (s_vehicles s1) (s_seq s1) /\ same_net (s_links s) (s_links s1) /\
      v_queued v1 = v_queued v /\ Rent v v1 /\ v_route v4 = v_route v1 /\
      (f = 0 /\ v_entered v4 = v_entered v1 /\ v_queued v4 = v_queued v1 \/
       f = 1 /\ v_entered v4 = v_entered v1 /\ (v_queued v1 <> None -> v_queued v4 = v_queued v1) /\ v_queued v4 <> None \/
       f = 2 /\ v_entered v4 = S (v_entered v1) /\ v_queued v4 = None) /\
      (v_route v' = v_route v4 /\ v_entered v' = v_entered v4 \/ v_route v' = tl (v_route v4) /\ v_entered v' = Nat.max (Nat.pred (v_entered v4)) 1) /\
      v_queued v' = v_queued v4 /\
      (nltb (s_acc_update s) ACCELERATION_UPDATE_SEC = true /\ f = 0 \/
       nltb (s_acc_update s) ACCELERATION_UPDATE_SEC = false /\ exists links vs log1 log, parts e s1 s2 links vs log1 log /\ f = log_flag k 0 log1).
  Proof.
    intros I H G'. destruct (step_vehicle_parts _ _ _ _ _ _ I H G') as (s1 & s2 & s3 & s4 & s5 & v & v1 & v2 & v4 & v5 & q & q' & P & G & G1 & G2 & G4 & R1 & Kp & Hi & R5 & R6).
    exists s1, s2, v, v1, v4, (v_flag v2). split; [exact G|]. pose proof (ph1 _ _ _ _ _ _ _ _ _ P) as H1. split; [exact H1|]. split; [exact G1|].
    pose proof (ps1 _ _ _ _ _ _ _ _ _ P) as St1. split; [exact St1|]. split; [exact (pn1 _ _ _ _ _ _ _ _ _ P)|].
    destruct R1 as (B1 & _ & Re). pose proof (body_queued _ _ B1) as Q1. split; [exact Q1|]. split; [exact Re|].
    destruct Kp as (a & f & Ek). assert (v_route v2 = v_route v1 /\ v_entered v2 = v_entered v1 /\ v_queued v2 = v_queued v1) as (X1 & X2 & X3) by (rewrite Ek; cbn; auto).
    destruct (integrate_ok _ _ _ _ _ Hi) as (_ & _ & _ & _ & _ & _ & D1 & _). split; [congruence|]. split.
    { destruct (integrate_queue_ok _ _ _ _ _ Hi) as [(F & E1 & E2)|[(F & E1 & E2)|(F & E1 & E2)]]; rewrite F; rewrite X2 in E1; try rewrite X3 in E2; [left; auto|right; left|right; right; auto].
      split; [reflexivity|]. split; [exact E1|]. split; [intros Nq|]; rewrite E2; destruct (v_queued v1); congruence. }
    destruct R6 as (B6 & _ & _ & Rt6 & En6 & _). pose proof (body_queued _ _ B6) as Q6. destruct R5 as (lid & l & _ & _ & R5).
    split. { destruct R5 as [(_ & ->)|(_ & _ & E5 & _ & _ & _ & N5)]; [left; auto|right; split; congruence]. }
    split. { rewrite Q6. destruct R5 as [(_ & ->)|(_ & B5 & _)]; [reflexivity|]. exact (body_queued _ _ B5). }
    destruct (lc_fields _ _ _ H1) as (_ & _ & _ & _ & Eu & _). pose proof (ph2 _ _ _ _ _ _ _ _ _ P) as H2.
    destruct (nltb (s_acc_update s) ACCELERATION_UPDATE_SEC) eqn:D; [left|right]; (split; [reflexivity|]).
    - assert (s2 = s1) as E2 by (eapply acc_kept; [|exact H2]; congruence). subst s2. exact (pf1 _ _ _ _ _ _ _ _ _ P _ _ G2).
    - destruct (step_motion _ _ _ _ _ _ I H G') as (v0 & t1 & t2 & w1 & w2 & _ & T1 & T2 & _ & _ & _ & _ & _ & _ & _ & _ & _ & _ & _ & Cp).
      assert (t1 = s1) by congruence. subst t1. rewrite <- Eu in D. destruct (acc_parts _ _ _ St1 Cp H2 D) as (links & vs & log1 & log & Pt).
      exists links, vs, log1, log. split; [exact Pt|]. destruct (parts_ctx _ _ _ _ _ _ _ St1 Pt) as (_ & _ & _ & Ad). rewrite <- (flag_after _ _ _ Ad).
      pose proof (pt_out _ _ _ _ _ _ _ Pt _ _ G1) as Go. rewrite G2 in Go. injection Go as ->. cbn. rewrite (pf1 _ _ _ _ _ _ _ _ _ P _ _ G1). reflexivity.
  Qed.
  Lemma parts_reasons e s1 s2 links vs log1 log : St (s_links s1) (s_vehicles s1) (s_seq s1) -> lengths_add_up s1 -> parts e s1 s2 links vs log1 log ->
    reasons s1 links vs log1.
  Proof.
    intros St1 Add P. destruct (parts_ctx _ _ _ _ _ _ _ St1 P) as (HL & HV & Ent & _).
    refine (sim_stoplines_reasons s1 links vs HL HV (pt_net _ _ _ _ _ _ _ P) (pt_listed _ _ _ _ _ _ _ P) (pt_chain _ _ _ _ _ _ _ P) Ent Add _ _ _ _ (pt_stop _ _ _ _ _ _ _ P)).
    split; [constructor|]. intros ? ? [].
  Qed.
  Lemma nth_firstn_S {X} (l : list X) n x : In x (firstn (S n) l) -> In x (firstn n l) \/ nth_error l n = Some x.
  Proof. revert n. induction l as [|y l IH]; intros n H; [destruct n; destruct H|]. destruct n; cbn in *; [destruct H as [->|[]]; auto|]. destruct H as [->|H]; auto. destruct (IH _ H); auto. Qed.
  Lemma tl_firstn {X} (l : list X) n x : In x (firstn (Nat.max (Nat.pred n) 1) (tl l)) -> hd_error (tl l) = Some x \/ In x (firstn n l).
  Proof.
    destruct l as [|y l]; [destruct n as [|[|]]; intros []|]. cbn [tl]. destruct n as [|[|n]]; [| |cbn [Nat.pred]; replace (Nat.max (S n) 1) with (S n) by lia; cbn [firstn]; intros H; right; right; exact H];
      cbn; (destruct l; [intros []|intros [->|[]]; auto]).
  Qed.
  Lemma entered_after v v1 v4 v' f (B : key -> Prop) : Rent v v1 -> v_route v4 = v_route v1 ->
    (f = 0 /\ v_entered v4 = v_entered v1 /\ v_queued v4 = v_queued v1 \/
     f = 1 /\ v_entered v4 = v_entered v1 /\ (v_queued v1 <> None -> v_queued v4 = v_queued v1) /\ v_queued v4 <> None \/
     f = 2 /\ v_entered v4 = S (v_entered v1) /\ v_queued v4 = None) ->
    (v_route v' = v_route v4 /\ v_entered v' = v_entered v4 \/ v_route v' = tl (v_route v4) /\ v_entered v' = Nat.max (Nat.pred (v_entered v4)) 1) ->
    forall x, In x (entered_links v') -> v_link v' = Some x \/ v_link v1 = Some x \/ In x (entered_links v) \/ f = 2 /\ next_link v1 = Some x.
  Proof.
    intros Re E4 C4 C5 x H.
    assert (In x (entered_links v4) -> v_link v1 = Some x \/ In x (entered_links v) \/ f = 2 /\ next_link v1 = Some x) as K4.
    { unfold entered_links, next_link. rewrite E4. destruct C4 as [(-> & -> & _)|[(-> & -> & _)|(-> & -> & _)]]; intros Q; [destruct (Re _ Q); auto|destruct (Re _ Q); auto|].
      destruct (nth_firstn_S _ _ _ Q) as [Q1|Q1]; [destruct (Re _ Q1); auto|auto]. }
    destruct C5 as [(E5 & N5)|(E5 & N5)]; unfold entered_links in H; rewrite E5, N5 in H; [right; auto|]. destruct (tl_firstn _ _ _ H) as [Q|Q]; [|right; auto].
    left. unfold v_link. rewrite E5. exact Q.
  Qed.

  (** The decision at the line. *)
  Lemma line_result e s1 s2 links vs log1 log lid l k v x lx : St (s_links s1) (s_vehicles s1) (s_seq s1) -> parts e s1 s2 links vs log1 log ->
    link_at s1 lid = Some l -> first_at_line s1 l k v -> next_link v = Some x -> link_at s1 x = Some lx ->
    (must_wait s1 v l lx -> In (EAcc k (vx_stop_at_line v (nadd (lk_length l) n0))) log) /\
    (let_in s1 v l lx -> In (EFlag k 2) log1) /\
    (lines_up v l lx -> In (EFlag k 1) log1).
  Proof.
    intros St1 P Gl (behind & ahead & Ev & Ha & Gv & E1 & Np) Nx Gx. destruct (parts_ctx _ _ _ _ _ _ _ St1 P) as (HL & HV & Ent & Ad).
    assert (exists b, sm_get links lid = Some (set_lk_active l b)) as (b0 & Gl').
    { assert (valid links lid) as V by (apply (same_net_valid _ _ _ (pt_same _ _ _ _ _ _ _ P)); apply sm_mem_get; eauto). unfold valid in V. apply sm_mem_get in V. destruct V as (l' & Gl'). destruct (HL _ _ Gl') as (l0 & G0 & b & ->). unfold link_at in *. exists b. congruence. }
    assert (forall kw w, In kw (lk_vehicles l) -> vehicle_at s1 kw = Some w -> v_link w = Some lid) as Hon.
    { intros kw w Hi Gw. destruct (st_occ _ _ _ St1 _ _ Gl) as (_ & Oc). apply Oc in Hi. unfold at_of in Hi. unfold vehicle_at in Gw. rewrite Gw in Hi. exact Hi. }
    assert (v_link v = Some lid) as Lv. { apply (Hon k); auto. rewrite Ev. apply in_app_iff. simpl. auto. }
    assert (sm_get vs k = Some (v_reset v)) as Gv' by (rewrite HV, Gv; reflexivity).
    assert (lk_id l = lid) as Eid by exact (lo_id _ _ _ (nk_link _ (pt_net _ _ _ _ _ _ _ P) _ _ Gl')).
    destruct (stoplines_front links vs (pt_net _ _ _ _ _ _ _ P) (pt_listed _ _ _ _ _ _ _ P) (pt_chain _ _ _ _ _ _ _ P) Ent _ _ _ lid (set_lk_active l b0) behind ahead k (v_reset v) ltac:(constructor) (pt_stop _ _ _ _ _ _ _ P) Gl')
      as (log0 & lg & bb & L0 & Hcb & A1).
    { exact (pt_cur _ _ _ _ _ _ _ P k (v_reset v) lid _ Gv' Lv Gl'). }
    { exact Ev. }
    { split; [|split; [exact Gv'|split; [change (v_link v = Some (lk_id l)); congruence|split; [exact E1|exact Np]]]].
      intros kw Hk. destruct (Ha kw Hk) as (w & Gw & Ew & Pw). exists (v_reset w). rewrite HV, Gw. split; [reflexivity|]. split; [|split; [exact Ew|exact Pw]].
      change (v_link w = Some (lk_id l)). rewrite Eid. apply (Hon kw); auto. rewrite Ev. apply in_app_iff. simpl. auto. }
    unfold stopline_cb in Hcb. unfold next_link in Nx. rewrite E1 in Nx. unfold rv_route, get_route in Hcb. cbn [rv_veh rv_idx Nat.add] in Hcb.
    change (v_route (v_reset v)) with (v_route v) in Hcb. change (v_entered (v_reset v)) with (v_entered v) in Hcb. change (v_queued (v_reset v)) with (v_queued v) in Hcb.
    rewrite Nx, E1 in Hcb. cbn [option_map Nat.ltb Nat.leb Nat.eqb] in Hcb.
    assert (exists b, sm_get links x = Some (set_lk_active lx b)) as (bx & Gx').
    { assert (valid links x) as V by (apply (same_net_valid _ _ _ (pt_same _ _ _ _ _ _ _ P)); apply sm_mem_get; eauto). unfold valid in V. apply sm_mem_get in V. destruct V as (l' & G1). destruct (HL _ _ G1) as (l0 & G0 & b & ->). unfold link_at in *. exists b. congruence. }
    assert (forall z, In z lg -> In z log1) as K1 by (intros z; apply (adds_in _ _ _ _ A1)). assert (forall z, In z log1 -> In z log) as K2 by (intros z; apply (adds_in _ _ _ _ Ad)).
    unfold get_link in Hcb. rewrite Gx' in Hcb. cbn [of_option bind] in Hcb. change (lk_control (set_lk_active lx bx)) with (lk_control lx) in Hcb.
    unfold must_wait, let_in, lines_up. destruct (v_queued v) as [since|] eqn:Eq.
    - cut ((lk_control lx = CClosed \/ (exists dist must_stop prio, lk_control lx = CYield dist must_stop prio /\ (Some since = None \/ exists q, Some since = Some q /\ ~ all_gaps s1 v l lx prio q)) -> In (EAcc k (vx_stop_at_line v (nadd (lk_length l) n0))) log) /\
           (lk_control lx = COpen /\ can_stop v (nadd (lk_length l) (nofZ (-5))) = false \/ (exists dist must_stop prio q, lk_control lx = CYield dist must_stop prio /\ Some since = Some q /\ all_gaps s1 v l lx prio q) -> In (EFlag k 2) log1)).
      { intros (C1 & C2). split; [exact C1|]. split; [exact C2|]. intros (Q & _). discriminate Q. }
      destruct (lk_control lx) as [|d m p|] eqn:Co.
      + split; [intros [D|(d & m & p & D & _)]; discriminate D|]. intros [(_ & D)|(d & m & p & q & D & _)]; [|discriminate D].
        unfold rv_can_stop in Hcb. cbn [rv_veh rv_pos] in Hcb. change (can_stop (v_reset v)) with (can_stop v) in Hcb. change (lk_length (set_lk_active l b0)) with (lk_length l) in Hcb. rewrite D in Hcb. cbn [negb] in Hcb. injection Hcb as <- _. apply K1. left. reflexivity.
      + bok Hcb bl Hbl. destruct bl as [bq lq]. cbn [fst snd] in Hcb.
        pose proof (can_enter_exact s1 links vs HL HV (pt_net _ _ _ _ _ _ _ P) _ x lx bx (lk_length l) (RV k (v_reset v) 0 (lk_length l)) since p log0 bq lq v L0 Gx' eq_refl Hbl) as Ex. cbn [rv_pos] in Ex.
        split.
        * intros [D|(d' & m' & p' & D & [Q|(q & Q & Ng)])]; try discriminate. injection D as <- <- <-. injection Q as <-. destruct bq; [exfalso; apply Ng, Ex; reflexivity|].
          injection Hcb as <- _. apply K2, K1. left. reflexivity.
        * intros [(D & _)|(d' & m' & p' & q & D & Q & Gs)]; try discriminate. injection D as <- <- <-. injection Q as <-. rewrite (proj2 Ex Gs) in Hcb. injection Hcb as <- _. apply K1. left. reflexivity.
      + injection Hcb as <- _. split; [intros _; apply K2, K1; left; reflexivity|]. intros [(D & _)|(d & m & p & q & D & _)]; discriminate D.
    - destruct (lk_control lx) as [|d m p|] eqn:Co.
      + split; [intros [D|(d & m & p & D & _)]; discriminate D|]. split; [|intros (_ & d & m & p & D & _); discriminate D]. intros [(_ & D)|(d & m & p & q & D & _)]; [|discriminate D].
        unfold rv_can_stop in Hcb. cbn [rv_veh rv_pos] in Hcb. change (can_stop (v_reset v)) with (can_stop v) in Hcb. change (lk_length (set_lk_active l b0)) with (lk_length l) in Hcb. rewrite D in Hcb. cbn [negb] in Hcb. injection Hcb as <- _. apply K1. left. reflexivity.
      + injection Hcb as <- _. split; [intros _; apply K2, K1; left; reflexivity|]. split; [intros [(D & _)|(d' & m' & p' & q & _ & D & _)]; discriminate D|].
        intros (_ & d' & m' & p' & D & Cl & Sp). injection D as <- <- <-. apply K1. right. unfold rv_front. cbn [rv_veh rv_pos]. change (pos_front (v_reset v)) with (pos_front v). change (lk_length (set_lk_active l b0)) with (lk_length l). rewrite Cl.
        assert (negb m || has_stopped (v_reset v) = true) as ->. { destruct m; [|reflexivity]. exact (Sp eq_refl). }
        left. reflexivity.
      + injection Hcb as <- _. split; [intros _; apply K2, K1; left; reflexivity|]. split; [intros [(D & _)|(d & m & p & q & D & _)]; discriminate D|]. intros (_ & d & m & p & D & _). discriminate D.
  Qed.

  (** The flag of a vehicle that is let in. *)
  Lemma flag_2 k log : In (EFlag k 2) log -> (forall f, In (EFlag k f) log -> f = 2) -> log_flag k 0 log = 2.
  Proof.
    intros H K. destruct (log_flag_in k 0 log) as [E|E]; [|apply K, E]. exfalso. assert (log_flag k 0 log <> 0) as Nz; [|contradiction].
    clear E. revert H K. induction log as [|y log IH]; intros H K; [destruct H|]. cbn [log_flag]. destruct y as [i a|i g|i a].
    - apply IH; [destruct H as [H|H]; [discriminate H|exact H]|]. intros f Hf. apply K. right. exact Hf.
    - destruct (key_eqb_spec i k) as [->|Ne]; [rewrite (K g (or_introl eq_refl)); discriminate|]. apply IH; [destruct H as [H|H]; [congruence|exact H]|]. intros f Hf. apply K. right. exact Hf.
    - apply IH; [destruct H as [H|H]; [discriminate H|exact H]|]. intros f Hf. apply K. right. exact Hf.
  Qed.
  Lemma flag_1 k log : In (EFlag k 1) log -> (forall f, In (EFlag k f) log -> f = 1) -> log_flag k 0 log = 1.
  Proof.
    intros H K. destruct (log_flag_in k 0 log) as [E|E]; [|apply K, E]. exfalso. assert (log_flag k 0 log <> 0) as Nz; [|contradiction].
    clear E. revert H K. induction log as [|y log IH]; intros H K; [destruct H|]. cbn [log_flag]. destruct y as [i a|i g|i a].
    - apply IH; [destruct H as [H|H]; [discriminate H|exact H]|]. intros f Hf. apply K. right. exact Hf.
    - destruct (key_eqb_spec i k) as [->|Ne]; [rewrite (K g (or_introl eq_refl)); discriminate|]. apply IH; [destruct H as [H|H]; [congruence|exact H]|]. intros f Hf. apply K. right. exact Hf.
    - apply IH; [destruct H as [H|H]; [discriminate H|exact H]|]. intros f Hf. apply K. right. exact Hf.
  Qed.
  Lemma in_entered_after (r r' : list key) n n' x : nth_error r 1 = Some x -> n = 2 -> (r' = r /\ n' = n \/ r' = tl r /\ n' = Nat.max (Nat.pred n) 1) -> In x (firstn n' r').
  Proof.
    intros H -> C. destruct r as [|a [|b r]]; try discriminate H. cbn in H. injection H as ->. destruct C as [(-> & ->)|(-> & ->)]; cbn; auto.
  Qed.
End Enter.

(** ** C23: no vehicle is let into a closed link *)
(** Whatever links a vehicle has entered after a step, it is on them, was on them, had entered them
    before, or was let in during the acceleration update of that step, for which [may_enter] gives
    the conditions.  [s1] is the simulation after the lane changes at the start of the step. *)
Theorem C23_entered :
  forall (A : Arith) e s dt s' k v' x, reachable s -> lengths_add_up s -> step e s dt = Ok s' -> vehicle_at s' k = Some v' -> In x (entered_links v') ->
    exists s1 v v1, vehicle_at s k = Some v /\ calculate_lane_changes e s = Ok s1 /\ vehicle_at s1 k = Some v1 /\
      (v_link v' = Some x \/ v_link v1 = Some x \/ In x (entered_links v) \/ next_link v1 = Some x /\ may_enter s1 v1 x).
Proof.
  intros A e s dt s' k v' x R Add H G' Hx. pose proof (reachable_Inv _ R) as I.
  destruct (step_enter _ _ _ _ _ _ I H G') as (s1 & s2 & v & v1 & v4 & f & G & H1 & G1 & St1 & Sn & Q1 & Re & E4 & C4 & C5 & Q5 & F).
  exists s1, v, v1. repeat (split; [assumption|]).
  destruct (entered_after _ _ _ _ _ (fun _ => True) Re E4 C4 C5 _ Hx) as [D|[D|[D|(-> & D)]]]; auto. right. right. right. split; [exact D|].
  destruct F as [(_ & F)|(_ & links & vs & log1 & log & P & F)]; [discriminate F|].
  destruct (parts_reasons _ _ _ _ _ _ _ St1 (add_up_same _ _ Sn Add) P) as (_ & Rs).
  destruct (log_flag_in k 0 log1) as [E|Hin]; rewrite <- F in *; [discriminate E|].
  destruct (Rs _ _ Hin) as (w & y & Gw & Ny & [(E & _)|(_ & M)]); [discriminate E|]. assert (w = v1) by congruence. subst w. congruence.
Qed.
Print Assumptions C23_entered.
(** A vehicle starts to wait only where it may. *)
Theorem C23_queued :
  forall (A : Arith) e s dt s' k v v' q, reachable s -> lengths_add_up s -> step e s dt = Ok s' -> vehicle_at s k = Some v -> vehicle_at s' k = Some v' ->
    v_queued v = None -> v_queued v' = Some q ->
    exists s1 v1 x, calculate_lane_changes e s = Ok s1 /\ vehicle_at s1 k = Some v1 /\ next_link v1 = Some x /\ may_queue s1 v1 x.
Proof.
  intros A e s dt s' k v v' q R Add H G G' Qv Qv'. pose proof (reachable_Inv _ R) as I.
  destruct (step_enter _ _ _ _ _ _ I H G') as (s1 & s2 & v0 & v1 & v4 & f & G0 & H1 & G1 & St1 & Sn & Q1 & Re & E4 & C4 & C5 & Q5 & F).
  assert (v0 = v) by congruence. subst v0.
  destruct C4 as [(_ & _ & C)|[(-> & _)|(_ & _ & C)]]; [congruence| |congruence].
  destruct F as [(_ & F)|(_ & links & vs & log1 & log & P & F)]; [discriminate F|].
  destruct (parts_reasons _ _ _ _ _ _ _ St1 (add_up_same _ _ Sn Add) P) as (_ & Rs).
  destruct (log_flag_in k 0 log1) as [E|Hin]; rewrite <- F in *; [discriminate E|].
  destruct (Rs _ _ Hin) as (w & y & Gw & Ny & [(_ & M)|(E & _)]); [|discriminate E]. assert (w = v1) by congruence. subst w. exists s1, v1, y. auto.
Qed.
Print Assumptions C23_queued.
(** The number of entered links is between one and the length of the route. *)
Theorem C23_count :
  forall (A : Arith) s k v, reachable s -> vehicle_at s k = Some v -> 1 <= v_entered v <= length (v_route v).
Proof. intros A s k v R G. exact (vb_ent _ _ _ _ (st_veh _ _ _ (i_st _ (reachable_Inv _ R)) _ _ G)). Qed.
Print Assumptions C23_count.
(** A vehicle that is first at the end of its link and whose next link is closed, or is a yield link
    for which it does not wait yet or where a gap is missing, brakes for the stop line. *)
Theorem C23_held :
  forall e ops s dt s1 s' lid l k v v' x lx, history (@sim_new F64) ops s -> step e s dt = Ok s' -> due (lit 1 10) ops = true ->
    calculate_lane_changes e s = Ok s1 -> link_at s1 lid = Some l -> first_at_line s1 l k v -> vehicle_at s' k = Some v' ->
    next_link v = Some x -> link_at s1 x = Some lx -> must_wait s1 v l lx ->
    let y := driver_model v (nsub (nadd (lk_length l) n0) (pos_front v)) n0 in
    nnan y = false -> nleb (acceleration v') (nmax y full_braking) = true.
Proof.
  intros e ops s dt s1 s' lid l k v v' x lx Hh H D H1 Gl Fl G' Nx Gx Mw y Ny.
  pose proof (history_Inv _ _ _ Hh Inv_new) as I. pose proof (history_timers _ _ Hh) as (T & _). pose proof (due_true _ _ _ T D) as D'.
  destruct (step_motion _ _ _ _ _ _ I H G') as (v0 & t1 & t2 & w1 & w2 & G0 & H1' & _ & _ & _ & _ & _ & _ & _ & _ & _ & St1 & _). assert (t1 = s1) by congruence. subst t1.
  refine (refresh_bound F64_ord decel_nan e s dt s' k v0 v' y I H G0 G' D' Ny _).
  intros t1 t3 links vs log1 log E1 P. assert (t1 = s1) by congruence. subst t1.
  destruct (line_result _ _ _ _ _ _ _ _ _ _ _ _ _ St1 P Gl Fl Nx Gx) as (K & _). exact (K Mw).
Qed.
Print Assumptions C23_held.
(** A vehicle that is first at the end of its link and may go is let in. *)
Theorem C23_let_in :
  forall (A : Arith) e ops s dt s1 s' lid l k v v' x lx, history sim_new ops s -> lengths_add_up s -> step e s dt = Ok s' -> due (lit 1 10) ops = true ->
    calculate_lane_changes e s = Ok s1 -> link_at s1 lid = Some l -> first_at_line s1 l k v -> vehicle_at s' k = Some v' ->
    next_link v = Some x -> link_at s1 x = Some lx -> let_in s1 v l lx -> In x (entered_links v').
Proof.
  intros A e ops s dt s1 s' lid l k v v' x lx Hh Add H D H1 Gl Fl G' Nx Gx Li.
  pose proof (history_Inv _ _ _ Hh Inv_new) as I. pose proof (history_timers _ _ Hh) as (T & _). pose proof (due_true _ _ _ T D) as D'.
  destruct (step_enter _ _ _ _ _ _ I H G') as (t1 & s2 & v0 & v1 & v4 & f & G & H1' & G1 & St1 & Sn & Q1 & Re & E4 & C4 & C5 & Q5 & F).
  assert (t1 = s1) by congruence. subst t1. pose proof Fl as (_ & _ & _ & _ & Gv & E1 & _). assert (v1 = v) by congruence. subst v1.
  destruct F as [(F & _)|(_ & links & vs & log1 & log & P & F)]; [unfold ACCELERATION_UPDATE_SEC in F; congruence|].
  destruct (line_result _ _ _ _ _ _ _ _ _ _ _ _ _ St1 P Gl Fl Nx Gx) as (_ & K & _). specialize (K Li).
  assert (f = 2) as ->.
  { rewrite F. apply flag_2; [exact K|]. intros g Hg. destruct (parts_reasons _ _ _ _ _ _ _ St1 (add_up_same _ _ Sn Add) P) as (_ & Rs).
    destruct (Rs _ _ Hg) as (w & y & Gw & Ny & [(_ & M)|(E & _)]); [|exact E]. exfalso. assert (w = v) by congruence. subst w. assert (y = x) by congruence. subst y.
    destruct M as (Qn & l' & d & m & p & pos & Gl' & Co & _). assert (l' = lx) by congruence. subst l'. destruct Li as [(Co' & _)|(d' & m' & p' & q' & _ & Qs & _)]; congruence. }
  destruct C4 as [(C & _)|[(C & _)|(_ & En & _)]]; try discriminate C. unfold next_link in Nx. rewrite E1 in Nx, En. rewrite <- E4 in Nx.
  unfold entered_links. eapply in_entered_after; eauto.
Qed.
Print Assumptions C23_let_in.
(** A vehicle that is first at the end of its link, near enough to the yield link that comes next, and has stopped if it must,
    waits for it afterwards. *)
Theorem C23_lines_up :
  forall (A : Arith) e ops s dt s1 s' lid l k v v' x lx, history sim_new ops s -> lengths_add_up s -> step e s dt = Ok s' -> due (lit 1 10) ops = true ->
    calculate_lane_changes e s = Ok s1 -> link_at s1 lid = Some l -> first_at_line s1 l k v -> vehicle_at s' k = Some v' ->
    next_link v = Some x -> link_at s1 x = Some lx -> lines_up v l lx -> exists since, v_queued v' = Some since.
Proof.
  intros A e ops s dt s1 s' lid l k v v' x lx Hh Add H D H1 Gl Fl G' Nx Gx Li.
  pose proof (history_Inv _ _ _ Hh Inv_new) as I. pose proof (history_timers _ _ Hh) as (T & _). pose proof (due_true _ _ _ T D) as D'.
  destruct (step_enter _ _ _ _ _ _ I H G') as (t1 & s2 & v0 & v1 & v4 & f & G & H1' & G1 & St1 & Sn & Q1 & Re & E4 & C4 & C5 & Q5 & F).
  assert (t1 = s1) by congruence. subst t1. pose proof Fl as (_ & _ & _ & _ & Gv & E1 & _). assert (v1 = v) by congruence. subst v1.
  destruct F as [(F & _)|(_ & links & vs & log1 & log & P & F)]; [unfold ACCELERATION_UPDATE_SEC in F; congruence|].
  destruct (line_result _ _ _ _ _ _ _ _ _ _ _ _ _ St1 P Gl Fl Nx Gx) as (_ & _ & K). specialize (K Li). destruct Li as (Qn & d & m & p & Co & _).
  assert (f = 1) as ->.
  { rewrite F. apply flag_1; [exact K|]. intros g Hg. destruct (parts_reasons _ _ _ _ _ _ _ St1 (add_up_same _ _ Sn Add) P) as (_ & Rs).
    destruct (Rs _ _ Hg) as (w & y & Gw & Ny & [(E & _)|(_ & M)]); [exact E|]. exfalso. assert (w = v) by congruence. subst w. assert (y = x) by congruence. subst y.
    destruct M as (l' & Gl' & [Co'|(d' & m' & p' & q' & self & ls & pos & _ & Qs & _)]); [assert (l' = lx) by congruence; subst l'; congruence|congruence]. }
  destruct C4 as [(C & _)|[(_ & _ & _ & Nq)|(C & _)]]; try discriminate C. rewrite Q5. destruct (v_queued v4) as [q|]; [eauto|congruence].
Qed.
Print Assumptions C23_lines_up.

(** Lengths add up in exact arithmetic if all are positive, and in binary64 if all are between a
    millimetre and a million kilometres. *)
Theorem C23_lengths_exact :
  forall (s : @sim RA), (forall k l, link_at s k = Some l -> (0 < (lk_length l : R))%R) -> lengths_add_up s.
Proof.
  intros s Hp. assert (forall x : R, @run_length RA s x -> (0 < x)%R) as K.
  { intros x H. induction H as [k l G|x k l H IH G]; [exact (Hp _ _ G)|]. specialize (Hp _ _ G). unR. lra. }
  intros x k l Hx G. apply ltb_R. specialize (K _ Hx). unR. lra.
Qed.
Print Assumptions C23_lengths_exact.
Local Open Scope R_scope.
Lemma milli_val : bpow radix2 (-10) <= fval (@lit F64 1 1000).
Proof.
  assert (is_finite (@lit F64 1 1000) = true) as F by reflexivity. rewrite fval_finite by exact F.
  assert (B2SF (@lit F64 1 1000) = SpecFloat.S754_finite false 4611686018427388 (-62)) as E by (vm_compute; reflexivity).
  rewrite <- SF2R_B2SF, E. simpl. unfold F2R. simpl. lra.
Qed.
Lemma giga_val : fval (@nofZ F64 1000000000) <= bpow radix2 30.
Proof.
  assert (is_finite (@nofZ F64 1000000000) = true) as F by (vm_compute; reflexivity). rewrite fval_finite by exact F.
  assert (B2SF (@nofZ F64 1000000000) = SpecFloat.S754_finite false 8388608000000000 (-23)) as E by (vm_compute; reflexivity).
  rewrite <- SF2R_B2SF, E. simpl. unfold F2R. simpl. lra.
Qed.
Lemma add_gt (x l : f64) : is_nan x = false -> bpow radix2 (-10) <= fval x -> is_finite l = true -> 0 < B2R l <= bpow radix2 30 ->
  is_nan (Bplus mode_NE x l) = false /\ fval l < fval (Bplus mode_NE x l).
Proof.
  intros Nx Hx Fl Hl. destruct (fval_nonneg_cases x Nx) as [(Fx & _)| ->]; [pose proof (bpow_gt_0 radix2 (-10)); lra| |].
  - rewrite fval_finite in Hx by exact Fx. destruct (fval_plus x l Fx Fl) as (Np & E). split; [exact Np|]. rewrite E, fval_finite by exact Fl.
    set (r := B2R l) in *. 
    assert (generic_format radix2 (SpecFloat.fexp prec emax) r) as Gr by apply generic_format_B2R.
    assert (ulp radix2 (SpecFloat.fexp prec emax) r <= bpow radix2 (-10)) as U.
    { eapply Rle_trans; [apply ulp_le_pos with (y := bpow radix2 30); try apply valid_fexp; try lra|]. { change (SpecFloat.fexp prec emax) with (FLT_exp (SpecFloat.emin prec emax) prec). apply FLT_exp_monotone. }
      rewrite ulp_bpow. apply bpow_le. vm_compute. discriminate. }
    assert (r + ulp radix2 (SpecFloat.fexp prec emax) r <= rnd (B2R x + r)) as K.
    { rewrite <- succ_eq_pos by lra. apply round_ge_generic; [apply valid_fexp|apply valid_rnd_round_mode|apply generic_format_succ; [apply valid_fexp|exact Gr]|]. rewrite succ_eq_pos by lra. lra. }
    assert (0 < ulp radix2 (SpecFloat.fexp prec emax) r) as Up. { rewrite ulp_neq_0 by lra. apply bpow_gt_0. }
    assert (bpow radix2 30 < big) by (apply bpow_lt; reflexivity).
    unfold sat. apply Rlt_le_trans with (Rmin big (rnd (B2R x + r))); [|apply Rmax_r]. apply Rmin_glb_lt; lra.
  - destruct l as [sl|sl| |sl ml el Hl']; try discriminate Fl; (split; [reflexivity|]); try (simpl in Hl; lra);
    pose proof (fval_bound _ Fl) as B; cbn [Bplus]; change (fval (B754_infinity false)) with (bpow radix2 emax); apply B.
Qed.
Local Close Scope R_scope.
Theorem C23_lengths :
  forall (s : @sim F64), (forall k l, link_at s k = Some l -> nleb (lit 1 1000) (lk_length l) = true /\ nleb (lk_length l) (nofZ 1000000000) = true) -> lengths_add_up s.
Proof.
  intros s Hp.
  assert (forall k l, link_at s k = Some l -> is_finite (lk_length l) = true /\ (bpow radix2 (-10) <= B2R (lk_length l) <= bpow radix2 30)%R) as K0.
  { intros k l G. destruct (Hp _ _ G) as (H1 & H2). apply (le_iff F64_ord) in H1, H2. destruct H1 as (_ & N & H1), H2 as (_ & _ & H2). cbn [val F64_ord] in H1, H2.
    pose proof milli_val as M. pose proof giga_val as Gg. change (is_nan (lk_length l) = false) in N.
    destruct (fval_nonneg_cases (lk_length l) N) as [(F & _)|E]; [pose proof (bpow_gt_0 radix2 (-10)); lra| |].
    - split; [exact F|]. rewrite <- fval_finite by exact F. lra.
    - exfalso. rewrite E in H2. change (fval (B754_infinity false)) with big in H2. assert (bpow radix2 30 < big)%R by (apply bpow_lt; reflexivity). lra. }
  pose proof (bpow_gt_0 radix2 (-10)) as Pz.
  assert (forall x : f64, @run_length F64 s x -> is_nan x = false /\ (bpow radix2 (-10) <= fval x)%R) as K.
  { intros x H. induction H as [k l G|x k l H IH G]; destruct (K0 _ _ G) as (F & B1 & B2).
    - split; [apply finite_not_nan; exact F|]. rewrite fval_finite by exact F. exact B1.
    - destruct IH as (N & Hx). destruct (add_gt x (lk_length l) N Hx F) as (N' & L); [lra|]. split; [exact N'|]. change (nadd x (lk_length l)) with (Bplus mode_NE x (lk_length l)).
      rewrite fval_finite in L by exact F. lra. }
  intros x k l Hx G. destruct (K0 _ _ G) as (F & B1 & B2). destruct (K _ Hx) as (N & H). destruct (add_gt x (lk_length l) N H F) as (N' & L); [lra|].
  apply (lt_iff F64_ord). split; [apply finite_not_nan; exact F|]. split; [exact N'|exact L].
Qed.
Print Assumptions C23_lengths.
(** P_Give shows concrete cases that meet the hypotheses of these theorems: C49_example (a vehicle
    that is let in) and C49_every_gap_taken_refuted (one that is held). *)
