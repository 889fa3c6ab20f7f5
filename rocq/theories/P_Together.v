(** * Two vehicles at conflicting signs (C81) *)
From Coq Require Import List Bool ZArith NArith Arith Lia Reals.
From Verif Require Import Arith F64 Base BaseProofs SlotMap Util Geom Light Accel Net Path Vehicle LinkOps Sim SpecSim SlotMapProofs Safe NetInv SimInv OpSafe Evo StepEvo SimProofs StepProofs SpecMotion Motion SpecEnter EnterProofs SimExample P_Sim P_Motion P_Step P_Enter P_Give SpecJunction JunctionProofs P_Junction.
Import ListNotations.

Section Together.
  Context {A : Arith}.
  Lemma no_past (s : sim) l p past rest : past_and_rest s l p past rest -> (forall kw, In kw (lk_vehicles l) -> exists w, vehicle_at s kw = Some w /\ nltb p (pos_rear w) = true) -> rest = [].
  Proof.
    intros (E & _ & M) H. destruct rest as [|k rest]; [reflexivity|exfalso]. destruct M as (v & G & L). destruct (H k) as (w & Gw & Lw); [|congruence].
    apply in_rev. rewrite E. apply in_app_iff. simpl. auto.
  Qed.
  Lemma first_found (s : sim) l p y k v behind ahead past others k' w rest : lk_vehicles l = behind ++ k :: ahead ->
    (forall kw, In kw (k :: ahead) -> exists w, vehicle_at s kw = Some w /\ nltb p (pos_rear w) = false) ->
    (forall kw, In kw ahead -> exists w, vehicle_at s kw = Some w /\ ~ heads_to w 1 y) -> vehicle_at s k = Some v -> heads_to v 1 y ->
    past_and_rest s l p past (others ++ k' :: rest) -> none_heads s 1 y others -> vehicle_at s k' = Some w -> heads_to w 1 y -> k' = k.
  Proof.
    intros Ev Np Nh G Hh (E & F & _) No Gw Hw. rewrite Ev, rev_app_distr in E. cbn [rev] in E.
    assert (past = []) as ->.
    { destruct past as [|kp past]; [reflexivity|exfalso]. inversion F as [|? ? (vp & Gp & Lp) _]; subst. destruct (Np kp) as (vp' & Gp' & Lp'); [|congruence].
      destruct (rev ahead) as [|ka ra] eqn:Ea; cbn in E; injection E as -> _; [left; reflexivity|right]. apply in_rev. rewrite Ea. left. reflexivity. }
    cbn [app] in E. rewrite <- app_assoc in E. cbn in E. refine (eq_sym (first_unique s 1 y (rev ahead) k (rev behind) v others k' rest w E _ No G Hh Gw Hw)).
    unfold none_heads. apply Forall_forall. intros kw Hkw. apply Nh. apply in_rev. exact Hkw.
  Qed.

  (** A vehicle that is let in leaves the conflict in time before the next one that does not give way. *)
  Lemma in_time e s dt s1 s' k1 v1 a l1 x lx p1 n1 k2 v2 b l2 y ly c : reachable s -> lengths_add_up s -> step e s dt = Ok s' -> calculate_lane_changes e s = Ok s1 ->
    at_sign s1 k1 v1 a l1 x lx p1 n1 -> just_let_in s s' k1 a x -> In c (lk_conflicts lx) -> cf_link c = y -> link_at s1 y = Some ly ->
    vehicle_at s1 k2 = Some v2 -> heads_to v2 1 y -> link_at s1 b = Some l2 -> next_to_reach s1 c y ly b l2 k2 -> ~ gives_way (precedence p1 n1 (lk_control ly)) v2 1 ->
    out_in_time v1 l1 lx c v2 l2 ly.
  Proof.
    intros R Add H H1 As (Nax & (v & Gv & Nv) & v' & G' & On' & He) Hc Ey Gy G2 H2 Gb (Hb & Hy & behind & ahead & Ev & Np & Nh) Ng. destruct (as_sign _ _ _ _ _ _ _ _ _ As) as (d & m & Co).
    destruct (C49_only_with_gaps A e s dt s1 s' k1 v v1 v' a l1 x lx d m p1 R Add H H1 Gv (as_there _ _ _ _ _ _ _ _ _ As) G' (as_on _ _ _ _ _ _ _ _ _ As) (as_link _ _ _ _ _ _ _ _ _ As) (as_entered _ _ _ _ _ _ _ _ _ As) (as_goal _ _ _ _ _ _ _ _ _ As) Co) as (n & Q & _ & Ga); [congruence|exact Nv|congruence|exact He|].
    rewrite (as_since _ _ _ _ _ _ _ _ _ As) in Q. injection Q as <-. unfold all_gaps in Ga. rewrite Forall_forall in Ga. specialize (Ga c Hc). destruct Ga as (l2' & Gl2 & Cl). rewrite Ey in Gl2, Cl. assert (l2' = ly) by congruence. subst l2'.
    inversion Cl as [i l p0 p1' vm past others k w' w Pr No Gk Hk D|i l p0 p1' vm past others Pr No D|i l p0 p1' vm past others Pr No D]; subst.
    - apply no_past in Pr; [|exact Hy]. destruct others; discriminate Pr.
    - left. exact D.
    - right. destruct (D _ Hb) as (l' & Gl' & C2). assert (l' = l2) by congruence. subst l'. clear D. unfold out_in_time.
      inversion C2 as [i l p0 p1' vm past' others' k w' w Pr' No' Gk Hk D|i l p0 p1' vm past' others' Pr' No' D|i l p0 p1' vm past' others' Pr' No' D]; subst.
      + assert (k = k2) by (eapply first_found; eauto). subst k. assert (w = v2) by congruence. subst w. right. destruct D as [D|D]; [contradiction|exact D].
      + left. exact D.
      + exfalso. assert (In k2 others') as Hin.
        { destruct Pr' as (E & F & _). rewrite Ev, rev_app_distr in E. cbn [rev] in E. assert (In k2 (past' ++ others')) as Hi by (rewrite <- E; apply in_app_iff; left; apply in_app_iff; simpl; auto).
          apply in_app_iff in Hi. destruct Hi as [Hi|Hi]; [exfalso|exact Hi]. rewrite Forall_forall in F. destruct (F _ Hi) as (w & Gw & Lw). destruct (Np k2) as (w2 & Gw2 & Lw2); [left; reflexivity|]. congruence. }
        unfold none_heads in No'. rewrite Forall_forall in No'. destruct (No' _ Hin) as (w & Gw & Nw). assert (w = v2) by congruence. subst w. contradiction.
  Qed.
End Together.

(** Two vehicles wait at the signs of two links that conflict with each other.  If both are let in in the same
    step, then the one that would have to give way leaves the conflict before the other one can reach it. *)
Theorem C81_one_at_a_time :
  forall (A : Arith) e s dt s1 s' k1 v1 a1 l1 x lx p1 n1 k2 v2 a2 l2 y ly p2 n2 cx cy, reachable s -> lengths_add_up s -> step e s dt = Ok s' -> calculate_lane_changes e s = Ok s1 ->
    at_sign s1 k1 v1 a1 l1 x lx p1 n1 -> at_sign s1 k2 v2 a2 l2 y ly p2 n2 -> x <> y ->
    In cx (lk_conflicts lx) -> cf_link cx = y -> In cy (lk_conflicts ly) -> cf_link cy = x ->
    next_to_reach s1 cy x lx a1 l1 k1 -> next_to_reach s1 cx y ly a2 l2 k2 ->
    just_let_in s s' k1 a1 x -> just_let_in s s' k2 a2 y ->
    ((p1 < p2)%Z \/ p1 = p2 /\ n2 < n1) /\ out_in_time v1 l1 lx cx v2 l2 ly \/
    ((p2 < p1)%Z \/ p1 = p2 /\ n1 < n2) /\ out_in_time v2 l2 ly cy v1 l1 lx.
Proof.
  intros A e s dt s1 s' k1 v1 a1 l1 x lx p1 n1 k2 v2 a2 l2 y ly p2 n2 cx cy R Add H H1 As1 As2 Nxy Hcx Ex Hcy Ey Nr1 Nr2 Li1 Li2.
  assert (heads_to v1 1 x /\ heads_to v2 1 y) as (H1' & H2').
  { split; [pose proof (as_next _ _ _ _ _ _ _ _ _ As1) as Q; unfold next_link in Q; rewrite (as_entered _ _ _ _ _ _ _ _ _ As1) in Q|pose proof (as_next _ _ _ _ _ _ _ _ _ As2) as Q; unfold next_link in Q; rewrite (as_entered _ _ _ _ _ _ _ _ _ As2) in Q]; exact Q. }
  assert (n1 <> n2) as Nn.
  { intros ->. pose proof (reachable_Inv _ R) as I. assert (k1 = k2) as Ek.
    { apply (proj2 (C22_numbers A s R) k1 k2 n2).
      - destruct (lane_changes_evo _ _ _ (i_st _ I) H1 _ _ (as_there _ _ _ _ _ _ _ _ _ As1)) as (v0 & G0 & Rl). exists v0. split; [exact G0|]. apply Rlc_body in Rl. rewrite <- (body_queued _ _ Rl). exact (as_since _ _ _ _ _ _ _ _ _ As1).
      - destruct (lane_changes_evo _ _ _ (i_st _ I) H1 _ _ (as_there _ _ _ _ _ _ _ _ _ As2)) as (v0 & G0 & Rl). exists v0. split; [exact G0|]. apply Rlc_body in Rl. rewrite <- (body_queued _ _ Rl). exact (as_since _ _ _ _ _ _ _ _ _ As2). }
    subst k2. pose proof (as_there _ _ _ _ _ _ _ _ _ As1) as G1. pose proof (as_there _ _ _ _ _ _ _ _ _ As2) as G2. assert (v2 = v1) by congruence. subst v2. unfold heads_to in *. congruence. }
  destruct (as_sign _ _ _ _ _ _ _ _ _ As1) as (d1 & m1 & Co1). destruct (as_sign _ _ _ _ _ _ _ _ _ As2) as (d2' & m2 & Co2).
  assert (forall own since d m p (w : vehicle) q, v_entered w = 1 -> v_queued w = Some q -> ((own < p)%Z \/ own = p /\ q < since) -> ~ gives_way (precedence own since (CYield d m p)) w 1) as Kg.
  { intros own since d m p w q Ew Qw Hl (n & Ep & Hg). unfold precedence in Ep. destruct Hl as [L|(-> & L)].
    - replace (own <? p)%Z with true in Ep by (symmetry; apply Z.ltb_lt; exact L). discriminate Ep.
    - rewrite Z.ltb_irrefl, Z.eqb_refl in Ep. injection Ep as <-. destruct Hg as [[Q|(_ & Q)]|(a & (_ & Q) & La)]; [lia|congruence|]. assert (a = q) by congruence. lia. }
  assert (((p1 < p2)%Z \/ p1 = p2 /\ n2 < n1) \/ ((p2 < p1)%Z \/ p1 = p2 /\ n1 < n2)) as [C|C] by lia; [left|right]; (split; [exact C|]).
  - refine (in_time e s dt s1 s' k1 v1 a1 l1 x lx p1 n1 k2 v2 a2 l2 y ly cx R Add H H1 As1 Li1 Hcx Ex (as_goal _ _ _ _ _ _ _ _ _ As2) (as_there _ _ _ _ _ _ _ _ _ As2) H2' (as_link _ _ _ _ _ _ _ _ _ As2) Nr2 _).
    rewrite Co2. apply Kg with n2; [exact (as_entered _ _ _ _ _ _ _ _ _ As2)|exact (as_since _ _ _ _ _ _ _ _ _ As2)|exact C].
  - refine (in_time e s dt s1 s' k2 v2 a2 l2 y ly p2 n2 k1 v1 a1 l1 x lx cy R Add H H1 As2 Li2 Hcy Ey (as_goal _ _ _ _ _ _ _ _ _ As1) (as_there _ _ _ _ _ _ _ _ _ As1) H1' (as_link _ _ _ _ _ _ _ _ _ As1) Nr1 _).
    rewrite Co1. apply Kg with n1; [exact (as_entered _ _ _ _ _ _ _ _ _ As1)|exact (as_since _ _ _ _ _ _ _ _ _ As1)|lia].
Qed.
Print Assumptions C81_one_at_a_time.

(** ** A concrete case *)
(** Two roads that cross, with a sign on each.  A car at the end of a short road and one twenty metres before the
    crossing have begun to wait in the same step, and both are let in in the next one. *)
Definition ex_two : list (@op F64) :=
  [ OAddLink (ex_line 0 (-9) 0 (-3)) (fz 5); OAddLink (ex_line 0 (-3) 0 5) (fz 5); OAddLink (ex_line (-28) 0 (-3) 0) (fz 5); OAddLink (ex_line (-3) 0 5 0) (fz 5);
    OAddConnection south over1; OAddConnection west over2; OAddConvergence over1 over2;
    OSetControl over1 (CYield (fz 50) false 0); OSetControl over2 (CYield (fz 50) false 0);
    OAddVehicle ex_car west; OSetDestination car1 over2; OAddVehicle ex_car south; OSetDestination car2 over1;
    OStep (lit 1 10); OStep (lit 1 10); OStep (lit 1 10); OStep (lit 1 10)].
(** Vehicle [k], the only one on [a], waits for [x]; it is not past the zone of the conflict of [y] with [x]; nobody is on [x]; [a] leads to [x]. *)
Definition sign2_b (s : @sim F64) (k a x y : key) (n : nat) : bool :=
  match vehicle_at s k, link_at s a, link_at s x, link_at s y with
  | Some v, Some l, Some lx, Some ly => keys_eqb (v_route v) [a; x] && Nat.eqb (v_entered v) 1 && match v_queued v with Some q => Nat.eqb q n | None => false end &&
      match lk_control lx with CYield _ _ p => Z.eqb p 0 | _ => false end && keys_eqb (lk_vehicles l) [k] && keys_eqb (lk_vehicles lx) [] && keys_eqb (lk_in lx) [a] &&
      match lk_conflicts ly with [c] => key_eqb (cf_link c) x && negb (nltb (nadd (cf_max c) (lk_length l)) (pos_rear v)) | _ => false end
  | _, _, _, _ => false end.
Lemma sign2_ok s k a x y n : sign2_b s k a x y n = true -> exists v l lx ly c, at_sign s k v a l x lx 0 n /\ link_at s y = Some ly /\ lk_conflicts ly = [c] /\ cf_link c = x /\ next_to_reach s c x lx a l k.
Proof.
  unfold sign2_b. destruct (vehicle_at s k) as [v|] eqn:G; [|discriminate]. destruct (link_at s a) as [l|] eqn:Gl; [|discriminate]. destruct (link_at s x) as [lx|] eqn:Gx; [|discriminate]. destruct (link_at s y) as [ly|] eqn:Gy; [|discriminate].
  intros H. bands. destruct (v_queued v) as [q|] eqn:Q; [|discriminate]. destruct (lk_control lx) as [|d m p|] eqn:Co; try discriminate. destruct (lk_conflicts ly) as [|c [|? ?]] eqn:Ec; try discriminate. bands.
  repeat match goal with H : Nat.eqb _ _ = true |- _ => apply Nat.eqb_eq in H | H : keys_eqb _ _ = true |- _ => apply keys_eqb_ok in H | H : Z.eqb _ _ = true |- _ => apply Z.eqb_eq in H | H : key_eqb _ _ = true |- _ => apply key_eqb_eq in H | H : negb _ = true |- _ => apply negb_true_iff in H end. subst p q.
  exists v, l, lx, ly, c. split.
  { constructor; auto; [unfold v_link; rewrite H; reflexivity|unfold next_link; rewrite H; replace (v_entered v) with 1 by auto; reflexivity|eauto]. }
  split; [reflexivity|]. split; [exact Ec|]. split; [assumption|]. split; [replace (lk_in lx) with [a] by auto; left; reflexivity|]. split; [replace (lk_vehicles lx) with (@nil key) by auto; intros ? []|].
  exists [], []. split; [assumption|]. split; [|intros ? []]. intros kw [<-|[]]. exists v. auto.
Qed.
Definition let_in_b (s s' : @sim F64) (k a x : key) : bool :=
  match vehicle_at s k, vehicle_at s' k with Some v, Some v' => negb (existsb (key_eqb x) (entered_links v)) && match v_link v' with Some z => key_eqb z a | None => false end && existsb (key_eqb x) (entered_links v') | _, _ => false end.
Lemma let_in_ok s s' k a x : a <> x -> let_in_b s s' k a x = true -> just_let_in s s' k a x.
Proof.
  intros Ne. unfold let_in_b. destruct (vehicle_at s k) as [v|] eqn:G; [|discriminate]. destruct (vehicle_at s' k) as [v'|] eqn:G'; [|discriminate]. intros H. bands. apply negb_true_iff in H.
  destruct (v_link v') as [z|] eqn:Lv; [|discriminate]. apply key_eqb_eq in B0. subst z. split; [exact Ne|]. split; [exists v; split; [exact G|]; intros Q; apply in_existsb in Q; congruence|].
  exists v'. split; [exact G'|]. split; [exact Lv|apply in_existsb; exact B].
Qed.
Lemma ex_two_ok : okb (run ex_env sim_new ex_two) (fun s => lengths_b s && okb (calculate_lane_changes ex_env s) (fun s1 => sign2_b s1 car2 south over1 over2 2 && sign2_b s1 car1 west over2 over1 1) &&
  okb (step ex_env s (lit 1 10)) (fun s' => let_in_b s s' car2 south over1 && let_in_b s s' car1 west over2)) = true.
Proof. vm_compute. reflexivity. Qed.
Example C81_example : exists s s1 s' v1 l1 lx v2 l2 ly cx cy, @reachable F64 s /\ lengths_add_up s /\ step ex_env s (lit 1 10) = Ok s' /\ calculate_lane_changes ex_env s = Ok s1 /\
  at_sign s1 car2 v1 south l1 over1 lx 0 2 /\ at_sign s1 car1 v2 west l2 over2 ly 0 1 /\ lk_conflicts lx = [cx] /\ cf_link cx = over2 /\ lk_conflicts ly = [cy] /\ cf_link cy = over1 /\
  next_to_reach s1 cy over1 lx south l1 car2 /\ next_to_reach s1 cx over2 ly west l2 car1 /\ just_let_in s s' car2 south over1 /\ just_let_in s s' car1 west over2 /\ out_in_time v1 l1 lx cx v2 l2 ly.
Proof.
  pose proof ex_two_ok as H. apply okb_ok in H. destruct H as (s & Hr & H). bands. apply okb_ok in B0. destruct B0 as (s1 & Hc & B0). apply okb_ok in B. destruct B as (s' & Hs & B). bands. apply lengths_b_ok in H.
  destruct (sign2_ok _ _ _ _ _ _ B0) as (v1 & l1 & lx & ly & cy & A1 & Gy & Ecy & Ey & N1). destruct (sign2_ok _ _ _ _ _ _ B2) as (v2 & l2 & ly' & lx' & cx & A2 & Gx & Ecx & Ex & N2).
  assert (lx' = lx) by (pose proof (as_goal _ _ _ _ _ _ _ _ _ A1); congruence). assert (ly' = ly) by (pose proof (as_goal _ _ _ _ _ _ _ _ _ A2); congruence). subst lx' ly'.
  assert (@reachable F64 s) as R by (eapply history_reachable; [eapply run_history; exact Hr|constructor]).
  assert (just_let_in s s' car2 south over1) as L1 by (apply let_in_ok; [discriminate|exact B]). assert (just_let_in s s' car1 west over2) as L2 by (apply let_in_ok; [discriminate|exact B1]).
  exists s, s1, s', v1, l1, lx, v2, l2, ly, cx, cy. repeat (split; [assumption|]).
  destruct (C81_one_at_a_time F64 ex_env s (lit 1 10) s1 s' car2 v1 south l1 over1 lx 0%Z 2 car1 v2 west l2 over2 ly 0%Z 1 cx cy R H Hs Hc A1 A2) as [(_ & O)|(Q & _)]; auto; [discriminate|rewrite Ecx; left; reflexivity|rewrite Ecy; left; reflexivity|].
  exfalso. destruct Q as [Q|(_ & Q)]; lia.
Qed.
Print Assumptions C81_example.
