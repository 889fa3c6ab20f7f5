(** * C57: vehicles look at the next links *)
From Coq Require Import List Bool ZArith NArith Arith Lia Reals Lra.
From Verif Require Import Arith F64 RealArith Base BaseProofs SlotMap Util Geom Light Accel Net Path Vehicle LinkOps Sim SpecLight SpecSim SlotMapProofs Safe NetInv SimInv AccSafe SimSafe StepSafe OpSafe Evo StepEvo SimProofs SimExample StepProofs Ord LogProofs SpecMotion Motion RFacts P_Motion SpecEnter EnterProofs P_Enter SpecAhead.
Import ListNotations.

Section Ahead.
  Context {A : Arith}.

  Section Proc.
    Variable func : list eff -> relveh -> res (list eff * bool).
    Variables (s : sim) (links : linkset) (vs : vehset) (x : key).
    Hypothesis N : net_ok links.
    Hypothesis Hl : listed links vs.
    Hypothesis HL : forall k l, sm_get links k = Some l -> exists l0, link_at s k = Some l0 /\ exists b, l = set_lk_active l0 b.
    Hypothesis HV : forall k, sm_get vs k = option_map v_reset (vehicle_at s k).
    Hypothesis HU : forall a l, in_use s a -> sm_get links a = Some l -> lk_active l = true.
    Hypothesis HG : forall k l0, link_at s k = Some l0 -> exists b, sm_get links k = Some (set_lk_active l0 b).
    Hypothesis Once : forall log r log' b, func log r = Ok (log', b) -> b = false.
    Hypothesis Adds : forall log r log' b, rv_ok vs x r -> func log r = Ok (log', b) -> adds is_acc log log'.

    Lemma not_headed_skip idx l0 pos ks len rest (log : list eff) : not_headed s x idx l0 pos ks ->
      scan func vs len (idx, x) pos (nsub pos (nmul MAX_LOOKAHEAD (lk_limit l0))) (ks ++ rest) log =
      scan func vs len (idx, x) pos (nsub pos (nmul MAX_LOOKAHEAD (lk_limit l0))) rest log.
    Proof.
      induction ks as [|k ks IH]; intros Nh; [reflexivity|]. destruct (Nh k) as (w & G & W & Hh); [left; reflexivity|].
      cbn [app scan]. unfold get_vehicle. rewrite HV, G. cbn [option_map of_option bind]. unfold within in W. change (pos_front (v_reset w)) with (pos_front w).
      change MAX_LOOKAHEAD with (@nofZ A 5). rewrite W. cbn [fst snd]. change (get_route (v_reset w)) with (get_route w).
      assert (scan func vs len (idx, x) pos (nsub pos (nmul (nofZ 5) (lk_limit l0))) (ks ++ rest) log = scan func vs len (idx, x) pos (nsub pos (nmul (nofZ 5) (lk_limit l0))) rest log) as IH'.
      { apply IH. intros k' Hk'. apply Nh. right. exact Hk'. }
      unfold get_route. destruct (nth_error (v_route w) idx) as [y|] eqn:E; cbn [option_map]; [|exact IH'].
      destruct (key_eqb_spec y x); cbn [negb]; [|exact IH']. exfalso. apply Hh. unfold heads_to. congruence.
    Qed.

    Lemma first_hit idx a pos k v d : first_headed s x idx a pos k v d -> forall fuel l log log', sm_get links a = Some l ->
      process_vehicles func fuel links vs l (idx, x) pos 0 log = Ok log' ->
      exists i log0 log1, func log0 (RV k (v_reset v) i d) = Ok (log1, false) /\ adds is_acc log1 log'.
    Proof.
      intros F. induction F as [idx a la pos behind k ahead v Ga U El Nh Gv W Hh Hd|idx a la pos b lb k v d Ga U Nh Mp Hb Gb F IH]; intros fuel l log log' G H.
      - destruct (HL _ _ G) as (l0 & G0 & b0 & ->). assert (l0 = la) by congruence. subst l0. destruct fuel as [|fuel]; [discriminate H|]. cbn [process_vehicles] in H.
        rewrite (HU _ _ U G) in H. cbn [negb] in H. cbn [fst snd] in H. change (lk_limit (set_lk_active la b0)) with (lk_limit la) in H. change (lk_vehicles (set_lk_active la b0)) with (lk_vehicles la) in H. change (lk_length (set_lk_active la b0)) with (lk_length la) in H.
        cbn [skipn] in H. rewrite El, rev_app_distr in H. cbn [rev] in H. rewrite <- !app_assoc in H. rewrite not_headed_skip in H.
        2:{ intros k' Hk'. apply Nh. apply in_rev. exact Hk'. }
        cbn [app scan] in H. unfold get_vehicle in H. rewrite HV, Gv in H. cbn [option_map of_option bind] in H. unfold within in W. change (pos_front (v_reset v)) with (pos_front v) in H.
        change MAX_LOOKAHEAD with (@nofZ A 5) in H. rewrite W in H. cbn [fst snd] in H. change (get_route (v_reset v)) with (get_route v) in H.
        unfold get_route in H. unfold heads_to in Hh. rewrite Hh in H. cbn [option_map] in H. rewrite key_eqb_refl in H. cbn [negb] in H.
        set (st := if Nat.ltb idx (v_entered v) then Entered else _) in H.
        assert (bind (bind (func log (RV k (v_reset v) idx pos)) (fun sb => if snd sb then scan func vs (lk_length la) (idx, x) pos (nsub pos (nmul (nofZ 5) (lk_limit la))) (rev behind) (fst sb) else Ok (fst sb, Stop)))
                  (fun se => match snd se with Stop => Ok (fst se) | Through => if nleb n0 (nsub pos (nmul (nofZ 5) (lk_limit la))) then Ok (fst se) else
                     foldM (fun s0 id => bind (get_link links id) (fun l' => process_vehicles func fuel links vs l' (S idx, x) (nadd pos (lk_length l')) 0 s0)) (lk_in (set_lk_active la b0)) (fst se) end) = Ok log') as H'.
        { destruct Hd as [Hd|Hd].
          - assert (st = Entered) as Es by (subst st; apply Nat.ltb_lt in Hd; rewrite Hd; reflexivity). rewrite Es in H. exact H.
          - destruct st; rewrite ?Hd in H; exact H. }
        clear H. bok H' se Hse. bok Hse sb Hsb. destruct sb as [log1 bb]. pose proof (Once _ _ _ _ Hsb) as ->. cbn [fst snd] in Hse. injection Hse as <-. cbn [fst snd] in H'. injection H' as <-.
        exists idx, log, log1. split; [exact Hsb|apply adds_refl].
      - destruct (HL _ _ G) as (l0 & G0 & b0 & ->). assert (l0 = la) by congruence. subst l0. destruct fuel as [|fuel]; [discriminate H|]. cbn [process_vehicles] in H.
        rewrite (HU _ _ U G) in H. cbn [negb] in H. cbn [fst snd] in H. change (lk_limit (set_lk_active la b0)) with (lk_limit la) in H. change (lk_vehicles (set_lk_active la b0)) with (lk_vehicles la) in H. change (lk_length (set_lk_active la b0)) with (lk_length la) in H.
        cbn [skipn] in H. rewrite <- (app_nil_r (rev (lk_vehicles la))) in H. rewrite not_headed_skip in H.
        2:{ intros k' Hk'. apply Nh. apply in_rev. exact Hk'. }
        cbn [scan bind fst snd] in H. change MAX_LOOKAHEAD with (@nofZ A 5) in H. rewrite Mp in H. change (lk_in (set_lk_active la b0)) with (lk_in la) in H.
        revert log H. clear Nh. induction (lk_in la) as [|c cs IHc]; intros log H; [destruct Hb|]. cbn [foldM] in H. bok H log2 H2. bok H2 l' Hl'. unfold get_link in Hl'. apply of_option_ok in Hl'.
        destruct Hb as [->|Hb]; [|eapply IHc; eauto].
        destruct (HL _ _ Hl') as (lb' & Gb' & b1 & ->). assert (lb' = lb) by congruence. subst lb'.
        destruct (IH _ _ _ _ Hl' H2) as (i & log0 & log1 & E1 & A1). exists i, log0, log1. split; [exact E1|]. eapply adds_trans; [exact A1|].
        eapply foldM_adds; [|exact H]. intros c' lga lgb _ Hc'. cbn beta in Hc'. bok Hc' l2 Hl2. unfold get_link in Hl2. apply of_option_ok in Hl2.
        eapply process_adds; [exact N|exact Hl|exact Adds|exact Hl2|exact Hc'].
    Qed.
  End Proc.

  Lemma next_in_log e s1 s2 links vs log1 log x lx k v d : St (s_links s1) (s_vehicles s1) (s_seq s1) -> parts e s1 s2 links vs log1 log -> next_to_enter s1 x lx k v d ->
    (forall y, vx_speed_limit v (lk_limit lx) (nadd d n0) = Some y -> In (EAcc k y) log) /\
    (forall k2 v2, last_on lx k2 -> vehicle_at s1 k2 = Some v2 -> In (EAcc k (vx_follow_vehicle v (nadd d (pos_rear v2)) (v_vel v2))) log).
  Proof.
    intros St1 P (Gx & Ux & Mp & b & lb & Hb & Gb & F). destruct (parts_ctx _ _ _ _ _ _ _ St1 P) as (HL & HV & Ent & _).
    pose proof (pt_net _ _ _ _ _ _ _ P) as N. pose proof (pt_listed _ _ _ _ _ _ _ P) as Ls.
    assert (forall k l0, link_at s1 k = Some l0 -> exists b, sm_get links k = Some (set_lk_active l0 b)) as HG.
    { intros k0 l0 G0. assert (valid links k0) as V by (apply (same_net_valid _ _ _ (pt_same _ _ _ _ _ _ _ P)); apply sm_mem_get; unfold link_at in G0; eauto).
      unfold valid in V. apply sm_mem_get in V. destruct V as (l' & Gl'). destruct (HL _ _ Gl') as (l1 & G1 & b1 & ->). assert (l1 = l0) by congruence. subst. eauto. }
    assert (forall a l, in_use s1 a -> sm_get links a = Some l -> lk_active l = true) as HU.
    { intros a l (k0 & v0 & G0 & Hin) Gl. destruct (activate_all_active _ _ _ (pt_act _ _ _ _ _ _ _ P)) as (_ & _ & Ac). eapply (Ac k0 (v_reset v0)); [|exact Hin|exact Gl].
      rewrite HV, G0. reflexivity. }
    destruct (HG _ _ Gx) as (bx & Gx').
    assert (exists log0 loga, process_vehicles (entering_cb vs (set_lk_active lx bx)) (e_fuel e) links vs (set_lk_active lx bx) (O, x) n0 (length (lk_vehicles lx)) log0 = Ok loga /\ adds is_acc loga log) as (log0 & loga & Hp & Aa).
    { pose proof (pt_link _ _ _ _ _ _ _ P) as H. unfold sim_link_accelerations in H. bok H lg H1.
      assert (adds is_acc lg log) as A2. { refine (foldM_adds _ _ _ _ _ _ H). intros c a b0 _ Hc. eapply cp_apply_adds; eauto. }
      assert (In (set_lk_active lx bx) (sm_values links)) as Hin by (apply in_values; eauto).
      assert (forall l0, In l0 (sm_values links) -> exists k, sm_get links k = Some l0) as Hv by (intros l0 Q; apply in_values in Q; auto).
      clear H. revert log1 P H1. intros log1 _ H1. revert log1 H1. induction (sm_values links) as [|y ls IH]; intros lg0 H1; [contradiction|]. cbn [foldM] in H1. bok H1 la Ha.
      assert (adds is_acc la lg) as A1.
      { eapply foldM_adds; [|exact H1]. intros z a b0 Hz Hb0. destruct (Hv z) as (kz & Gz); [right; auto|]. destruct (apply_accelerations_adds _ _ N Ls _ _ _ _ _ Gz Hb0) as (? & _ & B1 & B2). eapply adds_trans; eauto. }
      destruct Hin as [->|Hin]; [|eapply (IH Hin); [intros; apply Hv; right; auto|exact H1]].
      unfold apply_accelerations in Ha. bok Ha lg1 Hf. bok Ha lg2 Hpp. exists lg1, lg2.
      rewrite (lo_id _ _ _ (nk_link _ N _ _ Gx')) in Hpp. split; [exact Hpp|]. eapply adds_trans; [|eapply adds_trans; [exact A1|exact A2]].
      destruct (lk_group _); [|injection Ha as <-; apply adds_refl]. bok Ha ps Hps.
      eapply foldM_adds; [|exact Ha]. intros p lga lgb _ Hq. cbn beta in Hq. bok Hq l2 Hl2. unfold get_link in Hl2. apply of_option_ok in Hl2.
      eapply follow_obstacles_adds; eauto. }
    destruct (e_fuel e) as [|fuel]; [discriminate Hp|]. cbn [process_vehicles] in Hp. rewrite (HU _ _ Ux Gx') in Hp. cbn [negb] in Hp.
    change (lk_vehicles (set_lk_active lx bx)) with (lk_vehicles lx) in Hp. change (lk_limit (set_lk_active lx bx)) with (lk_limit lx) in Hp.
    rewrite skipn_all2 in Hp by (rewrite rev_length; lia). cbn [scan bind fst snd] in Hp. change MAX_LOOKAHEAD with (@nofZ A 5) in Hp. rewrite Mp in Hp. change (lk_in (set_lk_active lx bx)) with (lk_in lx) in Hp.
    set (func := entering_cb vs (set_lk_active lx bx)) in *.
    assert (forall log r log' b, func log r = Ok (log', b) -> b = false) as Once.
    { intros lg r lg' bb H. unfold func, entering_cb in H. destruct (hd_error _); [bok H w Hw|]; injection H; congruence. }
    assert (forall log r log' b, rv_ok vs x r -> func log r = Ok (log', b) -> adds is_acc log log') as Ad by (intros; eapply entering_adds; eauto).
    assert (exists i log0 log1, func log0 (RV k (v_reset v) i d) = Ok (log1, false) /\ adds is_acc log1 loga) as (i & lg0 & lg1 & Hf & A1).
    { revert log0 Hp. induction (lk_in lx) as [|c cs IHc]; intros lg0 Hp; [destruct Hb|]. cbn [foldM] in Hp. bok Hp lg2 H2. bok H2 l' Hl'. unfold get_link in Hl'. apply of_option_ok in Hl'.
      destruct Hb as [->|Hb]; [|eapply IHc; eauto]. destruct (HL _ _ Hl') as (lb' & Gb' & b1 & El'). assert (lb' = lb) by congruence. subst lb'.
      replace (lk_length l') with (lk_length lb) in H2 by (subst l'; reflexivity).
      destruct (first_hit func s1 links vs x N Ls HL HV HU Once Ad _ _ _ _ _ _ F _ _ _ _ Hl' H2) as (i & lga & lgb & E1 & A1). exists i, lga, lgb. split; [exact E1|]. eapply adds_trans; [exact A1|].
      eapply foldM_adds; [|exact Hp]. intros c' lgc lgd _ Hc'. cbn beta in Hc'. bok Hc' l2 Hl2. unfold get_link in Hl2. apply of_option_ok in Hl2. eapply process_adds; [exact N|exact Ls|exact Ad|exact Hl2|exact Hc']. }
    assert (forall q, In q lg1 -> In q log) as Kin by (intros q Hq; eapply adds_in; [exact Aa|]; eapply adds_in; [exact A1|exact Hq]).
    unfold func, entering_cb in Hf. change (lk_vehicles (set_lk_active lx bx)) with (lk_vehicles lx) in Hf. change (lk_limit (set_lk_active lx bx)) with (lk_limit lx) in Hf.
    split.
    - intros y Ey. apply Kin. assert (In (EAcc k y) (rv_speed_limit (RV k (v_reset v) i d) (lk_limit lx) n0 ++ lg0)) as Hy.
      { unfold rv_speed_limit. cbn [rv_veh rv_pos rv_key]. change (vx_speed_limit (v_reset v)) with (vx_speed_limit v). rewrite Ey. left. reflexivity. }
      destruct (hd_error (lk_vehicles lx)); [bok Hf w Hw; injection Hf as <-; right; exact Hy|injection Hf as <-; exact Hy].
    - intros k2 v2 (ah & E2) G2. apply Kin. rewrite E2 in Hf. cbn [hd_error] in Hf. unfold get_vehicle in Hf. rewrite HV, G2 in Hf. cbn [option_map of_option bind] in Hf. injection Hf as <-. left. reflexivity.
  Qed.
End Ahead.

(** ** C57: the first vehicle on its way to a link follows the last one on it, and slows down for its limit *)
(** [s1] is the simulation after the lane changes at the start of the step. *)
Theorem C57_follow :
  forall e ops s dt s1 s' x lx k k2 v v2 d v', history (@sim_new F64) ops s -> step e s dt = Ok s' -> due (lit 1 10) ops = true ->
    calculate_lane_changes e s = Ok s1 -> next_to_enter s1 x lx k v d -> last_on lx k2 -> vehicle_at s1 k2 = Some v2 -> vehicle_at s' k = Some v' ->
    let y := driver_model v (nsub (nadd d (pos_rear v2)) (pos_front v)) (v_vel v2) in
    nnan y = false -> nleb (acceleration v') (nmax y full_braking) = true.
Proof.
  intros e ops s dt s1 s' x lx k k2 v v2 d v' Hh H D H1 Nx La G2 G' y Ny.
  pose proof (history_Inv _ _ _ Hh Inv_new) as I. pose proof (history_timers _ _ Hh) as (T & _). pose proof (due_true _ _ _ T D) as D'.
  destruct (step_motion _ _ _ _ _ _ I H G') as (v0 & s1' & _ & _ & _ & G0 & H1' & _ & _ & _ & _ & _ & _ & _ & _ & _ & St1 & _).
  assert (s1' = s1) by congruence. subst s1'.
  refine (refresh_bound F64_ord decel_nan e s dt s' k v0 v' y I H G0 G' D' Ny _).
  intros t1 t2 links vs log1 log E1 P. assert (t1 = s1) by congruence. subst t1. exact (proj2 (next_in_log _ _ _ _ _ _ _ _ _ _ _ _ St1 P Nx) _ _ La G2).
Qed.
Print Assumptions C57_follow.


Lemma slow_gen {A : Arith} (O : OrdLaws A) (Nd : @nnan A MAX_DECEL = false) e ops s dt s1 s' x lx k v d v' : history (@sim_new A) ops s -> step e s dt = Ok s' -> due (lit 1 10) ops = true ->
    calculate_lane_changes e s = Ok s1 -> next_to_enter s1 x lx k v d -> vehicle_at s' k = Some v' ->
    let dist := nsub (nadd d n0) (v_pos v) in
    let y := slowing v (lk_limit lx) dist in
    nleb dist n0 = false -> nnan y = false -> nleb y (nneg (comf_dec v)) = true ->
    nleb (acceleration v') (nmax (nmax (nmul n2 (nneg (comf_dec v))) y) full_braking) = true.
Proof.
  intros Hh H D H1 Nx G' dist y Di Ny Cy.
  pose proof (history_Inv _ _ _ Hh Inv_new) as I. pose proof (history_timers _ _ Hh) as (T & _). pose proof (due_true _ _ _ T D) as D'.
  destruct (step_motion _ _ _ _ _ _ I H G') as (v0 & s1' & _ & _ & _ & G0 & H1' & _ & _ & _ & _ & _ & _ & _ & _ & _ & St1 & _).
  assert (s1' = s1) by congruence. subst s1'.
  refine (refresh_bound O Nd e s dt s' k v0 v' (nmax (nmul n2 (nneg (comf_dec v))) y) I H G0 G' D' (max_nan O _ _ Ny) _).
  intros t1 t2 links vs log1 log E1 P. assert (t1 = s1) by congruence. subst t1. apply (proj1 (next_in_log _ _ _ _ _ _ _ _ _ _ _ _ St1 P Nx)).
  unfold vx_speed_limit, x_speed_limit. fold dist. rewrite Di.
  match goal with |- (if nleb ?a ?b then _ else _) = _ => change a with y; change b with (nneg (comf_dec v)) end. rewrite Cy. reflexivity.
Qed.
Theorem C57_slow :
  forall e ops s dt s1 s' x lx k v d v', history (@sim_new F64) ops s -> step e s dt = Ok s' -> due (lit 1 10) ops = true ->
    calculate_lane_changes e s = Ok s1 -> next_to_enter s1 x lx k v d -> vehicle_at s' k = Some v' ->
    let dist := nsub (nadd d n0) (v_pos v) in
    let y := slowing v (lk_limit lx) dist in
    nleb dist n0 = false -> nnan y = false -> nleb y (nneg (comf_dec v)) = true ->
    nleb (acceleration v') (nmax (nmax (nmul n2 (nneg (comf_dec v))) y) full_braking) = true.
Proof. exact (slow_gen F64_ord decel_nan). Qed.
Print Assumptions C57_slow.

(** In exact arithmetic: a vehicle either can still slow down to its version of the limit ahead with
    comfortable braking, or brakes so that it reaches that speed in time, or brakes twice as hard as
    is comfortable. *)
Local Open Scope R_scope.
Theorem C57_slow_exact :
  forall e ops s dt s1 s' x lx k v d v', history (@sim_new RA) ops s -> step e s dt = Ok s' -> due (lit 1 10) ops = true ->
    calculate_lane_changes e s = Ok s1 -> next_to_enter s1 x lx k v d -> vehicle_at s' k = Some v' ->
    let dist : R := d - v_pos v in
    let u : R := speed_factor v * lk_limit lx in
    let w : R := v_vel v in
    let a : R := acceleration v' in
    0 < dist ->
    w * w + 2 * - (comf_dec v : R) * dist < u * u \/ w * w + 2 * a * dist <= u * u \/ a <= Rmax (2 * - (comf_dec v : R)) (-6).
Proof.
  intros e ops s dt s1 s' x lx k v d v' Hh H D H1 Nx G' dist u w a Hd.
  assert ((nsub (nadd d n0) (v_pos v) : R) = dist) as Ed. { subst dist. change (d + 0 - v_pos v = d - v_pos v). lra. }
  assert ((slowing v (lk_limit lx) dist : R) = (u * u - w * w) / (2 * dist)) as Ey.
  { change (@ndiv RA (u * u - w * w) (2 * dist) = (u * u - w * w) / (2 * dist)). cbn [ndiv RA]. try (destruct (Req_EM_T (2 * dist) 0); [lra|]). reflexivity. }
  pose proof (slow_gen RA_ord decel_nan_R e ops s dt s1 s' x lx k v d v' Hh H D H1 Nx G') as K. cbn zeta in K. rewrite Ed in K.
  rewrite Ey in K. set (y := (u * u - w * w) / (2 * dist)) in *. assert (y * (2 * dist) = u * u - w * w) as Em by (subst y; field; lra).
  destruct (Rle_lt_dec y (- comf_dec v)) as [Ly|Ly].
  - right. assert (@nleb RA (acceleration v') (nmax (nmax (nmul n2 (nneg (comf_dec v))) y) full_braking) = true) as K'.
    { apply K; [apply leb_R_false; exact Hd|reflexivity|apply leb_R; exact Ly]. }
    apply leb_R in K'. rewrite !max_R in K'. change (a <= Rmax (Rmax (2 * - comf_dec v) y) (-6)) in K'.
    destruct (Rle_lt_dec a y) as [L|L]; [left; nra|right].
    unfold Rmax in *. destruct (Rle_dec (2 * - comf_dec v) y), (Rle_dec y (-6)), (Rle_dec (2 * - comf_dec v) (-6)); try lra; repeat destruct (Rle_dec _ _) in K'; lra.
  - left. nra.
Qed.
Print Assumptions C57_slow_exact.

(** Two links in a row, the second one with a limit of 5 m/s, and a car on each. *)
Notation fast := (nth_id 0).
Notation slow := (nth_id 1).
Definition ex_slow : list (@op F64) :=
  [ OAddLink (ex_line 0 0 100 0) (fz 30); OAddLink (ex_line 100 0 200 0) (fz 5); OAddConnection fast slow;
    OAddVehicle ex_car slow; OAddVehicle ex_car fast; OSetDestination car2 slow ].
Definition heads_b (v : @vehicle F64) (idx : nat) (x : key) : bool := match nth_error (v_route v) idx with Some y => key_eqb y x | None => false end.
Definition only_b (l : @link F64) (k : key) : bool := match lk_vehicles l with [k'] => key_eqb k' k | _ => false end.
Definition in_b (k : key) (l : list key) : bool := existsb (fun k' => key_eqb k' k) l.
Definition next_b (s : @sim F64) (f : @link F64 -> vehicle -> num -> vehicle -> bool) : bool :=
  link_b s fast (fun la => link_b s slow (fun lx => veh_b s car2 (fun v => veh_b s car1 (fun v1 =>
    only_b la car2 && only_b lx car1 && in_b fast (lk_in lx) && in_b slow (entered_links v1) && in_b fast (entered_links v) &&
    negb (nleb n0 (nsub n0 (nmul (nofZ 5) (lk_limit lx)))) && negb (nltb (pos_front v) (nsub (nadd n0 (lk_length la)) (nmul (nofZ 5) (lk_limit la)))) &&
    heads_b v 1 slow && (Nat.ltb 1 (v_entered v) || negb (nltb (lk_length la) (nadd n0 (lk_length la)))) &&
    f lx v (nadd n0 (lk_length la)) v1)))).
Lemma in_b_ok k l : in_b k l = true -> In k l.
Proof. unfold in_b. rewrite existsb_exists. intros (y & Hy & E). apply key_eqb_eq in E. subst. exact Hy. Qed.
Lemma next_b_ok s f : next_b s f = true -> exists lx v d v1, next_to_enter s slow lx car2 v d /\ last_on lx car1 /\ vehicle_at s car1 = Some v1 /\ f lx v d v1 = true.
Proof.
  intros H. apply link_b_ok in H. destruct H as (la & Ga & H). apply link_b_ok in H. destruct H as (lx & Gx & H). apply veh_b_ok in H. destruct H as (v & Gv & H). apply veh_b_ok in H. destruct H as (v1 & Gv1 & H).
  apply andb_true_iff in H. destruct H as (H & Hf). do 8 (apply andb_true_iff in H; destruct H as (H & ?)).
  assert (forall l k, only_b l k = true -> lk_vehicles l = [k]) as Ko.
  { intros l k. unfold only_b. destruct (lk_vehicles l) as [|y [|]]; try discriminate. intros E. apply key_eqb_eq in E. congruence. }
  exists lx, v, (nadd n0 (lk_length la)), v1. split; [|split; [exists []; auto|split; auto]].
  split; [exact Gx|]. split; [exists car1, v1; split; [exact Gv1|apply in_b_ok; assumption]|]. split; [apply negb_true_iff; assumption|].
  exists fast, la. split; [apply in_b_ok; assumption|]. split; [exact Ga|]. apply first_here with (la := la) (behind := []) (ahead := []); auto.
  - exists car2, v. split; [exact Gv|apply in_b_ok; assumption].
  - apply Ko. assumption.
  - intros k [].
  - apply negb_true_iff; assumption.
  - unfold heads_to. match goal with Q : heads_b _ _ _ = true |- _ => unfold heads_b in Q; destruct (nth_error (v_route v) 1) as [y|]; [apply key_eqb_eq in Q; congruence|discriminate Q] end.
  - match goal with Q : _ || _ = true |- _ => apply orb_true_iff in Q; destruct Q as [Q|Q]; [left; apply Nat.ltb_lt; exact Q|right; apply negb_true_iff; exact Q] end.
Qed.
Definition follow_val (v : vehicle) (d : num) (v1 : vehicle) : @num F64 := driver_model v (nsub (nadd d (pos_rear v1)) (pos_front v)) (v_vel v1).
Lemma ex_slow_ok :
  okb (run ex_env sim_new (ex_slow ++ ex_steps 8)) (fun s => due (@lit F64 1 10) (ex_slow ++ ex_steps 8) && okb (calculate_lane_changes ex_env s) (fun s1 =>
    okb (step ex_env s (fz 1)) (fun s' => next_b s1 (fun lx v d v1 =>
      let dist := nsub (nadd d n0) (v_pos v) in let y := slowing v (lk_limit lx) dist in
      veh_b s' car2 (fun v' => negb (nnan (follow_val v d v1)) && negb (nleb dist n0) && negb (nnan y) && nleb y (nneg (comf_dec v)) && nltb (acceleration v') n0))))) = true.
Proof. vm_compute. reflexivity. Qed.
(** A car that slows down for the limit of the next link and for the car on it. *)
Example C57_example : exists s s1 s' lx v d v1 v', let dist := nsub (nadd d n0) (v_pos v) in let y := slowing v (lk_limit lx) dist in
  history (@sim_new F64) (ex_slow ++ ex_steps 8) s /\ due (lit 1 10) (ex_slow ++ ex_steps 8) = true /\ calculate_lane_changes ex_env s = Ok s1 /\ step ex_env s (fz 1) = Ok s' /\
  next_to_enter s1 slow lx car2 v d /\ last_on lx car1 /\ vehicle_at s1 car1 = Some v1 /\ vehicle_at s' car2 = Some v' /\
  nnan (driver_model v (nsub (nadd d (pos_rear v1)) (pos_front v)) (v_vel v1)) = false /\
  nleb dist n0 = false /\ nnan y = false /\ nleb y (nneg (comf_dec v)) = true /\ nltb (acceleration v') n0 = true.
Proof.
  pose proof ex_slow_ok as H. apply okb_ok in H. destruct H as (s & H0 & H). apply andb_true_iff in H. destruct H as (D & H). apply okb_ok in H. destruct H as (s1 & H1 & H). apply okb_ok in H. destruct H as (s' & H2 & H).
  apply next_b_ok in H. destruct H as (lx & v & d & v1 & Nx & La & G1 & H). cbn zeta in H. apply veh_b_ok in H. destruct H as (v' & G' & H). do 4 (apply andb_true_iff in H; destruct H as (H & ?)).
  exists s, s1, s', lx, v, d, v1, v'. cbn zeta. split; [eapply run_history; exact H0|]. do 7 (split; [assumption|]). unfold follow_val in H.
  split; [apply negb_true_iff; exact H|]. split; [apply negb_true_iff; assumption|]. split; [apply negb_true_iff; assumption|]. split; assumption.
Qed.
