(** * C62: a vehicle alone on an open road keeps to the limit and to nothing else *)
From Coq Require Import List Bool ZArith NArith Arith Lia Reals Lra.
From Flocq Require Import Core IEEE754.BinarySingleNaN.
From Verif Require Import Arith F64 RealArith Base BaseProofs SlotMap Util Geom Light Accel Net Path Vehicle LinkOps Sim SpecLight SpecSim SlotMapProofs Safe NetInv SimInv AccSafe SimSafe StepSafe OpSafe Evo StepEvo SimProofs SimExample StepProofs Ord FloatLaws LogProofs SpecMotion Motion RFacts P_Motion SpecEnter EnterProofs P_Enter SpecAhead P_Ahead SpecConf ConfProofs P_Conf SpecSide SpecReason P_Reason.
Import ListNotations.

(** ** Who drives at most at the limit need not slow down for it *)
Section Law.
  Local Open Scope R_scope.
  Definition np (x : f64) : Prop := is_nan x = true \/ 0 <= fval x.

  Lemma minus_np (x y : f64) : is_nan x = false -> is_nan y = false -> fval y <= fval x -> np (Bminus mode_NE x y).
  Proof.
    intros Nx Ny L. destruct (is_finite x) eqn:Fx; destruct (is_finite y) eqn:Fy.
    - right. destruct (fval_minus x y Fx Fy) as (_ & ->). rewrite !fval_finite in L by assumption. apply sat_nonneg. lra.
    - destruct y as [|[]| |]; try discriminate; pose proof (fval_bound x Fx) as K; fold big in K.
      + right. destruct x as [|[]| |]; try discriminate; cbn; apply Rlt_le, big_pos.
      + exfalso. change (big <= fval x) in L. lra.
    - destruct x as [|[]| |]; try discriminate; pose proof (fval_bound y Fy) as K; fold big in K.
      + exfalso. change (fval y <= - big) in L. lra.
      + right. destruct y as [|[]| |]; try discriminate; cbn; apply Rlt_le, big_pos.
    - destruct x as [|[]| |]; try discriminate; destruct y as [|[]| |]; try discriminate; cbn; try (left; reflexivity); right; try (apply Rlt_le, big_pos).
      exfalso. change (big <= - big) in L. pose proof big_pos. lra.
  Qed.
  Lemma square_mono (u v : f64) : is_nan u = false -> is_nan v = false -> 0 <= fval v -> fval v <= fval u ->
    is_nan (Bmult mode_NE u u) = false /\ is_nan (Bmult mode_NE v v) = false /\ fval (Bmult mode_NE v v) <= fval (Bmult mode_NE u u).
  Proof.
    intros Nu Nv Pv L. assert (0 <= fval u) as Pu by lra.
    destruct (fval_nonneg_cases u Nu Pu) as [(Fu & Qu) | ->]; destruct (fval_nonneg_cases v Nv Pv) as [(Fv & Qv) | ->].
    - destruct (fval_mult u u Fu Fu) as (N1 & ->). destruct (fval_mult v v Fv Fv) as (N2 & ->). split; [exact N1|]. split; [exact N2|].
      rewrite !fval_finite in L by assumption. apply sat_mono. nra.
    - exfalso. pose proof (fval_bound u Fu) as K. change (big <= fval u) in L. fold big in K. lra.
    - destruct (fval_mult v v Fv Fv) as (N2 & E2). split; [reflexivity|]. split; [exact N2|]. rewrite E2. change (sat (B2R v * B2R v) <= big). unfold sat. pose proof big_pos. apply Rmax_lub; [lra|]. apply Rmin_l.
    - repeat split; lra.
  Qed.
  Lemma div_np (x d : f64) : np x -> is_nan d = true \/ 0 < fval d -> np (Bdiv mode_NE x d).
  Proof.
    intros [Nx|Px] [Nd|Pd].
    - destruct x; try discriminate. left. reflexivity.
    - destruct x; try discriminate. left. reflexivity.
    - destruct d; try discriminate. left. destruct x as [| | |]; reflexivity.
    - destruct (is_nan x) eqn:Nx; [destruct x; try discriminate; left; reflexivity|]. destruct (is_nan d) eqn:Nd; [destruct d; try discriminate; left; destruct x as [| | |]; reflexivity|].
      destruct (fval_nonneg_cases x Nx Px) as [(Fx & Qx) | ->]; destruct (fval_nonneg_cases d Nd ltac:(lra)) as [(Fd & Qd) | ->].
      + rewrite fval_finite in Pd by exact Fd. pose proof (Bdiv_correct prec emax Hp Hm mode_NE x d ltac:(lra)) as Hc. fold big in Hc. fold (rnd (B2R x / B2R d)) in Hc.
        assert (0 <= B2R x / B2R d) as Q. { apply Rmult_le_pos; [lra|]. apply Rlt_le, Rinv_0_lt_compat. lra. }
        destruct (Rlt_bool_spec (Rabs (rnd (B2R x / B2R d))) big) as [L|L].
        * destruct Hc as (H1 & H2 & _). right. rewrite fval_finite by (rewrite H2; exact Fx). rewrite H1. rewrite <- rnd_0. apply rnd_mono. exact Q.
        * apply fval_over in Hc. destruct Hc as (_ & Hc). right. rewrite Hc. pose proof big_pos.
          destruct (Bsign x) eqn:Sx.
          { exfalso. apply sign_neg in Sx; [|exact Fx]. assert (B2R x = 0) as Z by lra. rewrite Z in L. unfold Rdiv in L. rewrite Rmult_0_l, rnd_0, Rabs_R0 in L. pose proof big_pos. lra. }
          destruct (Bsign d) eqn:Sdd; [apply sign_neg in Sdd; [|exact Fd]; lra|]. cbn. lra.
      + right. destruct x as [|[]| |]; try discriminate; cbn; lra.
      + destruct d as [[]|[]| |[] m e B]; try discriminate.
        * cbn in Pd. lra.
        * cbn in Pd. lra.
        * exfalso. rewrite fval_finite in Pd by reflexivity. assert (B2R (B754_finite true m e B) < 0) by (apply F2R_lt_0; cbn; lia). lra.
        * right. cbn. apply Rlt_le, big_pos.
      + left. reflexivity.
  Qed.

  Definition slow_law (A : Arith) : Prop := forall u v d c : @num A, nleb n0 v = true -> nleb v u = true -> nleb d n0 = false -> nltb n0 c = true ->
    nleb (ndiv (nsub (nmul u u) (nmul v v)) (nmul n2 d)) (nneg c) = false.
  Lemma F64_slow : slow_law F64.
  Proof.
    intros u v d c Hv Hu Hd Hc. apply (le_iff F64_ord) in Hv, Hu. apply (lt_iff F64_ord) in Hc. destruct Hv as (_ & Nv & Pv), Hu as (_ & Nu & Lu), Hc as (_ & Nc & Pc).
    change (is_nan v = false) in Nv. change (is_nan u = false) in Nu. change (is_nan c = false) in Nc. change (0 <= fval v) in Pv. change (fval v <= fval u) in Lu. change (0 < fval c) in Pc.
    destruct (square_mono u v Nu Nv Pv Lu) as (N1 & N2 & L).
    assert (np (Bdiv mode_NE (Bminus mode_NE (Bmult mode_NE u u) (Bmult mode_NE v v)) (Bmult mode_NE (@n2 F64) d))) as K.
    { apply div_np; [apply minus_np; assumption|]. destruct (is_nan d) eqn:Nd; [left; destruct d; try discriminate; reflexivity|].
      assert (0 < fval d) as Pd.
      { destruct (Rlt_or_le 0 (fval d)) as [Q|Q]; [exact Q|]. exfalso. assert (@nleb F64 d n0 = true) as T; [|congruence]. apply (le_iff F64_ord). split; [exact Nd|]. split; [reflexivity|exact Q]. }
      right. destruct (fval_nonneg_cases d Nd ltac:(lra)) as [(Fd & Qd) | ->]; [|exact big_pos].
      destruct (fval_mult (@n2 F64) d eq_refl Fd) as (_ & E). rewrite E. apply Rlt_le_trans with (fval d); [exact Pd|]. rewrite <- sat_float by exact Fd. apply sat_mono. change (B2R (@n2 F64)) with (F2R (Float radix2 4503599627370496 (-51))). unfold F2R. cbn [Fnum Fexp bpow]. cbn. lra. }
    match goal with |- ?b = false => destruct b eqn:E; [|reflexivity] end. exfalso. apply (le_iff F64_ord) in E. destruct E as (E1 & E2 & E3). change (fval (Bdiv mode_NE (Bminus mode_NE (Bmult mode_NE u u) (Bmult mode_NE v v)) (Bmult mode_NE (@n2 F64) d)) <= fval (Bopp c)) in E3.
    assert (fval (Bopp c) = - fval c) as Eo. { destruct c as [|[]| |]; try discriminate; cbn; try lra. - rewrite <- F2R_Zopp. f_equal. destruct s; reflexivity. }
    destruct K as [K|K]; [|lra]. change (is_nan (Bdiv mode_NE (Bminus mode_NE (Bmult mode_NE u u) (Bmult mode_NE v v)) (Bmult mode_NE (@n2 F64) d)) = false) in E1. congruence.
  Qed.
  Lemma RA_slow : slow_law RA.
  Proof.
    intros u v d c Hv Hu Hd Hc. apply leb_R in Hv, Hu. apply leb_R_false in Hd. apply ltb_R in Hc. match goal with |- ?b = false => destruct b eqn:E; [|reflexivity] end. exfalso. apply leb_R in E.
    assert (0 < 2 * d) as P by (change (0 < d) in Hd; lra). unfold n2 in E. unR. change ((u * u - v * v) / (2 * d) <= - c) in E. change (0 <= v) in Hv. change (v <= u) in Hu. change (0 < c) in Hc.
    assert (0 <= (u * u - v * v) / (2 * d)); [|lra]. apply Rmult_le_pos; [nra|]. apply Rlt_le, Rinv_0_lt_compat. exact P.
  Qed.
End Law.

Lemma alone_reason {A : Arith} (Sl : slow_law A) s k v limit y : St (s_links s) (s_vehicles s) (s_seq s) -> vehicle_at s k = Some v -> alone s k -> open_road s v limit ->
  nleb n0 (v_vel v) = true -> nleb (v_vel v) (nmul (speed_factor v) limit) = true -> nltb n0 (comf_dec v) = true ->
  reason s k v y -> y = limit_model v limit.
Proof.
  intros St1 Gv Al (Nd & Ce & Op) V0 Vu Cd R.
  assert (forall x i, heads_to v i x -> In x (v_route v)) as Hr by (intros x i Q; eapply nth_error_In; exact Q).
  assert (forall x lx, link_at s x = Some lx -> In k (lk_vehicles lx) -> nth_error (v_route v) 0 = Some x) as Cur.
  { intros x lx Gx Hk. destruct (st_occ _ _ _ St1 _ _ Gx) as (_ & Oc). apply Oc in Hk. unfold at_of in Hk. unfold vehicle_at in Gv. rewrite Gv in Hk. exact Hk. }
  assert (forall x lx k2, link_at s x = Some lx -> In k2 (lk_vehicles lx) -> k2 = k) as Only.
  { intros x lx k2 Gx Hk. destruct (st_occ _ _ _ St1 _ _ Gx) as (_ & Oc). apply Oc in Hk. unfold at_of in Hk. destruct (sm_get (s_vehicles s) k2) as [v2|] eqn:G2; [|discriminate Hk]. exact (Al _ _ G2). }
  destruct R as [x lx Gx Hk|x lx k2 v2 Gx (pre & post & El) G2|x lx i d y Gx (a & la & W & Ga & Hk & Hh & Wi) Fl|x lx i d k2 v2 Gx (a & la & W & Ga & Hk & Hh & Wi) (ah & El) G2|x lx i d Gx (a & la & W & Ga & Hk & Hh & Wi) M|a la g p b lb w0 w o o' i d Ga Eg Hpj Hsrc Ed Gb Hw Gw Ap (a2 & la2 & W & Ga2 & Hk & Hh & Wi) Iw Np|a b la lb c c' order p leader q follower Ga Gb Nab Hc Ec Hc' Ec' Mi Oi Bf Eo Nl Ek Ev].
  - destruct (Op x lx) as (-> & _); [eapply (Hr x 0); exact (Cur _ _ Gx Hk)|exact Gx|reflexivity].
  - exfalso. destruct (st_occ _ _ _ St1 _ _ Gx) as (Ndv & _). rewrite El in Ndv. assert (k2 = k) as -> by (exact (Al _ _ G2)). apply NoDup_remove_2 in Ndv. apply Ndv. apply in_app_iff. right. left. reflexivity.
  - destruct (Op x lx (Hr _ _ Hh) Gx) as (El & _). rewrite El in Fl. destruct Fl as [(_ & ->)|(Dd & Fs & _)]; [reflexivity|]. exfalso. unfold slowing in Fs. cbv zeta in Fs. rewrite (Sl _ _ _ _ V0 Vu Dd Cd) in Fs. discriminate Fs.
  - exfalso. assert (k2 = k) as -> by (exact (Al _ _ G2)). assert (nth_error (v_route v) 0 = Some x) as E0. { apply (Cur x lx Gx). rewrite El. left. reflexivity. }
    unfold heads_to in Hh. assert (0 = S i) as Q; [|discriminate Q]. eapply NoDup_nth_error; [exact Nd|apply nth_error_Some; congruence|congruence].
  - exfalso. destruct M as [(_ & Q)|(y & ly & En & _ & Gy & M)]; [congruence|]. destruct (Op y ly) as (_ & Co & _); [eapply nth_error_In; exact En|exact Gy|]. destruct M as [Q|(d' & m & pr & Q & _)]; congruence.
  - exfalso. assert (w0 = k) as -> by (exact (Al _ _ Gw)). destruct (Op a la) as (_ & _ & _ & Q); [eapply (Hr a 0); exact (Cur _ _ Ga Hw)|exact Ga|]. congruence.
  - exfalso. assert (In follower order) as Hf by (rewrite Eo; apply in_app_iff; right; right; left; reflexivity). apply Oi in Hf. rewrite <- Ev in *.
    destruct Hf as [(_ & _ & i & Apf)|(_ & _ & i & Apf)]; apply approaching_facts in Apf; destruct Apf as (_ & Hh).
    + destruct (Op a la (Hr _ _ Hh) Ga) as (_ & _ & Q & _). rewrite Q in Hc. destruct Hc.
    + destruct (Op b lb (Hr _ _ Hh) Gb) as (_ & _ & Q & _). rewrite Q in Hc'. destruct Hc'.
Qed.

(** ** C62: nothing but the limit holds back a vehicle alone on an open road *)
Lemma alone_gen {A : Arith} (O : OrdLaws A) (Sl : slow_law A) e ops s dt s1 s' k v v' limit :
  history (@sim_new A) ops s -> step e s dt = Ok s' -> due (lit 1 10) ops = true -> calculate_lane_changes e s = Ok s1 ->
  vehicle_at s1 k = Some v -> vehicle_at s' k = Some v' -> get_vehicle_frozen s k = false -> alone s1 k -> open_road s1 v limit ->
  nleb n0 (v_vel v) = true -> nleb (v_vel v) (nmul (speed_factor v) limit) = true -> nltb n0 (comf_dec v) = true ->
  acceleration v' = nmax (max_acc v) full_braking \/ acceleration v' = nmax (limit_model v limit) full_braking.
Proof.
  intros Hh H D H1 G1 G' Fz Al Op V0 Vu Cd. pose proof (history_Inv _ _ _ Hh Inv_new) as I. destruct (step_phases _ _ _ _ I H) as (t1 & s2 & s3 & s4 & s5 & P). assert (t1 = s1) by (pose proof (ph1 _ _ _ _ _ _ _ _ _ P); congruence). subst t1.
  destruct (reason_gen O _ _ _ _ _ _ _ _ _ Hh H D H1 G1 G' Fz) as [E|(y & R & E)]; [left; exact E|right].
  rewrite E. f_equal. exact (alone_reason Sl _ _ _ _ _ (ps1 _ _ _ _ _ _ _ _ _ P) G1 Al Op V0 Vu Cd R).
Qed.
Theorem C62_alone : forall e ops s dt s1 s' k v v' limit,
  history (@sim_new F64) ops s -> step e s dt = Ok s' -> due (lit 1 10) ops = true -> calculate_lane_changes e s = Ok s1 ->
  vehicle_at s1 k = Some v -> vehicle_at s' k = Some v' -> get_vehicle_frozen s k = false -> alone s1 k -> open_road s1 v limit ->
  nleb n0 (v_vel v) = true -> nleb (v_vel v) (nmul (speed_factor v) limit) = true -> nltb n0 (comf_dec v) = true ->
  acceleration v' = nmax (max_acc v) full_braking \/ acceleration v' = nmax (limit_model v limit) full_braking.
Proof. exact (@alone_gen F64 F64_ord F64_slow). Qed.
Print Assumptions C62_alone.

(** In exact arithmetic: it has the acceleration for the limit, so it speeds up below its version of it. *)
Local Open Scope R_scope.
Theorem C62_alone_exact : forall e ops s dt s1 s' k v v' (limit : R),
  history (@sim_new RA) ops s -> step e s dt = Ok s' -> due (lit 1 10) ops = true -> calculate_lane_changes e s = Ok s1 ->
  vehicle_at s1 k = Some v -> vehicle_at s' k = Some v' -> get_vehicle_frozen s k = false -> alone s1 k -> open_road s1 v limit ->
  0 <= v_vel v < speed_factor v * limit -> 0 < comf_dec v -> 0 < max_acc v ->
  acceleration v' = max_acc v * (1 - (v_vel v / (speed_factor v * limit)) ^ 4) /\ 0 < acceleration v'.
Proof.
  intros e ops s dt s1 s' k v v' limit Hh H D H1 G1 G' Fz Al Op (V0 & Vu) Cd Ma.
  assert (Rmax (limit_model v limit) (-6) = max_acc v * (1 - (v_vel v / (speed_factor v * limit)) ^ 4) /\ 0 < max_acc v * (1 - (v_vel v / (speed_factor v * limit)) ^ 4) <= max_acc v) as (E2 & E3).
  { set (u := v_vel v / (speed_factor v * limit)). assert (0 <= u < 1) as (U0 & U1).
    { unfold u. split; [apply Rmult_le_pos; [lra|]; apply Rlt_le, Rinv_0_lt_compat; lra|]. apply Rmult_lt_reg_r with (speed_factor v * limit); [lra|]. unfold Rdiv. rewrite Rmult_assoc, Rinv_l by lra. lra. }
    assert (0 <= u * u < 1) by nra. assert (u ^ 4 = (u * u) * (u * u)) as E4 by ring. assert (0 <= u ^ 4 < 1) by (rewrite E4; nra).
    assert (limit_model v limit = max_acc v * (1 - u ^ 4)) as -> by (unfold limit_model; rewrite E4; reflexivity).
    split; [apply Rmax_left|]; nra. }
  assert (acceleration v' = Rmax (max_acc v) (-6) \/ acceleration v' = Rmax (limit_model v limit) (-6)) as [E|E].
  { rewrite <- !max_R. eapply (@alone_gen RA RA_ord RA_slow); try eassumption; [apply leb_R; exact V0|apply leb_R; apply Rlt_le; exact Vu|apply ltb_R; exact Cd]. }
  2:{ rewrite E, E2. split; [reflexivity|apply E3]. }
  pose proof (history_Inv _ _ _ Hh Inv_new) as I. pose proof (history_timers _ _ Hh) as (T & _). pose proof (due_true _ _ _ T D) as D'.
  destruct (step_motion _ _ _ _ _ _ I H G') as (v0 & s1' & _ & _ & _ & G0 & H1' & _ & _ & _ & _ & _ & _ & _ & _ & _ & St1 & _). assert (s1' = s1) by congruence. subst s1'.
  assert (nleb (acceleration v') (nmax (limit_model v limit) full_braking) = true) as K.
  { refine (refresh_bound RA_ord decel_nan_R e s dt s' k v0 v' (limit_model v limit) I H G0 G' D' eq_refl _).
    intros t1 t2 links vs log1 log Et P. assert (t1 = s1) by congruence. subst t1.
    destruct (v_link v) as [x|] eqn:Ex.
    2:{ exfalso. pose proof (parts_ctx _ _ _ _ _ _ _ St1 P) as (_ & HV & En & _). specialize (En k (v_reset v) ltac:(rewrite HV, G1; reflexivity)). change (v_route (v_reset v)) with (v_route v) in En. change (nth_error (v_route v) 0 = None) in Ex. apply nth_error_None in Ex. lia. }
    destruct Op as (_ & _ & Op). 
    assert (exists l, link_at s1 x = Some l) as (l & Gl).
    { apply sm_mem_get. eapply (chain_valid (s_links s1)); [exact (vb_chain _ _ _ _ (st_veh _ _ _ St1 _ _ G1))|]. apply (nth_error_In (v_route v) 0). exact Ex. }
    destruct (Op x l) as (El & _); [apply (nth_error_In (v_route v) 0); exact Ex|exact Gl|]. rewrite <- El. refine (parts_limit _ _ _ _ _ _ _ _ _ _ _ P Gl _ G1).
    destruct (st_occ _ _ _ St1 _ _ Gl) as (_ & Oc). apply Oc. unfold at_of. unfold vehicle_at in G1. rewrite G1. exact Ex. }
  apply leb_R in K. rewrite max_R in K. change (@full_braking RA) with (-6) in K. rewrite E2 in K. rewrite E in K |- *.
  rewrite Rmax_left in K |- * by lra. split; [|exact Ma]. apply Rle_antisym; [exact K|apply E3].
Qed.
Print Assumptions C62_alone_exact.
Close Scope R_scope.

(** A car alone on two links in a row, the second of which is its destination. *)
Definition ex_alone : list (@op F64) :=
  [ OAddLink (ex_line 0 0 40 0) (fz 15); OAddLink (ex_line 40 0 80 0) (fz 15); OAddConnection lane1 lane2;
    OAddVehicle ex_car lane1; OSetDestination car1 lane2; OStep (fz 1); OStep (fz 1); OStep (fz 1) ].
Definition same_f (x y : f64) : bool := match x, y with B754_finite s m e _, B754_finite s' m' e' _ => eqb s s' && Pos.eqb m m' && Z.eqb e e' | _, _ => false end.
Lemma same_f_ok x y : same_f x y = true -> x = y.
Proof.
  destruct x as [| | |s m e B], y as [| | |s' m' e' B']; intros H; try discriminate H. unfold same_f in H. apply andb_true_iff in H. destruct H as (H & H3). apply andb_true_iff in H. destruct H as (H1 & H2).
  apply eqb_prop in H1. apply Pos.eqb_eq in H2. apply Z.eqb_eq in H3. subst. apply B2SF_inj. reflexivity.
Qed.
Definition free_b (s : @sim F64) (x : key) : bool :=
  link_b s x (fun l => match lk_control l, lk_conflicts l, lk_group l with COpen, [], None => same_f (lk_limit l) (fz 15) | _, _, _ => false end).
Definition alone_b (s1 s' : @sim F64) : bool :=
  forallb (fun v => key_eqb (v_id v) car1) (sm_values (s_vehicles s1)) && free_b s1 lane1 && free_b s1 lane2 &&
  veh_b s1 car1 (fun v => veh_b s' car1 (fun v' =>
    (match v_route v with [x; y] => key_eqb x lane1 && key_eqb y lane2 | _ => false end) && v_can_exit v &&
    nltb n0 (v_vel v) && nleb (v_vel v) (nmul (speed_factor v) (fz 15)) && nltb n0 (comf_dec v) && nltb n0 (acceleration v') && nltb (acceleration v') (max_acc v))).
Lemma ex_alone_ok :
  okb (run ex_env sim_new ex_alone) (fun s => due (@lit F64 1 10) ex_alone && negb (get_vehicle_frozen s car1) &&
    okb (calculate_lane_changes ex_env s) (fun s1 => okb (step ex_env s (fz 1)) (fun s' => alone_b s1 s'))) = true.
Proof. vm_compute. reflexivity. Qed.

Lemma free_b_ok s x : free_b s x = true -> forall l, link_at s x = Some l -> lk_limit l = fz 15 /\ lk_control l = COpen /\ lk_conflicts l = [] /\ lk_group l = None.
Proof.
  unfold free_b, link_b. intros H l G. rewrite G in H. destruct (lk_control l) eqn:Ec; try discriminate H. destruct (lk_conflicts l) eqn:Ef; try discriminate H. destruct (lk_group l) eqn:Eg; try discriminate H.
  apply same_f_ok in H. auto.
Qed.
Example C62_example : exists s s1 s' v v',
  history (@sim_new F64) ex_alone s /\ step ex_env s (fz 1) = Ok s' /\ due (lit 1 10) ex_alone = true /\ calculate_lane_changes ex_env s = Ok s1 /\
  vehicle_at s1 car1 = Some v /\ vehicle_at s' car1 = Some v' /\ get_vehicle_frozen s car1 = false /\ alone s1 car1 /\ open_road s1 v (fz 15) /\
  nltb n0 (v_vel v) = true /\ nleb (v_vel v) (nmul (speed_factor v) (fz 15)) = true /\ nltb n0 (comf_dec v) = true /\ nltb n0 (acceleration v') = true /\ nltb (acceleration v') (max_acc v) = true.
Proof.
  pose proof ex_alone_ok as H. apply okb_ok in H. destruct H as (s & H0 & H). apply andb_true_iff in H. destruct H as (D & H). apply andb_true_iff in D. destruct D as (D & Fz). apply negb_true_iff in Fz.
  apply okb_ok in H. destruct H as (s1 & H1 & H). apply okb_ok in H. destruct H as (s' & H2 & H).
  unfold alone_b in H. apply andb_true_iff in H. destruct H as (Hf & H). apply andb_true_iff in Hf. destruct Hf as (Hf & F2). apply andb_true_iff in Hf. destruct Hf as (Hf & F1).
  apply veh_b_ok in H. destruct H as (v & Gv & H). apply veh_b_ok in H. destruct H as (v' & G' & H). do 6 (apply andb_true_iff in H; destruct H as (H & ?)).
  assert (history (@sim_new F64) ex_alone s) as Hh by (eapply run_history; exact H0).
  exists s, s1, s', v, v'. do 7 (split; [assumption|]). split.
  { pose proof (history_Inv _ _ _ Hh Inv_new) as I. destruct (step_phases _ _ _ _ I H2) as (t1 & s2 & s3 & s4 & s5 & P). assert (t1 = s1) by (pose proof (ph1 _ _ _ _ _ _ _ _ _ P); congruence). subst t1.
    intros k2 v2 G2. rewrite forallb_forall in Hf. assert (In v2 (sm_values (s_vehicles s1))) as Hin by (apply in_values; exists k2; exact G2). apply Hf in Hin. apply key_eqb_eq in Hin. rewrite <- Hin. symmetry.
    exact (vb_id _ _ _ _ (st_veh _ _ _ (ps1 _ _ _ _ _ _ _ _ _ P) _ _ G2)). }
  split; [|repeat (split; [assumption|]); assumption].
  destruct (v_route v) as [|x [|y [|]]] eqn:Er; try (discriminate H). apply andb_true_iff in H. destruct H as (Ex & Ey). apply key_eqb_eq in Ex, Ey. subst x y.
  split; [rewrite Er; constructor; [intros [Q|[]]; discriminate Q|constructor; [intros []|constructor]]|]. split; [assumption|].
  rewrite Er. intros x l [<-|[<-|[]]] Gl; [exact (free_b_ok _ _ F1 _ Gl)|exact (free_b_ok _ _ F2 _ Gl)].
Qed.

(** The links of the route must have no conflicts: a vehicle headed for both links of a conflict
    takes itself for another one.  On two links in a row with a conflict it brakes fully at rest,
    before the end of the first, although it is alone and the road is otherwise open. *)
Definition ex_self : list (@op F64) :=
  [ OAddLink (ex_line 0 0 40 0) (fz 15); OAddLink (ex_line 40 0 80 0) (fz 15); OAddConnection lane1 lane2; OAddConvergence lane1 lane2;
    OAddVehicle ex_car lane1; OSetDestination car1 lane2 ] ++ repeat (OStep (fz 1)) 7.
Definition self_b (s1 s' : @sim F64) : bool :=
  forallb (fun v => key_eqb (v_id v) car1) (sm_values (s_vehicles s1)) &&
  link_b s1 lane1 (fun l => match lk_control l, lk_group l with COpen, None => true | _, _ => false end) &&
  link_b s1 lane2 (fun l => match lk_control l, lk_group l with COpen, None => true | _, _ => false end) &&
  veh_b s1 car1 (fun v => veh_b s' car1 (fun v' =>
    (match v_route v with [x; y] => key_eqb x lane1 && key_eqb y lane2 | _ => false end) && v_can_exit v && neqb (v_vel v) n0 && neqb (v_vel v') n0 && nltb (acceleration v') n0)).
Lemma ex_self_ok :
  okb (run ex_env sim_new ex_self) (fun s => due (@lit F64 1 10) ex_self && negb (get_vehicle_frozen s car1) &&
    okb (calculate_lane_changes ex_env s) (fun s1 => okb (step ex_env s (fz 1)) (fun s' => self_b s1 s'))) = true.
Proof. vm_compute. reflexivity. Qed.
Theorem C62_own_conflict_refuted : exists e ops (s s1 s' : @sim F64) dt k v v',
  history sim_new ops s /\ step e s dt = Ok s' /\ due (lit 1 10) ops = true /\ calculate_lane_changes e s = Ok s1 /\
  vehicle_at s1 k = Some v /\ vehicle_at s' k = Some v' /\ get_vehicle_frozen s k = false /\ alone s1 k /\
  NoDup (v_route v) /\ v_can_exit v = true /\ (forall x l, In x (v_route v) -> link_at s1 x = Some l -> lk_control l = COpen /\ lk_group l = None) /\
  neqb (v_vel v) n0 = true /\ neqb (v_vel v') n0 = true /\ nltb (acceleration v') n0 = true.
Proof.
  pose proof ex_self_ok as H. apply okb_ok in H. destruct H as (s & H0 & H). apply andb_true_iff in H. destruct H as (D & H). apply andb_true_iff in D. destruct D as (D & Fz). apply negb_true_iff in Fz.
  apply okb_ok in H. destruct H as (s1 & H1 & H). apply okb_ok in H. destruct H as (s' & H2 & H).
  unfold self_b in H. apply andb_true_iff in H. destruct H as (Hf & H). apply andb_true_iff in Hf. destruct Hf as (Hf & F2). apply andb_true_iff in Hf. destruct Hf as (Hf & F1).
  apply veh_b_ok in H. destruct H as (v & Gv & H). apply veh_b_ok in H. destruct H as (v' & G' & H). do 4 (apply andb_true_iff in H; destruct H as (H & ?)).
  assert (history (@sim_new F64) ex_self s) as Hh by (eapply run_history; exact H0).
  exists ex_env, ex_self, s, s1, s', (fz 1), car1, v, v'. do 7 (split; [assumption|]). split.
  { pose proof (history_Inv _ _ _ Hh Inv_new) as I. destruct (step_phases _ _ _ _ I H2) as (t1 & s2 & s3 & s4 & s5 & P). assert (t1 = s1) by (pose proof (ph1 _ _ _ _ _ _ _ _ _ P); congruence). subst t1.
    intros k2 v2 G2. rewrite forallb_forall in Hf. assert (In v2 (sm_values (s_vehicles s1))) as Hin by (apply in_values; exists k2; exact G2). apply Hf in Hin. apply key_eqb_eq in Hin. rewrite <- Hin. symmetry.
    exact (vb_id _ _ _ _ (st_veh _ _ _ (ps1 _ _ _ _ _ _ _ _ _ P) _ _ G2)). }
  destruct (v_route v) as [|x [|y [|]]] eqn:Er; try (discriminate H). apply andb_true_iff in H. destruct H as (Ex & Ey). apply key_eqb_eq in Ex, Ey. subst x y.
  split; [constructor; [intros [Q|[]]; discriminate Q|constructor; [intros []|constructor]]|]. split; [assumption|]. split; [|auto].
  intros x l [<-|[<-|[]]] Gl; [unfold link_b in F1; rewrite Gl in F1; rename F1 into F|unfold link_b in F2; rewrite Gl in F2; rename F2 into F]; destruct (lk_control l); try discriminate F; destruct (lk_group l); try discriminate F; auto.
Qed.
Print Assumptions C62_own_conflict_refuted.
