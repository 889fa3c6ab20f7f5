(** * How time is cut into steps (C90) *)
From Coq Require Import List Bool ZArith NArith Arith Lia Reals Lra.
From Verif Require Import Arith RealArith Base BaseProofs SlotMap Util Geom Light Accel Net Path Vehicle LinkOps Sim SpecSim SpecMotion SlotMapProofs Safe NetInv SimInv StepEvo SimProofs StepProofs Motion RFacts GapProofs SpecMap RoadMap SpecGlide GlideProofs SpecProg P_Prog RaExample P_RoadEx P_ShutEx.
Import ListNotations.
Local Open Scope R_scope.

Ltac fieldR := match goal with |- ?x = ?y => change (@eq R x y) end; field.

Lemma length_kept e (s : @sim RA) dt s' k : Inv s -> step e s dt = Ok s' -> length_of s' k = length_of s k.
Proof.
  intros I H. pose proof (map_kept e s (OStep dt) s' I Logic.I H k) as M. unfold length_of, link_at.
  destruct (sm_get (s_links s) k) as [l|], (sm_get (s_links s') k) as [l'|]; try contradiction; [|reflexivity]. destruct M as (_ & E & _). unfold lk_length. rewrite E. reflexivity.
Qed.
Lemma along_kept e (s : @sim RA) dt s' : Inv s -> step e s dt = Ok s' -> forall r n, along s' r n = along s r n.
Proof. intros I H r n. revert r. induction n as [|n IH]; intros [|k r]; cbn [along]; try reflexivity. rewrite IH, (length_kept _ _ _ _ _ I H). reflexivity. Qed.

Lemma alg0 (x vel a : R) : x = x + vel * 0 + a * 0 ^ 2 / 2 - 0.
Proof. field. Qed.
Lemma alg1 (x vel a d : R) : x + / 2 * (vel + (vel + d * a)) * d = x + vel * d + a * d ^ 2 / 2 - 0.
Proof. field. Qed.
Lemma alg2 (x vel a d l : R) : x + / 2 * (vel + (vel + d * a)) * d - l = x + vel * d + a * d ^ 2 / 2 - (l + 0).
Proof. field. Qed.
Lemma alg3 (x vel a d t p q : R) : x + vel * d + a * d ^ 2 / 2 - p + (vel + d * a) * t + a * t ^ 2 / 2 - q = x + vel * (d + t) + a * (d + t) ^ 2 / 2 - (p + q).
Proof. field. Qed.
Lemma glide_R (s : @sim RA) (d : R) (v v' : @vehicle RA) : glide (s_links s) d v v' -> 0 <= d -> 0 <= v_vel v ->
  v_acc v' = v_acc v /\ v_vel v' = Rmax (v_vel v + d * acceleration v) 0 /\
  exists n, v_route v' = skipn n (v_route v) /\ (0 <= v_vel v + d * acceleration v -> v_pos v' = v_pos v + v_vel v * d + acceleration v * d ^ 2 / 2 - along s (v_route v) n).
Proof.
  intros (Ea & Ev & lid & l & p & Hl & Gl & Ep & Q) D V. split; [exact Ea|]. rewrite max_R in Ev. change (v_vel v' = Rmax (v_vel v + d * acceleration v) 0) in Ev. split; [exact Ev|].
  assert (p = v_pos v + / 2 * (v_vel v + v_vel v') * d) as Ep' by (rewrite Ep; unfold nhalf; cbn; lra).
  destruct Q as [(_ & Er & Pp)|(_ & Er & Pp)].
  - exists 0%nat. split; [exact Er|]. intros B. rewrite Rmax_left in Ev by exact B. rewrite Pp, Ep', Ev. cbn [along]. apply alg1.
  - exists 1%nat. destruct (v_route v) as [|k r] eqn:Rv; [unfold v_link in Hl; rewrite Rv in Hl; discriminate|]. split; [exact Er|]. intros B. rewrite Rmax_left in Ev by exact B.
    unfold v_link in Hl. rewrite Rv in Hl. injection Hl as ->. rewrite Pp. unfold along, length_of, link_at. rewrite Gl. change (p - lk_length l = v_pos v + v_vel v * d + acceleration v * d ^ 2 / 2 - (lk_length l + 0)). rewrite Ep', Ev. apply alg2.
Qed.

Lemma skipn_skipn {X} n m (l : list X) : skipn n (skipn m l) = skipn (m + n) l.
Proof. revert l. induction m as [|m IH]; intros l; [reflexivity|]. destruct l; [rewrite !skipn_nil; reflexivity|]. apply IH. Qed.
Lemma along_app s r m n : along s r (m + n) = along s r m + along s (skipn m r) n.
Proof. revert r. induction m as [|m IH]; intros r; cbn [Nat.add]; [cbn [along skipn]; lra|]. destruct r as [|k r]; [destruct n; cbn; lra|]. cbn [along skipn]. rewrite IH. lra. Qed.

(** Moving for [d] and then for [t] is moving for [d + t]. *)
Lemma glide_join (s : @sim RA) (d t a x vel : R) (v w v' : @vehicle RA) : 0 <= d -> 0 <= t -> 0 <= vel -> v_vel w = Rmax (vel + d * a) 0 ->
  (exists n, v_route w = skipn n (v_route v) /\ (0 <= vel + d * a -> v_pos w = x + vel * d + a * d ^ 2 / 2 - along s (v_route v) n)) ->
  v_vel v' = Rmax (v_vel w + t * a) 0 ->
  (exists n, v_route v' = skipn n (v_route w) /\ (0 <= v_vel w + t * a -> v_pos v' = v_pos w + v_vel w * t + a * t ^ 2 / 2 - along s (v_route w) n)) ->
  v_vel v' = Rmax (vel + (d + t) * a) 0 /\
  exists n, v_route v' = skipn n (v_route v) /\ (0 <= vel + (d + t) * a -> v_pos v' = x + vel * (d + t) + a * (d + t) ^ 2 / 2 - along s (v_route v) n).
Proof.
  intros D T V Ew (n & Rw & Pw) Ev (m & Rv & Pv). destruct (Rle_dec 0 a) as [Ha|Ha].
  - assert (0 <= d * a) by (apply Rmult_le_pos; assumption). assert (0 <= t * a) by (apply Rmult_le_pos; assumption).
    rewrite Rmax_left in Ew by lra. split; [rewrite Ev, Ew; f_equal; lra|]. exists (n + m)%nat. split; [rewrite Rv, Rw; apply skipn_skipn|]. intros _.
    rewrite Pv by lra. rewrite Pw by lra. rewrite Rw, along_app, Ew. apply alg3.
  - assert (0 <= d * (- a)) by (apply Rmult_le_pos; lra). assert (0 <= t * (- a)) by (apply Rmult_le_pos; lra). split.
    + rewrite Ev, Ew. destruct (Rle_dec 0 (vel + d * a)) as [B|B]; [rewrite (Rmax_left (vel + d * a)) by lra; f_equal; lra|].
      rewrite (Rmax_right (vel + d * a)) by lra. rewrite !Rmax_right by lra. reflexivity.
    + exists (n + m)%nat. split; [rewrite Rv, Rw; apply skipn_skipn|]. intros B. rewrite Rmax_left in Ew by lra. rewrite Pv by lra. rewrite Pw by lra. rewrite Rw, along_app, Ew. apply alg3.
Qed.

Lemma undisturbed_tl ops d ds : undisturbed ops (d :: ds) -> due (@lit RA 1 10) ops = false /\ due (@lit RA 3 10) ops = false /\ undisturbed (ops ++ [@OStep RA d]) ds.
Proof.
  intros U. destruct (U [] d ds eq_refl) as (D1 & D2). cbn [map] in D1, D2. rewrite app_nil_r in D1, D2. split; [exact D1|]. split; [exact D2|].
  intros b x a E. subst ds. rewrite <- !app_assoc. cbn. apply (U (d :: b) x a). reflexivity.
Qed.

Lemma time_pos dts : List.Forall (fun dt => 0 <= dt) dts -> 0 <= time_of dts.
Proof. intros F. induction F as [|d dts Fd F IH]; [apply Rle_refl|]. change (0 <= d + time_of dts). lra. Qed.
Lemma glide_all : forall dts ops (s s' : @sim RA) k v', history sim_new ops s -> history s (map (@OStep RA) dts) s' -> undisturbed ops dts -> List.Forall (fun dt => 0 <= dt) dts ->
    vehicle_at s' k = Some v' -> exists v, vehicle_at s k = Some v /\ v_acc v' = v_acc v /\ v_vel v' = Rmax (v_vel v + time_of dts * acceleration v) 0 /\
    exists n, v_route v' = skipn n (v_route v) /\ (0 <= v_vel v + time_of dts * acceleration v -> v_pos v' = v_pos v + v_vel v * time_of dts + acceleration v * time_of dts ^ 2 / 2 - along s (v_route v) n).
Proof.
  induction dts as [|d dts IH]; intros ops s s' k v' Hh H U F G'.
    - inversion H; subst. exists v'. split; [exact G'|]. split; [reflexivity|]. cbn [time_of fold_right]. assert (0 <= v_vel v') by (eapply vel0_R; [eapply history_reachable; [exact Hh|constructor]|exact G']).
      split; [rewrite Rmax_left; lra|]. exists 0%nat. split; [reflexivity|]. intros _. cbn [along]. apply alg0.
    - inversion H as [|? e ? s1 ? ? H1 H2]; subst. inversion F as [|? ? Fd Ft]; subst. destruct (undisturbed_tl _ _ _ U) as (D1 & D2 & U').
      assert (history sim_new (ops ++ [@OStep RA d]) s1) as Hh1. { eapply history_app; [exact Hh|]. econstructor; [exact H1|constructor]. }
      destruct (IH _ _ _ _ _ Hh1 H2 U' Ft G') as (w & Gw & Aw & Vw & Pw). pose proof (history_Inv _ _ _ Hh Inv_new) as I.
      destruct (step_glide _ _ _ _ _ _ I H1 Gw) as (s2 & v & v2 & Dc & Gv & G2 & _ & Gl). destruct (history_timers _ _ Hh) as (Ta & Tl).
      rewrite (decided_kept _ _ _ Dc (due_false _ _ _ Ta D1) (due_false _ _ _ Tl D2)) in G2. assert (v2 = v) by congruence. subst v2.
      assert (0 <= v_vel v) as V0 by (eapply vel0_R; [eapply history_reachable; [exact Hh|constructor]|exact Gv]).
      destruct (glide_R _ _ _ _ Gl Fd V0) as (E1 & E2 & E3). exists v. split; [exact Gv|]. split; [congruence|].
      assert (acceleration w = acceleration v) as Ew by (unfold acceleration; rewrite E1; reflexivity). rewrite Ew in Vw, Pw.
      assert (0 <= time_of dts) as T0 by (apply time_pos; exact Ft).
      destruct Pw as (n & P1 & P2). rewrite (along_kept _ _ _ _ I H1) in P2.
      exact (glide_join s d (time_of dts) (acceleration v) (v_pos v) (v_vel v) v w v' Fd T0 V0 E2 E3 Vw (ex_intro _ n (conj P1 P2))).
Qed.

(** Until accelerations and lanes are chosen anew, the acceleration of a vehicle is constant; after the time [T] its speed has changed by [T] times
    the acceleration (a vehicle that stops stays there) and it has come as far as constant acceleration takes it, however the time is cut into steps. *)
Theorem C90_motion :
  forall dts ops (s s' : @sim RA) k v v', history sim_new ops s -> history s (map (@OStep RA) dts) s' -> undisturbed ops dts -> List.Forall (fun dt => 0 <= dt) dts ->
    vehicle_at s k = Some v -> vehicle_at s' k = Some v' ->
    acceleration v' = acceleration v /\
    v_vel v' = Rmax (v_vel v + time_of dts * acceleration v) 0 /\
    (0 <= v_vel v + time_of dts * acceleration v ->
     is_at s (v_route v) (v_pos v + v_vel v * time_of dts + acceleration v * time_of dts ^ 2 / 2) v').
Proof.
  intros dts ops s s' k v v' Hh H U F G G'. destruct (glide_all _ _ _ _ _ _ Hh H U F G') as (v0 & G0 & Ea & Ev & n & Er & Ep). assert (v0 = v) by congruence. subst v0.
  split; [unfold acceleration; rewrite Ea; reflexivity|]. split; [exact Ev|]. intros B. exists n. split; [exact Er|exact (Ep B)].
Qed.
Print Assumptions C90_motion.

(** The choices are made at the start of a step and do not depend on its length.  So if time is cut into steps in two ways, and no choices are made
    after the first step, all vehicles have the same accelerations and the same speeds in the end, and a vehicle that has not come to a stop has come
    equally far on the same route. *)
Theorem C90_cuts :
  forall ops (s s1 s1' s2 s2' : @sim RA) e d1 dts1 d2 dts2 k v v1 v2, history sim_new ops s ->
    step e s d1 = Ok s1 -> history s1 (map (@OStep RA) dts1) s1' -> undisturbed (ops ++ [@OStep RA d1]) dts1 -> List.Forall (fun dt => 0 <= dt) (d1 :: dts1) ->
    step e s d2 = Ok s2 -> history s2 (map (@OStep RA) dts2) s2' -> undisturbed (ops ++ [@OStep RA d2]) dts2 -> List.Forall (fun dt => 0 <= dt) (d2 :: dts2) ->
    time_of (d1 :: dts1) = time_of (d2 :: dts2) ->
    vehicle_at s k = Some v -> vehicle_at s1' k = Some v1 -> vehicle_at s2' k = Some v2 ->
    acceleration v1 = acceleration v2 /\ v_vel v1 = v_vel v2 /\
    (0 <= v_vel v + time_of (d1 :: dts1) * acceleration v1 -> exists route way, is_at s route way v1 /\ is_at s route way v2).
Proof.
  intros ops s s1 s1' s2 s2' e d1 dts1 d2 dts2 k v v1 v2 Hh H1 K1 U1 F1 H2 K2 U2 F2 Et G G1 G2. pose proof (history_Inv _ _ _ Hh Inv_new) as I.
  assert (forall d dts t t' w', step e s d = Ok t -> history t (map (@OStep RA) dts) t' -> undisturbed (ops ++ [@OStep RA d]) dts -> List.Forall (fun dt => 0 <= dt) (d :: dts) -> vehicle_at t' k = Some w' ->
    exists u x, decided e s u /\ sm_get (s_vehicles u) k = Some x /\ v_vel x = v_vel v /\ v_acc w' = v_acc x /\ v_vel w' = Rmax (v_vel x + time_of (d :: dts) * acceleration x) 0 /\
    exists n, v_route w' = skipn n (v_route x) /\ (0 <= v_vel x + time_of (d :: dts) * acceleration x -> v_pos w' = v_pos x + v_vel x * time_of (d :: dts) + acceleration x * time_of (d :: dts) ^ 2 / 2 - along s (v_route x) n)) as K.
  { intros d dts t t' w' H Hd U F Gw'. inversion F as [|? ? Fd Ft]; subst.
    assert (history sim_new (ops ++ [@OStep RA d]) t) as Hh1. { eapply history_app; [exact Hh|]. econstructor; [exact H|constructor]. }
    destruct (glide_all _ _ _ _ _ _ Hh1 Hd U Ft Gw') as (w & Gw & Aw & Vw & n & P1 & P2). rewrite (along_kept _ _ _ _ I H) in P2.
    destruct (step_glide _ _ _ _ _ _ I H Gw) as (u & v0 & x & Dc & G0 & Gx & Vx & Gl). assert (v0 = v) by (unfold vehicle_at in G; congruence). subst v0.
    assert (0 <= v_vel x) as V0. { rewrite Vx. eapply vel0_R; [eapply history_reachable; [exact Hh|constructor]|exact G]. }
    destruct (glide_R _ _ _ _ Gl Fd V0) as (E1 & E2 & E3). exists u, x. split; [exact Dc|]. split; [exact Gx|]. split; [exact Vx|]. split; [congruence|].
    assert (acceleration w = acceleration x) as Ew by (unfold acceleration; rewrite E1; reflexivity). rewrite Ew in Vw, P2.
    assert (0 <= time_of dts) as T0 by (apply time_pos; exact Ft).
    exact (glide_join s d (time_of dts) (acceleration x) (v_pos x) (v_vel x) x w w' Fd T0 V0 E2 E3 Vw (ex_intro _ n (conj P1 P2))). }
  destruct (K _ _ _ _ _ H1 K1 U1 F1 G1) as (u & x & Dc & Gx & Vx & A1 & V1 & n1 & R1 & P1). destruct (K _ _ _ _ _ H2 K2 U2 F2 G2) as (u' & x' & Dc' & Gx' & _ & A2 & V2 & n2 & R2 & P2).
  rewrite <- (decided_fun _ _ _ _ Dc Dc') in Gx'. assert (x' = x) by congruence. subst x'. rewrite <- Et in V2, P2.
  split; [unfold acceleration; congruence|]. split; [rewrite V1, V2; reflexivity|]. intros B. assert (acceleration v1 = acceleration x) as Ea by (unfold acceleration; congruence). rewrite Ea, <- Vx in B.
  exists (v_route x), (v_pos x + v_vel x * time_of (d1 :: dts1) + acceleration x * time_of (d1 :: dts1) ^ 2 / 2). split; [exists n1; split; [exact R1|exact (P1 B)]|exists n2; split; [exact R2|exact (P2 B)]].
Qed.
Print Assumptions C90_cuts.

(** Two vehicles that have come equally far on the same route, each past the start and not past the end of its link, are at the same place. *)
Theorem C90_place :
  forall (s : @sim RA) route way v1 v2, (forall k, 0 <= length_of s k) -> is_at s route way v1 -> is_at s route way v2 -> inside s v1 -> inside s v2 ->
    v_route v1 = v_route v2 /\ v_pos v1 = v_pos v2.
Proof.
  intros s route way v1 v2 Ln.
  assert (forall r n, 0 <= along s r n) as Ap. { intros r n. revert r. induction n as [|n IH]; intros [|k r]; cbn [along]; try lra. specialize (IH r). specialize (Ln k). lra. }
  assert (forall n m (w1 w2 : @vehicle RA), (n < m)%nat -> v_route w1 = skipn n route -> v_pos w1 = way - along s route n -> v_pos w2 = way - along s route m -> inside s w1 -> inside s w2 -> False) as K.
  { intros n m w1 w2 L R1 P1 P2 (k & Lk & B1) (k2 & _ & B2). unfold v_link in Lk. rewrite R1 in Lk. replace m with (n + (1 + (m - n - 1)))%nat in P2 by lia.
    rewrite along_app in P2. destruct (skipn n route) as [|k' r]; [discriminate Lk|]. injection Lk as ->. cbn [Nat.add along] in P2. specialize (Ap r (m - n - 1)%nat).
    assert (v_pos w1 = v_pos w2 + (length_of s k + along s r (m - n - 1)%nat)) by (rewrite P1, P2; unR; lra). lra. }
  intros (n & R1 & P1) (m & R2 & P2) I1 I2. destruct (lt_eq_lt_dec n m) as [[L| -> ]|L].
  - destruct (K n m v1 v2 L R1 P1 P2 I1 I2).
  - split; congruence.
  - destruct (K m n v2 v1 L R2 P2 P1 I2 I1).
Qed.
Print Assumptions C90_place.

(** It is different for the step in which a vehicle comes to a stop: braking at [b] it needs [vel ^ 2 / (2 * b)], but the step moves it by half the distance
    that it drives in this time without braking, which is more, and depends on the length of the step. *)
Theorem C90_stop :
  forall ops (s s' : @sim RA) e dt k v v', history sim_new ops s -> step e s dt = Ok s' -> undisturbed ops [dt] -> 0 <= dt ->
    vehicle_at s k = Some v -> vehicle_at s' k = Some v' -> v_vel v + dt * acceleration v < 0 ->
    v_vel v' = 0 /\ is_at s (v_route v) (v_pos v + v_vel v * dt / 2) v' /\ v_vel v ^ 2 / (2 * - acceleration v) <= v_vel v * dt / 2.
Proof.
  intros ops s s' e dt k v v' Hh H U D G G' B. destruct (undisturbed_tl _ _ _ U) as (D1 & D2 & _). pose proof (history_Inv _ _ _ Hh Inv_new) as I.
  destruct (step_glide _ _ _ _ _ _ I H G') as (s2 & v0 & v2 & Dc & Gv & G2 & _ & Gl). destruct (history_timers _ _ Hh) as (Ta & Tl).
  rewrite (decided_kept _ _ _ Dc (due_false _ _ _ Ta D1) (due_false _ _ _ Tl D2)) in G2. assert (v2 = v) by (unfold vehicle_at in G; congruence). subst v2.
  assert (0 <= v_vel v) as V0 by (eapply vel0_R; [eapply history_reachable; [exact Hh|constructor]|exact G]).
  destruct Gl as (_ & Ev & lid & l & p & Hl & Gl & Ep & Q). rewrite max_R in Ev. change (v_vel v' = Rmax (v_vel v + dt * acceleration v) 0) in Ev. rewrite Rmax_right in Ev by lra. split; [exact Ev|].
  assert (p = v_pos v + v_vel v * dt / 2) as Ep' by (rewrite Ep, Ev; unfold nhalf; cbn; lra). split.
  - destruct Q as [(_ & Er & Pp)|(_ & Er & Pp)]; [exists 0%nat|exists 1%nat]; (split; [exact Er|]); rewrite Pp.
    + cbn [along]. rewrite Ep'. match goal with |- ?x = ?y => change (@eq R x y) end. lra.
    + destruct (v_route v) as [|k0 r] eqn:Rv; [unfold v_link in Hl; rewrite Rv in Hl; discriminate|]. unfold v_link in Hl. rewrite Rv in Hl. injection Hl as ->.
      cbn [along]. unfold length_of, link_at. rewrite Gl. change (p - lk_length l = v_pos v + v_vel v * dt / 2 - (lk_length l + 0)). rewrite Ep'. match goal with |- ?x = ?y => change (@eq R x y) end. lra.
  - set (a := acceleration v : R) in *. set (u := v_vel v : R) in *. change (u + dt * a < 0) in B. change (0 <= u) in V0.
    assert (0 < - a). { destruct (Rle_dec 0 a) as [Ha|Ha]; [|lra]. assert (0 <= dt * a) by (apply Rmult_le_pos; assumption). lra. }
    apply (Rmult_le_reg_r (2 * - a)); [lra|]. change (u ^ 2 / (2 * - a) * (2 * - a) <= u * dt / 2 * (2 * - a)). replace (u ^ 2 / (2 * - a) * (2 * - a)) with (u * u) by (field; lra).
    replace (u * dt / 2 * (2 * - a)) with (u * (dt * - a)) by field. apply Rmult_le_compat_l; lra.
Qed.
Print Assumptions C90_stop.

(** ** A case: a car that drives up to a stop sign.  Accelerations are chosen at the start of the second tenth of a second; this tenth is made in one
    step of 0.1 s, and in two of 0.05 s. *)
Definition up_to_now : list (@op RA) := shut_ops ++ [@OSetDestination RA only_car part2; @OStep RA (1 / 10)].
Lemma due_ops (lim t : R) (ops : list (@op RA)) : @clock RA lim 0 (time_steps ops) = t -> @nltb RA t lim = true -> @due RA lim ops = false.
Proof. intros E L. unfold due. change (@n0 RA) with 0. rewrite E, L. reflexivity. Qed.
Lemma clock_tenth (lim : R) : 1 / 10 <= lim -> @clock RA lim 0 (time_steps up_to_now) = 1 / 10.
Proof. intros L. cbn [up_to_now app time_steps shut_ops flat_map clock]. rewrite (proj2 (ltb_R _ _)) by lra. cbn. lra. Qed.
Lemma two_halves : undisturbed (up_to_now ++ [@OStep RA (1 / 20)]) [1 / 20].
Proof.
  intros b x a E. destruct b as [|y b]; [|destruct b; discriminate E]. cbn [map]. rewrite app_nil_r.
  assert (@lit RA 1 10 = 1 / 10) as L1 by (unfold lit; cbn; lra). assert (@lit RA 3 10 = 3 / 10) as L3 by (unfold lit; cbn; lra). rewrite L1, L3.
  assert (forall lim : R, 1 / 10 <= lim -> @clock RA lim 0 (time_steps (up_to_now ++ [@OStep RA (1 / 20)])) = (if @nltb RA (1 / 10) lim then 1 / 10 else 0) + 1 / 20) as C.
  { intros lim L. cbn [up_to_now app time_steps shut_ops flat_map clock]. rewrite (proj2 (ltb_R 0 lim)) by lra. change (@nadd RA) with Rplus. replace (0 + 1 / 10) with (1 / 10) by lra. reflexivity. }
  split; (eapply due_ops; [apply C; lra|]).
  - rewrite (proj2 (ltb_R_false (1 / 10) (1 / 10))) by lra. apply ltb_R. lra.
  - rewrite (proj2 (ltb_R (1 / 10) (3 / 10))) by lra. apply ltb_R. lra.
Qed.
Theorem C90_case : exists (s s1 s1' s2' : @sim RA) e v v1 v2, history (@sim_new RA) up_to_now s /\ due (@lit RA 1 10) up_to_now = true /\
  step e s (1 / 20) = Ok s1 /\ history s1 (map (@OStep RA) [1 / 20]) s1' /\ step e s (1 / 10) = Ok s2' /\ 
  vehicle_at s only_car = Some v /\ vehicle_at s1' only_car = Some v1 /\ vehicle_at s2' only_car = Some v2 /\ acceleration v1 = acceleration v2 /\ v_vel v1 = v_vel v2.
Proof.
  set (pick := e_pick ra_env). destruct (C82_case pick) as (s0 & sd & e0 & l1 & Hh & Hd & _ & _ & _ & _ & Go).
  destruct (Go [1 / 10]) as (m0 & s & v & Hs & Gv & _); [repeat constructor; lra|].
  destruct (Go [1 / 10; 1 / 20; 1 / 20]) as (n1 & s1' & v1 & Hs1 & G1 & _); [repeat constructor; lra|].
  destruct (Go [1 / 10; 1 / 10]) as (n2 & s2' & v2 & Hs2 & G2 & _); [repeat constructor; lra|].
  set (f := Nat.max m0 (Nat.max n1 n2)). specialize (Hs f). specialize (Hs1 f). specialize (Hs2 f). specialize (Hs ltac:(lia)). specialize (Hs1 ltac:(lia)). specialize (Hs2 ltac:(lia)).
  assert (exists e1, run e1 sd [@OStep RA (1 / 10)] = Ok s) as (e1 & He1) by eauto. pose proof (run_history _ _ _ _ He1) as Hh1. clear e1 He1.
  cbn [map run] in Hs, Hs1, Hs2. destruct (exec (Env f pick) sd (@OStep RA (1 / 10))) as [t| |]; cbn [bind] in Hs, Hs1, Hs2; try discriminate Hs. injection Hs as ->.
  cbn [exec] in Hs1, Hs2. destruct (@step RA (Env f pick) s (1 / 20)) as [s1| |] eqn:E1; cbn [bind] in Hs1; try discriminate Hs1.
  destruct (@step RA (Env f pick) s (1 / 10)) as [s2| |] eqn:E2; cbn [bind] in Hs2; try discriminate Hs2. injection Hs2 as ->.
  assert (history (@sim_new RA) up_to_now s) as Hu. { unfold up_to_now. eapply history_app; [exact Hh|]. econstructor; [exact Hd|exact Hh1]. }
  assert (history s1 (map (@OStep RA) [1 / 20]) s1') as H1. { destruct (@step RA (Env f pick) s1 (1 / 20)) as [t| |] eqn:E3; cbn [bind] in Hs1; try discriminate Hs1. injection Hs1 as ->. econstructor; [exact E3|constructor]. }
  destruct (C90_cuts up_to_now s s1 s1' s2' s2' (Env f pick) (1 / 20) [1 / 20] (1 / 10) [] only_car v v1 v2) as (Q1 & Q2 & _); auto; try (repeat constructor; lra).
  - exact two_halves.
  - intros b x a E. destruct b; discriminate E.
  - cbn. lra.
  - exists s, s1, s1', s2', (Env f pick), v, v1, v2. split; [exact Hu|]. split.
    { unfold due. assert (@lit RA 1 10 = 1 / 10) as L1 by (unfold lit; cbn; lra). rewrite L1. change (@n0 RA) with 0. rewrite clock_tenth by lra. rewrite (proj2 (ltb_R_false (1 / 10) (1 / 10))) by lra. reflexivity. }
    auto 12.
Qed.
Print Assumptions C90_case.
