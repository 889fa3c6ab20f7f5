(** * C71: where several links lead on, the one connected first is taken *)
From Coq Require Import List Bool ZArith NArith Arith Lia Relation_Operators Operators_Properties.
From Verif Require Import Arith RealArith Base BaseProofs SlotMap Util Geom Light Accel Net Path Vehicle LinkOps Sim SpecSim SlotMapProofs Safe NetInv SimInv AccSafe SimSafe StepSafe OpSafe Evo StepEvo SimProofs StepProofs Motion SpecRoute PlanProofs RouteProofs RouteEvo P_Route P_Exit NetEvo SpecArrive ArriveProofs SpecCheap CheapProofs FirstProofs P_Cheap F64 SimExample P_Motion P_Lane.
Import ListNotations.

(** Whenever a vehicle that was sent to a destination goes from one link to another, on roads without lanes beside each
    other, the new link is the first in [links_out()] of the old one for which the vehicle has a routing entry. *)
Theorem C71_first_way :
  forall (A : Arith) ops1 e s0 k d s1 ops2 s v0 a e' dt s' v v' x y, @cast_in_range A -> history sim_new ops1 s0 -> groups_apart ops1 ->
    vehicle_at s0 k = Some v0 -> v_route v0 = [a] -> leads (s_links s0) a d -> exec e s0 (OSetDestination k d) = Ok s1 -> history s1 ops2 s ->
    (forall o, In o ops2 -> redirects k o = false /\ moves k o = false /\ builds o = false) -> no_lanes s0 ->
    step e' s dt = Ok s' -> vehicle_at s k = Some v -> vehicle_at s' k = Some v' -> v_link v = Some x -> v_link v' = Some y -> x <> y ->
    first_routed (s_links s0) v x y.
Proof.
  intros A ops1 e s0 k d s1 ops2 s v0 a e' dt s' v v' x y Cast Hist Ap G0 R0 Ld H H2 Ho Nl Hs G G' L L' Nxy.
  destruct (sent_first Cast ops1 e s0 k d s1 ops2 s v0 a Hist Ap G0 R0 Ld H H2 Ho Nl) as (m & v1 & Fl & G1 & Em & R1 & F1 & Sn & I & K).
  pose proof (K v G) as F. destruct (step_first (s_links s0) m e' s dt s' k v v' I F Hs G G') as [E|(x' & y' & Lx & Ly & (l & bf & af & Gl & El & My & Nb))]; [exfalso; apply Nxy; congruence|].
  assert (x' = x) by congruence. assert (y' = y) by congruence. subst x' y'. destruct F as ((E & _) & _). unfold first_routed, routed. rewrite E. exists l, bf, af. auto.
Qed.
Print Assumptions C71_first_way.

(** So a vehicle goes round for ever if the first link after its link leads back: if only [b] comes after [a], and
    [a] comes first after [b], then a vehicle that is sent from [a] to another link stays on [a] and [b]. *)
Theorem C71_circles :
  forall (A : Arith) ops1 e s0 k d s1 ops2 s v0 a b la lb rest v, @cast_in_range A -> history sim_new ops1 s0 -> groups_apart ops1 ->
    vehicle_at s0 k = Some v0 -> v_route v0 = [a] -> leads (s_links s0) a d -> exec e s0 (OSetDestination k d) = Ok s1 -> history s1 ops2 s ->
    (forall o, In o ops2 -> redirects k o = false /\ moves k o = false /\ builds o = false) -> no_lanes s0 ->
    link_at s0 a = Some la -> lk_out la = [b] -> link_at s0 b = Some lb -> lk_out lb = a :: rest -> a <> d ->
    vehicle_at s k = Some v -> v_link v = Some a \/ v_link v = Some b.
Proof.
  intros A ops1 e s0 k d s1 ops2 s v0 a b la lb rest v Cast Hist Ap G0 R0 Ld H H2 Ho Nl Ga Oa Gb Ob Nad G.
  destruct (sent_first Cast ops1 e s0 k d s1 ops2 s v0 a Hist Ap G0 R0 Ld H H2 Ho Nl) as (m & v1 & Fl & G1 & Em & R1 & F1 & Sn & I & K).
  pose proof (history_Inv _ _ _ Hist Inv_new) as I0. pose proof (exec_Inv _ _ _ _ I0 H) as I1.
  assert (v_link v0 = Some a) as L0 by (unfold v_link; rewrite R0; reflexivity). destruct (link_src _ _ _ _ I0 G0 L0) as (Sa & _).
  assert (inM m a) as Ma. { destruct F1 as ((_ & T & _) & _). apply T. rewrite R1. left. reflexivity. }
  assert (inM m b) as Mb.
  { pose proof (dest_closed ops1 e s0 k d s1 v0 v1 Hist Ap Cast H G0 G1 (fun x l Gx => proj1 (Nl x l Gx))) as C. rewrite Sa in C. specialize (C Ld). rewrite Em in C.
    destruct (C a Ma) as [E|(z & (l & Gl & Hl) & Mz)]; [contradiction|]. unfold link_at in Ga. assert (l = la) by congruence. subst l. rewrite Oa in Hl. destruct Hl as [<-|[]]. exact Mz. }
  assert (exists x, v_link v = Some x) as (x & L). { destruct (vbase_link _ _ _ _ (st_veh _ _ _ (i_st _ I) _ _ G)) as (x & Hx & _). eauto. }
  assert (x = a \/ x = b) as [->| ->]; [|auto|auto].
  apply (history_stays Cast (s_links s0) m k (fun z => z = a \/ z = b) s1 ops2 s Fl) with v; auto.
  - intros z l Gz. apply (Nl z l Gz).
  - intros z y [->| ->] (l & bf & af & Gl & El & My & Nb); unfold link_at in *.
    + right. assert (l = la) by congruence. subst l. rewrite Oa in El. destruct bf as [|c [|]]; [injection El as <- _; reflexivity|discriminate El|discriminate El].
    + left. assert (l = lb) by congruence. subst l. rewrite Ob in El. destruct bf as [|c bf]; [injection El as <- _; reflexivity|]. injection El as <- _. exfalso. apply (Nb a); [left; reflexivity|exact Ma].
  - destruct (dest_there _ _ _ _ _ H) as (w0 & w1 & _ & Gw1). destruct (dest_bound _ _ _ _ _ _ _ _ Hist Ap Cast H G0 G1) as (El & _). rewrite El. apply same_net_refl.
  - exact (issued_mem _ _ _ G1).
  - intros w Gw. unfold vehicle_at in G1. assert (w = v1) by congruence. subst w. split; [exact F1|]. intros z Lz. left. unfold v_link in Lz. rewrite R1 in Lz. injection Lz as <-. reflexivity.
Qed.
Print Assumptions C71_circles.

(** ** A vehicle that never arrives *)
(** Two links that make a loop; from the end of the second a third leads away, connected after the way back. *)
Definition ex_loop : list (@op F64) :=
  [ OAddLink (ex_line 0 0 20 0) (fz 15); OAddLink (ex_line 20 0 0 0) (fz 15); OAddLink (ex_line 0 0 0 20) (fz 15);
    OAddConnection (nth_id 0) (nth_id 1); OAddConnection (nth_id 1) (nth_id 0); OAddConnection (nth_id 1) (nth_id 2); OAddVehicle ex_car (nth_id 0) ].
Definition flat_b (s : @sim F64) : bool := forallb (fun kl => match lk_group (snd kl), lk_changes (snd kl) with None, [] => true | _, _ => false end) (sm_entries (s_links s)).
Definition outs_b (s : @sim F64) (x : key) (o : list key) : bool := match sm_get (s_links s) x with Some l => keys_eqb (lk_out l) o | None => false end.
Lemma flat_b_ok s : flat_b s = true -> no_lanes s.
Proof. intros H x l G. unfold flat_b in H. rewrite forallb_forall in H. apply in_entries in G. specialize (H _ G). cbn [snd] in H. destruct (lk_group l), (lk_changes l); try discriminate H. auto. Qed.
Lemma outs_b_ok s x o : outs_b s x o = true -> exists l, link_at s x = Some l /\ lk_out l = o.
Proof. unfold outs_b, link_at. destruct (sm_get (s_links s) x) as [l|]; [|discriminate]. intros H. exists l. split; [reflexivity|]. apply keys_eqb_eq. exact H. Qed.
Lemma ex_loop_ok : okb (run ex_env sim_new ex_loop) (fun s0 => flat_b s0 && route_is s0 car1 [nth_id 0] && outs_b s0 (nth_id 0) [nth_id 1] && outs_b s0 (nth_id 1) [nth_id 0; nth_id 2] &&
  okb (exec ex_env s0 (OSetDestination car1 (nth_id 2))) (fun s1 => okb (run ex_env s1 (ex_steps 6)) (fun s => is_on s car1 (nth_id 1) &&
    okb (step ex_env s (fz 1)) (fun s' => is_on s' car1 (nth_id 0) && okb (run ex_env s' (ex_steps 23)) (fun s2 => is_on s2 car1 (nth_id 1)))))) = true.
Proof. vm_compute. reflexivity. Qed.
(** The destination can be reached; the car is sent there and drives: it is on the second link, then on the first again,
    and after half a minute still there.  But it never gets to its destination, whatever happens, until it is sent elsewhere. *)
Theorem C71_circles_refuted : exists s0 v0 s1 s s' s2 v v', history (@sim_new F64) ex_loop s0 /\ vehicle_at s0 car1 = Some v0 /\ v_route v0 = [nth_id 0] /\ leads (s_links s0) (nth_id 0) (nth_id 2) /\ no_lanes s0 /\
  exec ex_env s0 (OSetDestination car1 (nth_id 2)) = Ok s1 /\
  history s1 (ex_steps 6) s /\ vehicle_at s car1 = Some v /\ v_link v = Some (nth_id 1) /\
  step ex_env s (fz 1) = Ok s' /\ vehicle_at s' car1 = Some v' /\ v_link v' = Some (nth_id 0) /\ first_routed (s_links s0) v (nth_id 1) (nth_id 0) /\
  history s' (ex_steps 23) s2 /\ vehicle_at s2 car1 <> None /\
  forall ops2 t w, history s1 ops2 t -> (forall o, In o ops2 -> redirects car1 o = false /\ moves car1 o = false /\ builds o = false) -> vehicle_at t car1 = Some w -> v_link w <> Some (nth_id 2).
Proof.
  destruct (okb_ok _ _ ex_loop_ok) as (s0 & H0 & H). bsplit H. destruct (okb_ok _ _ B) as (s1 & H1 & Hb). destruct (okb_ok _ _ Hb) as (s & H2 & Hc). bsplit Hc. destruct (okb_ok _ _ B3) as (s' & H3 & Hd). bsplit Hd. destruct (okb_ok _ _ B4) as (s2 & H4 & He).
  apply flat_b_ok in H. apply route_is_ok in B2. destruct B2 as (v0 & G0 & R0). apply outs_b_ok in B1, B0. destruct B1 as (la & Ga & Oa). destruct B0 as (lb & Gb & Ob).
  apply is_on_ok in Hc, Hd, He. destruct Hc as (v & G & L). destruct Hd as (v' & G' & L'). destruct He as (v2 & G2 & L2).
  assert (history (@sim_new F64) ex_loop s0) as Hh by (eapply run_history; exact H0).
  assert (history s1 (ex_steps 6) s) as Hs by (eapply run_history; exact H2).
  assert (groups_apart ex_loop) as Ap by (unfold groups_apart; cbn; constructor).
  assert (leads (s_links s0) (nth_id 0) (nth_id 2)) as L0.
  { eapply rt_trans; apply rt_step; left; [exists la; split; [exact Ga|rewrite Oa; left; reflexivity]|exists lb; split; [exact Gb|rewrite Ob; right; left; reflexivity]]. }
  assert (forall n o, In o (ex_steps n) -> redirects car1 o = false /\ moves car1 o = false /\ builds o = false) as Ho by (intros n o Hi; apply repeat_spec in Hi; subst o; auto).
  assert (forall i j, k_idx (nth_id i) <> k_idx (nth_id j) -> nth_id i <> nth_id j) as Nk by (intros i j N E; apply N; rewrite E; reflexivity).
  exists s0, v0, s1, s, s', s2, v, v'. do 12 (split; [assumption|]).
  split. { apply (C71_first_way F64 ex_loop ex_env s0 car1 (nth_id 2) s1 (ex_steps 6) s v0 (nth_id 0) ex_env (fz 1) s' v v' (nth_id 1) (nth_id 0)); auto; [exact F64_cast|exact (Ho 6)|apply Nk; discriminate]. }
  split; [eapply run_history; exact H4|]. split; [congruence|].
  intros ops2 t w Ht Hto Gw Lw. destruct (C71_circles F64 ex_loop ex_env s0 car1 (nth_id 2) s1 ops2 t v0 (nth_id 0) (nth_id 1) la lb [nth_id 2] w F64_cast Hh Ap G0 R0 L0 H1 Ht Hto H Ga Oa Gb Ob) as [E|E]; auto; [apply Nk; discriminate| |].
  - rewrite Lw in E. discriminate E.
  - rewrite Lw in E. discriminate E.
Qed.
Print Assumptions C71_circles_refuted.
