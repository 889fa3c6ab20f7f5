(** * C89: the order of calls that have nothing to do with each other does not matter *)
From Coq Require Import List Bool ZArith NArith Arith Lia.
From Verif Require Import Arith F64 Base BaseProofs SlotMap SlotMapProofs Util Geom Light Accel Net Path Vehicle LinkOps Sim SimExample SpecSim SpecLocal SpecUndo SpecSwap SpecMap Safe SimInv OpSafe SimProofs Evo StepEvo LocElse LocStep LocCall RoadMap P_Undo P_Map P_Motion.
Import ListNotations.

Section P_Swap.
  Context {A : Arith}.
  Notation all := (fun _ : key => true).

  Lemma removed_filter v l : NoDup (lk_vehicles l) -> remove_vehicle v l = set_vehicles l (filter (fun k => negb (key_eqb k v)) (lk_vehicles l)).
  Proof.
    intros N. unfold remove_vehicle.
    assert (forall x, ~ In v x -> filter (fun k => negb (key_eqb k v)) x = x) as Z.
    { induction x as [|y x IH]; intros Hx; [reflexivity|]. cbn [filter]. destruct (key_eqb_spec y v) as [->|]; [exfalso; apply Hx; left; reflexivity|]. cbn [negb]. rewrite IH; [reflexivity|]. intros Hy. apply Hx. right. exact Hy. }
    destruct (rposition _ _) as [i|] eqn:E.
    - apply rposition_some in E. destruct E as (y & Hy & Ey). apply key_eqb_eq in Ey. subst y. f_equal. unfold remove_at. revert i Hy. induction N as [|y x Hn N IH]; intros i Hy; [destruct i; discriminate Hy|]. destruct i as [|i].
      + cbn in Hy. injection Hy as ->. cbn [firstn skipn app filter]. rewrite key_eqb_refl. cbn [negb]. symmetry. apply Z. exact Hn.
      + cbn [nth_error] in Hy. cbn [firstn skipn app filter]. specialize (IH i Hy). cbn [skipn] in IH. destruct (key_eqb_spec y v) as [->|]; [exfalso; apply Hn; exact (nth_error_In _ _ Hy)|]. cbn [negb]. f_equal. exact IH.
    - rewrite Z; [destruct l; reflexivity|]. intros Hi. pose proof (rposition_none _ _ E v Hi) as K. cbn beta in K. rewrite key_eqb_refl in K. discriminate K.
  Qed.

  (** What a call other than adding a vehicle does. *)
  Definition on_link (o : op) (k : key) (l : link) : link :=
    match o with OSetControl x c => if key_eqb x k then set_control l c else l | ORemoveVehicle v => set_vehicles l (filter (fun k => negb (key_eqb k v)) (lk_vehicles l)) | _ => l end.
  Definition on_frozen (o : op) (k : key) (b : bool) : bool := match o with OSetFrozen v c => if key_eqb v k then c else b | _ => b end.
  Definition on_vehicle (e : env) (links : linkset) (o : op) (k : key) (x : option vehicle) (y : option vehicle) : Prop :=
    match o with
    | ORemoveVehicle v => y = if key_eqb v k then None else x
    | OSetDestination v d => if key_eqb v k then exists u u', x = Some u /\ y = Some u' /\ set_destination e links u d = Ok u' else y = x
    | _ => y = x
    end.
  Definition plain (o : op) : Prop := match o with OSetControl _ _ | OSetFrozen _ _ | OSetDestination _ _ | ORemoveVehicle _ => True | _ => False end.
  Definition rest (s : sim) := (s_lights s, s_conflicts s, s_frame s, s_acc_update s, s_lc_update s).
  Lemma plain_call e s o s' : Inv s -> plain o -> exec e s o = Ok s' ->
    (forall k, sm_get (s_links s') k = option_map (on_link o k) (sm_get (s_links s) k)) /\
    (forall k, on_vehicle e (s_links s) o k (sm_get (s_vehicles s) k) (sm_get (s_vehicles s') k)) /\
    (forall k, get_vehicle_frozen s' k = on_frozen o k (get_vehicle_frozen s k)) /\ rest s' = rest s.
  Proof.
    intros Hi Po H. assert (forall x : option link, option_map (fun l => l) x = x) as Oid by (intros [x|]; reflexivity).
    destruct o as [c lim|ids m|a b|a b|calls|a l|v|f|v b|v d|l c|v l d|dt]; try destruct Po; cbn [exec on_link on_frozen on_vehicle] in *.
    - unfold sim_remove_vehicle in H. destruct (sm_get (s_vehicles s) v) as [x|] eqn:G.
      + destruct (vbase_link _ _ _ _ (st_veh _ _ _ (i_st _ Hi) _ _ G)) as (lid & L & Vl & _). rewrite L in H. cbn [with_vehicles s_links s_vehicles] in H. bok H links Hk. injection H as <-. cbn [with_links with_vehicles s_links s_vehicles]. rewrite (vb_id _ _ _ _ (st_veh _ _ _ (i_st _ Hi) _ _ G)) in Hk.
        unfold upd_link in Hk. bok Hk y Hy. cbn [bind] in Hk. injection Hk as <-. unfold get_link in Hy. apply of_option_ok in Hy.
        split; [|split; [intros k; apply sm_get_remove|split; reflexivity]]. intros k. rewrite sm_get_set. replace (sm_mem (s_links s) lid) with true by (symmetry; apply sm_mem_get; eauto). rewrite andb_true_r.
        destruct (key_eqb_spec lid k) as [<-|Nk]; [rewrite Hy; cbn [option_map]; rewrite removed_filter by apply (st_occ _ _ _ (i_st _ Hi) _ _ Hy); reflexivity|].
        destruct (sm_get (s_links s) k) as [z|] eqn:Gz; [|reflexivity]. cbn [option_map on_link]. destruct (st_occ _ _ _ (i_st _ Hi) _ _ Gz) as (Nd & Oc). rewrite <- (removed_filter v z Nd). unfold remove_vehicle.
        destruct (rposition _ _) as [i|] eqn:E; [|reflexivity]. exfalso. apply rposition_some in E. destruct E as (y' & Hy' & Ey). apply key_eqb_eq in Ey. subst y'. apply nth_error_In in Hy'. apply Oc in Hy'. unfold at_of in Hy'. rewrite G in Hy'. congruence.
      + injection H as <-. split; [|split; [|split; reflexivity]].
        * intros k. destruct (sm_get (s_links s) k) as [z|] eqn:Gz; [|reflexivity]. cbn [option_map on_link]. destruct (st_occ _ _ _ (i_st _ Hi) _ _ Gz) as (Nd & Oc). rewrite <- (removed_filter v z Nd). unfold remove_vehicle.
          destruct (rposition _ _) as [i|] eqn:E; [|reflexivity]. exfalso. apply rposition_some in E. destruct E as (y' & Hy' & Ey). apply key_eqb_eq in Ey. subst y'. apply nth_error_In in Hy'. apply Oc in Hy'. unfold at_of in Hy'. rewrite G in Hy'. discriminate Hy'.
        * intros k. destruct (key_eqb_spec v k) as [<-|]; [exact G|reflexivity].
    - injection H as <-. split; [|split; [|split]].
      + intros k. transitivity (sm_get (s_links s) k); [|symmetry; apply Oid]. unfold set_vehicle_frozen. destruct b, (position _ (s_frozen s)); reflexivity.
      + intros k. unfold set_vehicle_frozen. destruct b, (position _ (s_frozen s)); reflexivity.
      + intros k. apply frozen_after. exact (i_frozen _ Hi).
      + unfold set_vehicle_frozen. destruct b, (position _ (s_frozen s)); reflexivity.
    - unfold set_vehicle_destination in H. bok H x Hx. bok H y Hy. injection H as <-. unfold get_vehicle in Hx. apply of_option_ok in Hx. split; [intros k; symmetry; apply Oid|]. split; [|split; reflexivity]. intros k. cbn [with_vehicles s_vehicles]. rewrite sm_get_set. replace (sm_mem (s_vehicles s) v) with true by (symmetry; apply sm_mem_get; eauto). rewrite andb_true_r.
      destruct (key_eqb_spec v k) as [<-|]; [|reflexivity]. exists x, y. auto.
    - unfold set_link_control in H. bok H links Hk. injection H as <-. unfold upd_link in Hk. bok Hk y Hy. cbn [bind] in Hk. injection Hk as <-. unfold get_link in Hy. apply of_option_ok in Hy. split; [|split; [|split]; reflexivity]. intros k. cbn [with_links s_links]. rewrite sm_get_set. replace (sm_mem (s_links s) l) with true by (symmetry; apply sm_mem_get; eauto). rewrite andb_true_r.
      unfold on_link. destruct (key_eqb_spec l k) as [<-|]; [rewrite Hy; reflexivity|]. destruct (sm_get (s_links s) k); reflexivity.
  Qed.

  Lemma plain_keeps o : plain o -> keeps_map o.
  Proof. destruct o; cbn; tauto. Qed.
  Lemma on_link_swap o1 o2 k l : plain o1 -> plain o2 -> independent o1 o2 -> on_link o1 k (on_link o2 k l) = on_link o2 k (on_link o1 k l).
  Proof.
    intros P1 P2 Hi. destruct o1, o2; try destruct P1; try destruct P2; cbn [independent] in Hi; cbn [on_link]; try reflexivity; try (destruct (key_eqb _ _); reflexivity).
    - unfold set_vehicles. cbn [lk_vehicles lk_id lk_group lk_curve lk_in lk_out lk_changes lk_conflicts lk_last lk_limit lk_cost lk_control lk_active]. f_equal. generalize (lk_vehicles l). intros x. induction x as [|y x IH]; [reflexivity|]. cbn [filter]. destruct (key_eqb y v) eqn:E1, (key_eqb y v0) eqn:E2; cbn [negb filter]; rewrite ?E1, ?E2; cbn [negb]; rewrite ?IH; reflexivity.
    - destruct (key_eqb_spec l0 k) as [<-|]; [|reflexivity]. destruct (key_eqb_spec l1 l0) as [->|]; [congruence|reflexivity].
  Qed.
  Lemma on_frozen_swap o1 o2 k b : plain o1 -> plain o2 -> independent o1 o2 -> on_frozen o1 k (on_frozen o2 k b) = on_frozen o2 k (on_frozen o1 k b).
  Proof.
    intros P1 P2 Hi. destruct o1, o2; try destruct P1; try destruct P2; cbn [independent] in Hi; cbn [on_frozen]; try reflexivity.
    destruct (key_eqb_spec v k) as [->|]; [|reflexivity]. destruct (key_eqb_spec v0 k) as [->|]; [congruence|reflexivity].
  Qed.
  Lemma on_vehicle_swap e a b1 c o1 o2 k x y1 z1 y2 z2 : same_map a b1 -> same_map a c -> ties_by_map e e -> plain o1 -> plain o2 -> independent o1 o2 ->
    on_vehicle e a o1 k x y1 -> on_vehicle e b1 o2 k y1 z1 -> on_vehicle e a o2 k x y2 -> on_vehicle e c o1 k y2 z2 -> z1 = z2.
  Proof.
    intros M1 M2 T P1 P2 Hi H1 H2 H3 H4.
    destruct o1, o2; try destruct P1; try destruct P2; cbn [independent] in Hi; cbn [on_vehicle] in *; try congruence;
      repeat match goal with H : context [key_eqb ?p k] |- _ => destruct (key_eqb_spec p k) as [->|] end; try congruence;
      repeat match goal with H : exists u u', _ |- _ => destruct H as (? & ? & ? & ? & ?) end; subst; try congruence;
      match goal with E1 : set_destination e ?p ?u ?d = Ok ?r1, E2 : set_destination e ?q ?u2 ?d = Ok ?r2 |- Some ?r1 = Some ?r2 => idtac | E1 : set_destination e ?p ?u ?d = Ok ?r2, E2 : set_destination e ?q ?u2 ?d = Ok ?r1 |- Some ?r1 = Some ?r2 => idtac | _ => idtac end.
    all: repeat match goal with E : Some _ = Some _ |- _ => injection E as E; subst end; try congruence.
    all: try (rewrite <- (set_dest_same a b1 M1 e e _ _ T) in * |-); try (rewrite <- (set_dest_same a c M2 e e _ _ T) in * |-); congruence.
  Qed.
  Lemma plain_swap e s o1 o2 s1 s2 : Inv s -> ties_by_map e e -> plain o1 -> plain o2 -> independent o1 o2 -> run e s [o1; o2] = Ok s1 -> run e s [o2; o1] = Ok s2 -> same_part all s1 s2 /\ s_frame s1 = s_frame s2.
  Proof.
    intros Hi T P1 P2 In12 H1 H2. cbn [run] in H1, H2. bok H1 t1 A1. bok H1 x B1. injection H1 as ->. bok H2 t2 A2. bok H2 y B2. injection H2 as ->.
    pose proof (map_kept e s o1 t1 Hi (plain_keeps _ P1) A1) as M1. pose proof (map_kept e s o2 t2 Hi (plain_keeps _ P2) A2) as M2.
    destruct (plain_call e s o1 t1 Hi P1 A1) as (L1 & V1 & F1 & R1). destruct (plain_call e t1 o2 s1 (exec_Inv _ _ _ _ Hi A1) P2 B1) as (L2 & V2 & F2 & R2).
    destruct (plain_call e s o2 t2 Hi P2 A2) as (L3 & V3 & F3 & R3). destruct (plain_call e t2 o1 s2 (exec_Inv _ _ _ _ Hi A2) P1 B2) as (L4 & V4 & F4 & R4).
    assert (rest s1 = rest s2) as Re by congruence. unfold rest in Re. injection Re as E1 E2 E3 E4 E5. split; [|exact E3]. apply same_sims; auto.
    - intros k. rewrite L2, L1, L4, L3. destruct (sm_get (s_links s) k) as [l|]; [|reflexivity]. cbn [option_map]. f_equal. symmetry. apply on_link_swap; auto.
    - intros k. exact (on_vehicle_swap e _ _ _ o1 o2 k _ _ _ _ _ M1 M2 T P1 P2 In12 (V1 k) (V2 k) (V3 k) (V4 k)).
    - intros k. rewrite F2, F1, F4, F3. symmetry. apply on_frozen_swap; auto.
  Qed.

  (** What adding a vehicle does. *)
  Lemma add_call e s a lid s' : Inv s -> exec e s (OAddVehicle a lid) = Ok s' ->
    exists v0 v x i, set_location e (s_links s) (vehicle_new (sm_next_key (s_vehicles s)) a) lid n0 None = Ok v0 /\ update_coords (s_links s) v0 = Ok v /\ sm_get (s_links s) lid = Some x /\
      insert_idx (sm_insert (s_vehicles s) v) (v_pos v) (lk_vehicles x) = Ok i /\
      (forall k, sm_get (s_links s') k = if key_eqb lid k then Some (set_vehicles x (insert_at i (sm_next_key (s_vehicles s)) (lk_vehicles x))) else sm_get (s_links s) k) /\
      (forall k, sm_get (s_vehicles s') k = if key_eqb (sm_next_key (s_vehicles s)) k then Some v else sm_get (s_vehicles s) k) /\
      (forall k, get_vehicle_frozen s' k = get_vehicle_frozen s k) /\ rest s' = rest s.
  Proof.
    intros Hi H. cbn [exec] in H. bok H r Hr. injection H as <-. destruct r as (s1, id). cbn [fst]. unfold add_vehicle in Hr. bok Hr v0 Hv0. bok Hr v Hv. bok Hr links Hk. injection Hr as <- _. unfold upd_link in Hk. bok Hk x Hx. bok Hk y Hy. injection Hk as <-. unfold get_link in Hx. apply of_option_ok in Hx. unfold insert_vehicle in Hy. bok Hy w Hw. bok Hy i Hix. injection Hy as <-.
    pose proof (st_wf _ _ _ (i_st _ Hi)) as Wf. unfold get_vehicle in Hw. apply of_option_ok in Hw. rewrite (sm_get_insert _ _ _ Wf), key_eqb_refl in Hw. injection Hw as <-. exists v0, v, x, i. cbn [with_links with_vehicles s_links s_vehicles].
    do 4 (split; [assumption|]). split; [|split; [intros k; apply sm_get_insert; exact Wf|split; reflexivity]]. intros k. rewrite sm_get_set. replace (sm_mem (s_links s) lid) with true by (symmetry; apply sm_mem_get; eauto). rewrite andb_true_r. reflexivity.
  Qed.
  Lemma idx_same vs vs' pos ids : (forall id, In id ids -> option_map v_pos (sm_get vs id) = option_map v_pos (sm_get vs' id)) -> insert_idx vs pos ids = insert_idx vs' pos ids.
  Proof.
    induction ids as [|id ids IH]; intros H; [reflexivity|]. cbn [insert_idx]. unfold get_vehicle. pose proof (H id (or_introl eq_refl)) as E. destruct (sm_get vs id) as [v|], (sm_get vs' id) as [w|]; cbn in E; try discriminate E; [|reflexivity]. cbn [of_option bind]. injection E as E. rewrite E. destruct (nltb _ _); [reflexivity|]. rewrite IH by (intros x Hx; apply H; right; exact Hx). reflexivity.
  Qed.
  Lemma add_swap e s a lid o s1 s2 : Inv s -> ties_by_map e e -> plain o -> independent (OAddVehicle a lid) o -> run e s [OAddVehicle a lid; o] = Ok s1 -> run e s [o; OAddVehicle a lid] = Ok s2 -> same_part all s1 s2 /\ s_frame s1 = s_frame s2.
  Proof.
    intros Hi T Po In12 H1 H2. cbn [run] in H1, H2. bok H1 t1 A1. bok H1 x B1. injection H1 as ->. bok H2 t2 A2. bok H2 y B2. injection H2 as ->. pose proof (exec_Inv _ _ _ _ Hi A1) as Hi1. pose proof (exec_Inv _ _ _ _ Hi A2) as Hi2.
    pose proof (map_kept e s (OAddVehicle a lid) t1 Hi Logic.I A1) as M1. pose proof (map_kept e s o t2 Hi (plain_keeps _ Po) A2) as M2.
    destruct (add_call e s a lid t1 Hi A1) as (v0 & v & l & i & Hv0 & Hv & Gl & Hix & L1 & V1 & F1 & R1). destruct (plain_call e t1 o s1 Hi1 Po B1) as (L2 & V2 & F2 & R2).
    destruct (plain_call e s o t2 Hi Po A2) as (L3 & V3 & F3 & R3). destruct (add_call e t2 a lid s2 Hi2 B2) as (w0 & w & l' & j & Hw0 & Hw & Gl' & Hjx & L4 & V4 & F4 & R4).
    set (id := sm_next_key (s_vehicles s)) in *. pose proof (next_key_fresh _ (st_wf _ _ _ (i_st _ Hi))) as Fr. fold id in Fr.
    assert (sm_next_key (s_vehicles t2) = id) as En.
    { unfold id. destruct o; try destruct Po; cbn [independent] in In12; try destruct In12; cbn [exec] in A2.
      - injection A2 as <-. unfold set_vehicle_frozen. destruct frozen, (position _ (s_frozen s)); reflexivity.
      - unfold set_vehicle_destination in A2. bok A2 z Hz. bok A2 z' Hz'. injection A2 as <-. cbn [with_vehicles s_vehicles]. apply next_key_set. apply (i_st _ Hi).
      - unfold set_link_control in A2. bok A2 z Hz. injection A2 as <-. reflexivity. }
    rewrite En in *. rewrite <- (location_same _ _ M2 e e _ _ _ _ T), Hv0 in Hw0. injection Hw0 as <-. rewrite <- (coords_same _ _ M2), Hv in Hw. injection Hw as <-.
    rewrite L3, Gl in Gl'. cbn [option_map] in Gl'. injection Gl' as <-.
    assert (lk_vehicles (on_link o lid l) = lk_vehicles l) as Ev. { destruct o; try destruct Po; cbn [independent] in In12; try destruct In12; cbn [on_link]; try reflexivity. destruct (key_eqb _ _); reflexivity. }
    assert (j = i) as ->.
    { rewrite Ev in Hjx. rewrite (idx_same _ (sm_insert (s_vehicles s) v)) in Hjx; [congruence|]. intros q Hq. rewrite (sm_get_insert _ _ _ (st_wf _ _ _ (i_st _ Hi2))), (sm_get_insert _ _ _ (st_wf _ _ _ (i_st _ Hi))), En. fold id. destruct (key_eqb id q); [reflexivity|].
      pose proof (V3 q) as K. destruct o; try destruct Po; cbn [independent] in In12; try destruct In12; cbn [on_vehicle] in K; try (rewrite K; reflexivity). destruct (key_eqb v1 q); [|rewrite K; reflexivity]. destruct K as (u & u' & -> & -> & K). unfold set_destination in K. bok K pf Hpf. injection K as <-. reflexivity. }
    assert (rest s1 = rest s2) as Re by congruence. unfold rest in Re. injection Re as E1 E2 E3 E4 E5. split; [|exact E3]. apply same_sims; auto.
    - intros k. rewrite L2, L1, L4, L3. destruct (key_eqb_spec lid k) as [<-|]; [|reflexivity]. cbn [option_map]. f_equal. rewrite Ev. destruct o; try destruct Po; cbn [independent] in In12; try destruct In12; cbn [on_link]; try reflexivity. destruct (key_eqb _ _); reflexivity.
    - intros k. pose proof (V2 k) as K2. pose proof (V3 k) as K3. rewrite V1 in K2. rewrite V4. clear V1 V2 V3 V4.
      destruct o; try destruct Po; cbn [independent] in In12; try destruct In12; cbn [on_vehicle] in K2, K3.
      + rewrite K2, K3. reflexivity.
      + destruct (key_eqb_spec v1 k) as [->|].
        * destruct K3 as (u & u' & K3 & K3' & K3''). destruct (key_eqb_spec id k) as [<-|]; [congruence|]. destruct K2 as (z & z' & K2 & K2' & K2''). rewrite K2', K3'. rewrite <- (set_dest_same _ _ M1 e e _ _ T) in K2''. congruence.
        * rewrite K2, K3. reflexivity.
      + rewrite K2, K3. reflexivity.
    - intros k. rewrite F2, F1, F4, F3. reflexivity.
  Qed.
  Lemma swap_same e s o1 o2 s1 s2 : Inv s -> ties_by_map e e -> independent o1 o2 -> run e s [o1; o2] = Ok s1 -> run e s [o2; o1] = Ok s2 -> same_part all s1 s2 /\ s_frame s1 = s_frame s2.
  Proof.
    intros Hi T In12 H1 H2.
    assert (plain o1 /\ plain o2 \/ plain o1 /\ (exists a l, o2 = OAddVehicle a l) \/ plain o2 /\ (exists a l, o1 = OAddVehicle a l)) as D by (destruct o1, o2; cbn in *; try contradiction; eauto 6).
    destruct D as [(P1 & P2)|[(P1 & a & l & ->)|(P2 & a & l & ->)]].
    - exact (plain_swap e s o1 o2 s1 s2 Hi T P1 P2 In12 H1 H2).
    - assert (independent (OAddVehicle a l) o1) as In21 by (destruct o1; cbn in *; auto). destruct (add_swap e s a l o1 s2 s1 Hi T P1 In21 H2 H1) as (P & F). split; [apply same_part_sym; exact P|symmetry; exact F].
    - exact (add_swap e s a l o2 s1 s2 Hi T P2 In12 H1 H2).
  Qed.

  (** The calls lead to the same in either order. *)
  Theorem C89_now e s o1 o2 s1 s2 : (forall a b src dst n, same_map a b -> e_pick e a src dst n = e_pick e b src dst n) -> reachable s -> independent o1 o2 ->
    run e s [o1; o2] = Ok s1 -> run e s [o2; o1] = Ok s2 -> looks_same s1 s2.
  Proof.
    intros T Re In12 H1 H2. pose proof (reachable_Inv _ Re) as Hi. destruct (swap_same e s o1 o2 s1 s2 Hi (conj eq_refl T) In12 H1 H2) as (P & F). apply run_history in H1. apply run_history in H2.
    apply same_looks; auto; [exact (history_Inv _ _ _ H1 Hi)|exact (history_Inv _ _ _ H2 Hi)].
  Qed.
  (** And everything goes on in the same way afterwards. *)
  Theorem C89_later e s o1 o2 s1 s2 e1 e2 ops s1' s2' : (forall a b src dst n, same_map a b -> e_pick e a src dst n = e_pick e b src dst n) -> reachable s -> independent o1 o2 ->
    run e s [o1; o2] = Ok s1 -> run e s [o2; o1] = Ok s2 -> ties_by_links e1 e2 -> List.Forall adds_nothing ops -> run e1 s1 ops = Ok s1' -> run e2 s2 ops = Ok s2' -> looks_same s1' s2'.
  Proof.
    intros T Re In12 H1 H2 Ti Fo K1 K2. pose proof (reachable_Inv _ Re) as Hi. destruct (swap_same e s o1 o2 s1 s2 Hi (conj eq_refl T) In12 H1 H2) as (P & F). apply run_history in H1. apply run_history in H2.
    destruct (runs_all e1 e2 ops Ti Fo s1 s2 s1' s2' (history_Inv _ _ _ H1 Hi) (history_Inv _ _ _ H2 Hi) P F K1 K2) as (P' & F' & I1 & I2). apply same_looks; auto.
  Qed.
End P_Swap.
Print Assumptions C89_now.
Print Assumptions C89_later.

(** The network with two ways: another car is added behind the first, and the first gets its destination; or the first is removed and the second way is closed. *)
Definition sw_more : list (@op F64) := [ OStep (fz 1); OStep (fz 1) ].
Definition sw_cars (s : @sim F64) : bool := sm_mem (s_vehicles s) car1 && sm_mem (s_vehicles s) car2.
Lemma sw_ok :
  okb (run ex_env sim_new P_Map.map_roads) (fun s =>
  okb (run ex_env s [OAddVehicle ex_car (nth_id 0); OSetDestination car1 (nth_id 3)]) (fun t => okb (run ex_env t sw_more) sw_cars) &&
  okb (run ex_env s [OSetDestination car1 (nth_id 3); OAddVehicle ex_car (nth_id 0)]) (fun t => okb (run ex_env t sw_more) sw_cars) &&
  okb (run ex_env s [ORemoveVehicle car1; OSetControl (nth_id 2) CClosed]) (fun t => okb (run ex_env t sw_more) (fun _ => true)) &&
  okb (run ex_env s [OSetControl (nth_id 2) CClosed; ORemoveVehicle car1]) (fun t => okb (run ex_env t sw_more) (fun _ => true))) = true.
Proof. vm_compute. reflexivity. Qed.
Example C89_example : exists (s : @sim F64), (forall a b src dst n, same_map a b -> e_pick ex_env a src dst n = e_pick ex_env b src dst n) /\ ties_by_links ex_env ex_env /\ List.Forall adds_nothing sw_more /\ reachable s /\
  forall o1 o2, (o1, o2) = (OAddVehicle ex_car (nth_id 0), OSetDestination car1 (nth_id 3)) \/ (o1, o2) = (ORemoveVehicle car1, OSetControl (nth_id 2) CClosed) ->
    independent o1 o2 /\ exists s1 s2 s1' s2', run ex_env s [o1; o2] = Ok s1 /\ run ex_env s [o2; o1] = Ok s2 /\ run ex_env s1 sw_more = Ok s1' /\ run ex_env s2 sw_more = Ok s2'.
Proof.
  pose proof sw_ok as H. apply okb_ok in H. destruct H as (s & H0 & H). repeat (let H' := fresh "K" in apply andb_prop in H; destruct H as (H & H')). exists s. split; [reflexivity|]. split; [intros a b src dst n _; reflexivity|]. split; [repeat constructor|]. split; [exact (run_reachable _ _ _ H0)|].
  repeat match goal with K : okb _ _ = true |- _ => apply okb_ok in K; let t := fresh "t" in let E := fresh "E" in destruct K as (t & E & K) end.
  intros o1 o2 [E'|E']; injection E' as -> ->; (split; [exact Logic.I|]); eauto 10.
Qed.
