(** * A search for a gap that never ends (property C50, binary64) *)
From Coq Require Import List Bool ZArith NArith Arith.
From Verif Require Import Arith Base BaseProofs SlotMap Util Geom Light Accel Net Path Vehicle LinkOps Sim SpecSim SlotMapProofs StepEvo F64 SimExample P_Motion P_Lane P_Route P_Cheap.
Import ListNotations.

Section Stall.
  Context {A : Arith}.
  (** The search goes round a link that leads to its own start for ever if it is never too late. *)
  Lemma gap_endless links vs l time q : (forall x, nltb time x = false) -> lk_vehicles l = [] -> lk_in l = [lk_id l] -> sm_get links (lk_id l) = Some l ->
    forall fuel pos route mv, check_gap fuel links vs l pos time q route mv = OutOfFuel.
  Proof.
    intros Hn Hv Hi G fuel. induction fuel as [|fuel IH]; intros pos route mv; [reflexivity|]. cbn [check_gap]. rewrite Hv. cbn [rev skip_past bind gap_loop]. rewrite Hn, Hi. cbn [allM]. unfold get_link. rewrite G. cbn [of_option bind].
    rewrite IH. reflexivity.
  Qed.
  (** The situation: the first of the links has one vehicle, which is the first of all vehicles the rules look at and waits to enter a
      yield link with one conflict, with such a link. *)
  Definition stuck_b (links : linkset) (vs : vehset) : bool :=
    match sm_values links with
    | l :: _ => lk_active l && match lk_vehicles l with
      | [k] => match sm_get vs k with
        | Some v => negb (nltb (pos_front v) (nsub (lk_length l) (nmul MAX_LOOKAHEAD (lk_limit l)))) && match get_route v 0 with Some (k0, Entered) => key_eqb k0 (lk_id l) | _ => false end &&
          match get_route v 1 with
          | Some (x, QueuedAt f) => match sm_get links x with
            | Some lx => Nat.eqb (lk_last lx) 0 && match lk_control lx, lk_conflicts lx with
              | CYield _ _ p, [c] => match sm_get links (cf_link c) with
                | Some l2 => key_eqb (lk_id l2) (cf_link c) && match lk_vehicles l2 with [] => true | _ => false end && match lk_in l2 with [y] => key_eqb y (lk_id l2) | _ => false end &&
                    nnan (nadd (rv_min_reach_time (rv_offset (RV k v 0 (lk_length l)) (lk_length l)) (cf_own_max c) (lk_limit lx)) GAP_BUFFER)
                | None => false end
              | _, _ => false end
            | None => false end
          | _ => false end
        | None => false end
      | _ => false end
    | [] => false
    end.
  Lemma stuck_endless links vs : (forall x y, nnan x = true -> nltb x y = false) -> stuck_b links vs = true -> forall fuel, sim_stoplines fuel links vs [] = OutOfFuel.
  Proof.
    intros Hn H fuel. unfold stuck_b in H. unfold sim_stoplines. destruct (sm_values links) as [|l ls]; [discriminate H|]. apply andb_true_iff in H. destruct H as (Ha & H).
    destruct (lk_vehicles l) as [|k [|]] eqn:Hl; try discriminate H. destruct (sm_get vs k) as [v|] eqn:Gv; [|discriminate H]. apply andb_true_iff in H. destruct H as (H & H1). apply andb_true_iff in H. destruct H as (Hp & H0).
    destruct (get_route v 0) as [(k0 & [| |])|] eqn:R0; try discriminate H0. destruct (key_eqb_spec k0 (lk_id l)) as [->|]; [|discriminate H0].
    destruct (get_route v 1) as [(x & [|f|])|] eqn:R1; try discriminate H1. destruct (sm_get links x) as [lx|] eqn:Gx; [|discriminate H1]. apply andb_true_iff in H1. destruct H1 as (Hl0 & H1). apply Nat.eqb_eq in Hl0. destruct (lk_control lx) as [|d m p|] eqn:Co; try discriminate H1.
    destruct (lk_conflicts lx) as [|c [|]] eqn:Cf; try discriminate H1. destruct (sm_get links (cf_link c)) as [l2|] eqn:G2; [|discriminate H1].
    apply andb_true_iff in H1. destruct H1 as (H1 & Nt). apply andb_true_iff in H1. destruct H1 as (H1 & Hi). apply andb_true_iff in H1. destruct H1 as (Hid & Hv).
    destruct (key_eqb_spec (lk_id l2) (cf_link c)) as [E|]; [|discriminate Hid]. destruct (lk_vehicles l2) eqn:V2; [|discriminate Hv]. destruct (lk_in l2) as [|y [|]] eqn:I2; try discriminate Hi. destruct (key_eqb_spec y (lk_id l2)) as [->|]; [|discriminate Hi].
    cbn [foldM]. assert (apply_stoplines fuel links vs l [] = OutOfFuel) as ->; [|reflexivity].
    unfold apply_stoplines. destruct fuel as [|fuel]; [reflexivity|]. cbn [process_vehicles]. rewrite Ha, Hl. cbn [negb rev app skipn fst snd scan]. unfold get_vehicle. rewrite Gv. cbn [of_option bind].
    apply negb_true_iff in Hp. rewrite Hp, R0, key_eqb_refl. cbn [negb]. unfold stopline_cb at 1. unfold rv_route. cbn [rv_veh rv_idx]. cbn [Nat.add]. rewrite R1. unfold get_link. rewrite Gx. cbn [of_option bind]. rewrite Co.
    unfold can_enter. rewrite Cf. cbn [length read_last]. rewrite Hl0. unfold rotated_range. cbn [seq map Nat.add Nat.leb enter_loop]. rewrite Cf. cbn [nth_error of_option bind]. unfold get_link. rewrite G2. cbn [of_option bind].
    rewrite gap_endless; [reflexivity| |exact V2|exact I2|rewrite E; exact G2]. intros z. apply Hn. exact Nt.
  Qed.
  Lemma stall e s dt : (forall x y, nnan x = true -> nltb x y = false) -> nltb (s_lc_update s) LANE_CHANGE_UPDATE_SEC = true -> nltb (s_acc_update s) ACCELERATION_UPDATE_SEC = false ->
    match activate_all (with_acc_update s n0) with Ok (links, vs) => stuck_b links vs | _ => false end = true -> step e s dt = OutOfFuel.
  Proof.
    intros Hn Hl Ha H. unfold step, calculate_lane_changes. rewrite Hl. cbn [bind]. unfold sim_apply_accelerations. rewrite Ha. destruct (activate_all _) as [(links & vs)|p|]; [|discriminate H|discriminate H]. cbn [bind]. rewrite (stuck_endless _ _ Hn H). reflexivity.
  Qed.
End Stall.

Lemma nan_never (x y : @num F64) : nnan x = true -> nltb x y = false.
Proof. change (BinarySingleNaN.is_nan x = true -> BinarySingleNaN.Bltb x y = false). destruct x; cbn; intros; try discriminate. reflexivity. Qed.

(** ** A vehicle whose maximum acceleration is 0 *)
Definition lame : @attrs F64 := Attrs (fz 2) (fz 4) (fz 3) (fz 2) (fz 0) (fz 2).
Definition eighth : @num F64 := lit 1 8.
(** It waits to cross a road that leads back to its own start. *)
Definition ex_lame : list (@op F64) :=
  [ OAddLink (ex_line 0 (-13) 0 (-3)) (fz 5); OAddLink (ex_line 0 (-3) 0 5) (fz 5); OAddLink (ex_line (-20) 0 4 0) (fz 5);
    OAddConnection (nth_id 0) (nth_id 1); OAddConnection (nth_id 2) (nth_id 2); OAddConvergence (nth_id 2) (nth_id 1);
    OSetControl (nth_id 1) (CYield (fz 50) false 0); OAddVehicle lame (nth_id 0); OSetDestination car1 (nth_id 1);
    OStep eighth; OStep eighth; OStep eighth; OStep eighth ].
Lemma ex_lame_ok : okb (run ex_env sim_new ex_lame) (fun s => nltb (s_lc_update s) LANE_CHANGE_UPDATE_SEC && negb (nltb (s_acc_update s) ACCELERATION_UPDATE_SEC) &&
  forallb (fun l => nltb n0 (lk_length l) && nltb n0 (lk_limit l)) (sm_values (s_links s)) &&
  match activate_all (with_acc_update s n0) with Ok (links, vs) => stuck_b links vs | _ => false end) = true.
Proof. vm_compute. reflexivity. Qed.
(** In binary64, unlike in exact arithmetic (C50_update_ends), there are states with links of positive lengths and limits from which a step does
    not end, wherever its loops and recursions are cut off: the vehicle that waits has a maximum acceleration of 0, the time it needs is not a number,
    and no vehicle of the other road is ever far enough away. *)
Theorem C50_update_ends_refuted :
  exists ops (s : @sim F64), history sim_new ops s /\ (forall k l, link_at s k = Some l -> nltb n0 (lk_length l) = true /\ nltb n0 (lk_limit l) = true) /\
    forall e dt, step e s dt = OutOfFuel.
Proof.
  destruct (okb_ok _ _ ex_lame_ok) as (s & H0 & H). bsplit H. exists ex_lame, s. split; [eapply run_history; exact H0|]. split.
  - intros k l G. rewrite forallb_forall in B0. assert (In l (sm_values (s_links s))) as Hl by (apply in_values; eauto). specialize (B0 _ Hl). apply andb_true_iff in B0. exact B0.
  - intros e dt. apply negb_true_iff in B1. exact (stall e s dt nan_never H B1 B).
Qed.
Print Assumptions C50_update_ends_refuted.
