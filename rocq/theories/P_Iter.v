(** * C96: the links between them carry exactly the vehicles there are *)
From Coq Require Import List Bool ZArith NArith Arith Lia Permutation.
From Verif Require Import Arith F64 Base BaseProofs SlotMap Util Geom Light Accel Net Path Vehicle LinkOps Sim SpecSim SlotMapProofs Safe NetInv SimInv StepSafe OpSafe Evo StepEvo SimProofs SimExample P_Sim.
Import ListNotations.

Section Iter.
  Context {A : Arith}.
  (** simulation.rs:206-208 [iter_links] *)
  Definition iter_links (s : sim) : list link := sm_values (s_links s).
  (** simulation.rs:211-213 [iter_vehicles] *)
  Definition iter_vehicles (s : sim) : list vehicle := sm_values (s_vehicles s).
  (** simulation.rs:216-218 [iter_lights] *)
  Definition iter_lights (s : sim) : list (key * light) := sm_entries (s_lights s).
End Iter.

Lemma nodup_flat {X Y} (f : X -> list Y) (l : list X) :
  NoDup l -> (forall x, In x l -> NoDup (f x)) -> (forall x y z, In x l -> In y l -> In z (f x) -> In z (f y) -> x = y) ->
  NoDup (flat_map f l).
Proof.
  induction l as [|x l IH]; intros Nd Hf Hd; simpl; [constructor|]. inversion Nd as [|? ? Hx Nl]; subst.
  assert (forall (a b : list Y), NoDup a -> NoDup b -> (forall z, In z a -> ~ In z b) -> NoDup (a ++ b)) as K.
  { clear. induction a as [|y a IHa]; simpl; intros b Na Nb H; auto. inversion Na; subst. constructor.
    - rewrite in_app_iff. intros [?|?]; [auto|]. apply (H y); auto.
    - apply IHa; auto. }
  apply K.
  - apply Hf. left; auto.
  - apply IH; auto. + intros y Hy. apply Hf. right; auto. + intros a c z Ha Hc. apply Hd; right; auto.
  - intros z Hz Hin. apply in_flat_map in Hin. destruct Hin as (y & Hy & Hzy). apply Hx.
    rewrite (Hd x y z); auto; [left|right]; auto.
Qed.

(** Going over the links and over what each lists, one meets every vehicle of the simulation once,
    and nothing else. *)
Theorem C96_once :
  forall (A : Arith) (s : sim), reachable s ->
    Permutation (flat_map lk_vehicles (iter_links s)) (map v_id (iter_vehicles s)).
Proof.
  intros A s Rs. destruct (C21_ids A s Rs) as (L1 & V1 & L2 & L3 & V2 & V3). destruct (C16_occupancy A s Rs) as (O1 & O2).
  unfold iter_links, iter_vehicles. apply NoDup_Permutation.
  - apply nodup_flat.
    + eapply NoDup_map_inv. exact L2.
    + intros l Hl. apply (NoDup_count_occ' key_eq_dec). intros k Hk. apply L3 in Hl.
      destruct (O2 _ _ _ Hl Hk) as (v & Gv & Ev). destruct (O1 _ _ Gv) as (lid & l' & El & Gl & C & _). congruence.
    + intros x y k Hx Hy Kx Ky. apply L3 in Hx. apply L3 in Hy. destruct (O2 _ _ _ Hx Kx) as (v & Gv & Ev).
      destruct (O2 _ _ _ Hy Ky) as (v' & Gv' & Ev').
      assert (lk_id x = lk_id y) as E by congruence. rewrite E in Hx. congruence.
  - exact V2.
  - intros k. rewrite in_flat_map, in_map_iff. split.
    + intros (l & Hl & Hk). apply L3 in Hl. destruct (O2 _ _ _ Hl Hk) as (v & Gv & _). exists v.
      split; [apply V1; exact Gv|]. apply V3. rewrite (V1 _ _ Gv). exact Gv.
    + intros (v & <- & Hv). apply V3 in Hv. destruct (O1 _ _ Hv) as (lid & l & El & Gl & C & _). exists l. split.
      * apply L3. rewrite (L1 _ _ Gl). auto.
      * apply (count_occ_In key_eq_dec). rewrite C. auto.
Qed.
Print Assumptions C96_once.

(** So the numbers agree ... *)
Theorem C96_count :
  forall (A : Arith) (s : sim), reachable s ->
    list_sum (map (fun l => length (lk_vehicles l)) (iter_links s)) = length (iter_vehicles s).
Proof.
  intros A s Rs. rewrite <- (map_length v_id), <- (Permutation_length (C96_once A s Rs)).
  induction (iter_links s) as [|l r IH]; simpl; auto. rewrite app_length. lia.
Qed.
Print Assumptions C96_count.

(** ... and the links are listed in the order in which they were added: a new one comes last, and no
    other call changes the list of ids. *)
Lemma entries_snoc {V} i (l : list (slot V)) ver v :
  entries_from i (l ++ [Slot ver (Some v)]) = entries_from i l ++ [(Key (i + length l) ver, v)].
Proof.
  revert i. induction l as [|s l IH]; intros i; simpl; [rewrite Nat.add_0_r; reflexivity|].
  rewrite IH. replace (S i + length l) with (i + S (length l)) by lia. destruct (s_val s); reflexivity.
Qed.
Lemma links_no_free {A : Arith} (s : sim) : reachable s -> sm_free (s_links s) = [].
Proof.
  induction 1 as [|e s o s' Rs IH H]; [reflexivity|].
  destruct (exec_links e s o s' (reachable_Inv s Rs) H) as [[E _]|(c & lim & l & _ & E)].
  - rewrite <- E. exact IH.
  - rewrite E. unfold sm_insert. rewrite IH. reflexivity.
Qed.
Lemma link_ids {A : Arith} (s : sim) : reachable s -> map lk_id (iter_links s) = sm_keys (s_links s).
Proof.
  intros Rs. destruct (C21_ids A s Rs) as (L1 & _). unfold iter_links, sm_values, sm_keys. rewrite map_map.
  apply map_ext_in. intros [k l] Hin. apply L1. apply in_entries. exact Hin.
Qed.

Theorem C96_order :
  forall (A : Arith) e (s : sim), reachable s ->
    (forall c lim s' id, add_link e s c lim = Ok (s', id) -> map lk_id (iter_links s') = map lk_id (iter_links s) ++ [id]) /\
    (forall o s', (forall c lim, o <> OAddLink c lim) -> exec e s o = Ok s' -> map lk_id (iter_links s') = map lk_id (iter_links s)).
Proof.
  intros A e s Rs. split.
  - intros c lim s' id H. assert (exec e s (OAddLink c lim) = Ok s') as X by (simpl; rewrite H; reflexivity).
    assert (reachable s') as Rs' by (eapply reach_call; eauto). rewrite !link_ids by assumption.
    pose proof (links_no_free s Rs) as F. assert (exists l, s_links s' = sm_insert (s_links s) l /\ id = sm_next_key (s_links s)) as (l & -> & ->).
    { unfold add_link in H. bok H l Hl. injection H as <- <-. exists l. split; reflexivity. }
    unfold sm_keys, sm_entries, sm_insert, sm_next_key. rewrite F. cbn [sm_slots]. rewrite entries_snoc, map_app. reflexivity.
  - intros o s' N H. assert (reachable s') as Rs' by (eapply reach_call; eauto). rewrite !link_ids by assumption.
    destruct (exec_links e s o s' (reachable_Inv s Rs) H) as [E|(c & lim & l & E & _)].
    + symmetry. apply shape_keys. exact E.
    + exfalso. eapply N. exact E.
Qed.
Print Assumptions C96_order.

(** The same holds of the traffic lights, which come with their ids. *)
Lemma lights_no_free {A : Arith} (s : sim) : reachable s -> sm_free (s_lights s) = [].
Proof.
  induction 1 as [|e s o s' Rs IH H]; [reflexivity|].
  destruct (exec_lights e s o s' (reachable_Inv s Rs) H) as [[E _]|(c & l & _ & E)].
  - rewrite <- E. exact IH.
  - rewrite E. unfold sm_insert. rewrite IH. reflexivity.
Qed.
Theorem C96_lights :
  forall (A : Arith) e (s : sim), reachable s ->
    NoDup (map fst (iter_lights s)) /\
    (forall k l, In (k, l) (iter_lights s) <-> sm_get (s_lights s) k = Some l) /\
    (forall l s' id, add_traffic_light s l = (s', id) -> iter_lights s' = iter_lights s ++ [(id, l)]) /\
    (forall o s', (forall c, o <> OAddLight c) -> exec e s o = Ok s' -> map fst (iter_lights s') = map fst (iter_lights s)).
Proof.
  intros A e s Rs. split; [apply nodup_keys|]. split; [intros k l; apply in_entries|]. split.
  - intros l s' id H. pose proof (lights_no_free s Rs) as F. injection H as <- <-. unfold iter_lights. cbn [s_lights].
    unfold sm_entries, sm_insert, sm_next_key. rewrite F. cbn [sm_slots]. rewrite entries_snoc. reflexivity.
  - intros o s' N H. destruct (exec_lights e s o s' (reachable_Inv s Rs) H) as [E|(c & l & E & _)].
    + symmetry. exact (shape_keys _ _ E).
    + exfalso. eapply N. exact E.
Qed.
Print Assumptions C96_lights.

(** A network with five links and three vehicles on it and a traffic light. *)
Example C96_example : exists s : @sim F64, reachable s /\ 3 <= length (iter_vehicles s) /\ 5 <= length (iter_links s) /\ 1 <= length (iter_lights s).
Proof.
  assert (okb (run ex_env sim_new ex_setup) (fun s : @sim F64 => Nat.leb 3 (length (iter_vehicles s)) && Nat.leb 5 (length (iter_links s)) && Nat.leb 1 (length (iter_lights s))) = true) as H by (vm_compute; reflexivity).
  destruct (okb_ok _ _ H) as (s & H1 & H2). rewrite !andb_true_iff in H2. destruct H2 as ((H2 & H3) & H4). exists s.
  split; [eapply history_reachable; [eapply run_history; eauto|constructor]|]. split; [|split]; apply Nat.leb_le; assumption.
Qed.
