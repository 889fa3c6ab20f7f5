(** * The invariant of a simulation: definitions and basic lemmas *)
From Coq Require Import List Bool ZArith NArith Arith Lia Permutation.
From Verif Require Import Arith Base BaseProofs SlotMap Util Geom Light Accel Net Path Vehicle LinkOps Sim SpecSim SlotMapProofs Safe NetInv.
Import ListNotations.

Section SimInv.
  Context {A : Arith}.

  (** The part of a link that a step does not change. *)
  Definition lk_static (l : link) :=
    (lk_id l, lk_group l, lk_curve l, (lk_in l, lk_out l, lk_changes l), lk_conflicts l, lk_limit l, lk_cost l).
  Definition last_ok (l : link) : Prop := lk_last l < length (lk_conflicts l) \/ lk_last l = 0.

  Record same_net (a b : linkset) : Prop := {
    sn_shape : same_shape a b;
    sn_get : forall k, option_map lk_static (sm_get a k) = option_map lk_static (sm_get b k);
    sn_last : (forall k l, sm_get a k = Some l -> last_ok l) -> (forall k l, sm_get b k = Some l -> last_ok l)
  }.
  Lemma same_net_refl a : same_net a a.
  Proof. split; auto. apply shape_refl. Qed.
  Lemma same_net_trans a b c : same_net a b -> same_net b c -> same_net a c.
  Proof. intros [] []; split; eauto. eapply shape_trans; eauto. congruence. Qed.
  Lemma same_net_get a b k l : same_net a b -> sm_get b k = Some l ->
    exists l0, sm_get a k = Some l0 /\ lk_static l0 = lk_static l.
  Proof.
    intros S H. pose proof (sn_get _ _ S k) as G. rewrite H in G. destruct (sm_get a k) as [l0|]; [|discriminate].
    exists l0. split; auto. simpl in G. congruence.
  Qed.
  Lemma same_net_get' a b k l : same_net a b -> sm_get a k = Some l ->
    exists l1, sm_get b k = Some l1 /\ lk_static l1 = lk_static l.
  Proof.
    intros S H. pose proof (sn_get _ _ S k) as G. rewrite H in G. destruct (sm_get b k) as [l0|]; [|discriminate].
    exists l0. split; auto. simpl in G. congruence.
  Qed.
  Lemma same_net_valid a b k : same_net a b -> (valid a k <-> valid b k).
  Proof. intros S. unfold valid. rewrite (shape_mem _ _ k (sn_shape _ _ S)). tauto. Qed.
  Lemma same_net_le a b : same_net a b -> net_le a b.
  Proof.
    intros S. split.
    - intros k H. apply (same_net_valid a b k S); auto.
    - intros x y (l & Hl & Hin). destruct (same_net_get' _ _ _ _ S Hl) as (l1 & H1 & E1). exists l1. split; auto.
      unfold lk_static in E1. congruence.
    - intros x y (l & Hl & Hin). destruct (same_net_get' _ _ _ _ S Hl) as (l1 & H1 & E1). exists l1. split; auto.
      unfold lk_static in E1. congruence.
  Qed.
  Lemma same_net_ge a b : same_net a b -> net_le b a.
  Proof.
    intros S. split.
    - intros k H. apply (same_net_valid a b k S); auto.
    - intros x y (l & Hl & Hin). destruct (same_net_get _ _ _ _ S Hl) as (l1 & H1 & E1). exists l1. split; auto.
      unfold lk_static in E1. congruence.
    - intros x y (l & Hl & Hin). destruct (same_net_get _ _ _ _ S Hl) as (l1 & H1 & E1). exists l1. split; auto.
      unfold lk_static in E1. congruence.
  Qed.
  Lemma same_net_ok a b : same_net a b -> net_ok a -> net_ok b.
  Proof.
    intros S N. split; [eapply shape_wf; [apply S|apply N]|]. intros k l H.
    destruct (same_net_get _ _ _ _ S H) as (l0 & H0 & E0).
    pose proof (nk_link _ N _ _ H0) as L.
    assert (last_ok l) as La. { eapply (sn_last _ _ S); eauto. intros k' l' H'. apply (nk_link _ N _ _ H'). }
    assert (link_ok (valid a) k l) as L'.
    { unfold lk_static in E0. injection E0 as F1 F2 F3 F4 F5 F6 F7 F8 F9. destruct L.
      split; try congruence; auto; try rewrite <- F5; try rewrite <- F6; try rewrite <- F4; try rewrite <- F7; auto.
      - intros g Hg. apply lo_group. congruence.
       }
    eapply link_ok_mono; [|exact L']. intros. apply (same_net_valid _ _ _ S); auto.
  Qed.
  Lemma same_net_cause a b p : same_net a b -> net_cause b p -> net_cause a p.
  Proof.
    intros S. destruct p; simpl; auto.
    - intros (k & l & g & H & Hg & Hn). destruct (same_net_get _ _ _ _ S H) as (l0 & H0 & E0). exists k, l0, g.
      unfold lk_static in E0. repeat split; auto; congruence.
    - intros (k & l & x & H & Hin & Hg). destruct (same_net_get _ _ _ _ S H) as (l0 & H0 & E0). exists k, l0, x.
      unfold lk_static in E0. injection E0 as F1 F2 F3 F4 F5 F6 F7 F8 F9. rewrite F2, F6. auto.
    - intros (x & y & (l & H & Hin) & l2 & point & dir & H2 & Nf). destruct (same_net_get _ _ _ _ S H) as (l0 & H0 & E0). destruct (same_net_get _ _ _ _ S H2) as (l3 & H3 & E3). exists x, y. split.
      + exists l0. split; auto. unfold lk_static in E0. injection E0 as F1 F2 F3 F4 F5 F6 F7 F8 F9. congruence.
      + exists l3, point, dir. split; auto. unfold lk_static in E3. injection E3 as F1 F2 F3 F4 F5 F6 F7 F8 F9. congruence.
    - intros (k & l & g & p & H & Hg & Hp). destruct (same_net_get _ _ _ _ S H) as (l0 & H0 & E0). exists k, l0, g, p.
      unfold lk_static in E0. repeat split; try tauto; congruence.
    - intros (k & l & H & C). destruct (same_net_get _ _ _ _ S H) as (l0 & H0 & E0). exists k, l0. split; auto.
      unfold lk_static in E0. injection E0 as F1 F2 F3 F4 F5 F6 F7 F8 F9. rewrite (shape_keys _ _ (sn_shape _ _ S)). congruence.
  Qed.
  Lemma same_net_sym a b : same_net a b -> net_ok a -> same_net b a.
  Proof.
    intros S N. split.
    - apply shape_sym, S.
    - intros k. symmetry. apply S.
    - intros _ k l H. apply (nk_link _ N _ _ H).
  Qed.
  Lemma same_net_set a k l l' : sm_get a k = Some l -> lk_static l' = lk_static l ->
    (last_ok l -> last_ok l') -> same_net a (sm_set a k l').
  Proof.
    intros H E L. split.
    - apply shape_set.
    - intros k'. rewrite sm_get_set. destruct (key_eqb_spec k k'); simpl; auto. subst.
      replace (sm_mem a k') with true by (symmetry; apply sm_mem_get; eauto). rewrite H. simpl. congruence.
    - intros F k' l2. rewrite sm_get_set. destruct (key_eqb_spec k k'); simpl; eauto. subst.
      destruct (sm_mem a k'); eauto. intros E2. inversion E2; subst. apply L. eauto.
  Qed.
  Lemma same_net_map a f : (forall l, lk_static (f l) = lk_static l) -> (forall l, last_ok l -> last_ok (f l)) -> same_net a (sm_map f a).
  Proof.
    intros Hs Hl. split.
    - apply shape_map.
    - intros k. rewrite sm_get_map. destruct (sm_get a k); simpl; auto. congruence.
    - intros F k l. rewrite sm_get_map. destruct (sm_get a k) as [l0|] eqn:G; simpl; [|discriminate]. intros E; inversion E; subst. eauto.
  Qed.

  (** ** Where the vehicles are *)
  (** [at_ k] is the link vehicle [k] is on (if any): each link lists exactly its vehicles, once. *)
  Definition Occ (links : linkset) (at_ : key -> option key) : Prop :=
    (forall lid l, sm_get links lid = Some l -> NoDup (lk_vehicles l) /\ forall k, In k (lk_vehicles l) <-> at_ k = Some lid).
  Definition at_of (vs : vehset) (k : key) : option key :=
    match sm_get vs k with Some v => v_link v | None => None end.

  Lemma Occ_ext links f g : (forall k, f k = g k) -> Occ links f -> Occ links g.
  Proof. intros H O lid l Hl. destruct (O lid l Hl) as (N & I). split; auto. intros k. rewrite <- H. auto. Qed.
  Lemma Occ_ext' links links' f g : (forall k, f k = g k) ->
    (forall k, option_map lk_vehicles (sm_get links k) = option_map lk_vehicles (sm_get links' k)) -> Occ links f -> Occ links' g.
  Proof.
    intros H E O lid l Hl. specialize (E lid). rewrite Hl in E. destruct (sm_get links lid) as [l0|] eqn:G; [|discriminate].
    destruct (O lid l0 G) as (N & I). simpl in E. inversion E as [E1]. rewrite E1 in *. split; auto. intros k. rewrite <- H. auto.
  Qed.
  Lemma Occ_set links f lid l l' : sm_get links lid = Some l -> lk_vehicles l' = lk_vehicles l -> Occ links f -> Occ (sm_set links lid l') f.
  Proof.
    intros H E. apply Occ_ext'; auto. intros k. rewrite sm_get_set. destruct (key_eqb_spec lid k); simpl; auto. subst.
    replace (sm_mem links k) with true by (symmetry; apply sm_mem_get; eauto). rewrite H. simpl. congruence.
  Qed.
  Definition upd_at (f : key -> option key) (k : key) (x : option key) : key -> option key :=
    fun k' => if key_eqb k k' then x else f k'.

  Lemma rposition_key k l : In k l -> exists i, rposition (fun x => key_eqb x k) l = Some i /\ nth_error l i = Some k.
  Proof.
    intros H. destruct (rposition _ l) as [i|] eqn:P.
    - exists i. split; auto. apply rposition_some in P. destruct P as (x & Hx & E). apply key_eqb_eq in E. congruence.
    - eapply rposition_none in P; eauto. rewrite key_eqb_refl in P. discriminate.
  Qed.
  Lemma remove_vehicle_spec k l : NoDup (lk_vehicles l) ->
    NoDup (lk_vehicles (remove_vehicle k l)) /\ forall x, In x (lk_vehicles (remove_vehicle k l)) <-> In x (lk_vehicles l) /\ x <> k.
  Proof.
    intros N. unfold remove_vehicle. destruct (rposition _ _) as [i|] eqn:P; simpl.
    - apply rposition_some in P. destruct P as (x & Hx & E). apply key_eqb_eq in E. subst x.
      pose proof (remove_at_perm _ _ _ Hx) as Pm. split; [apply NoDup_remove_at; auto|].
      assert (NoDup (k :: remove_at i (lk_vehicles l))) as N2 by (eapply Permutation_NoDup; eauto).
      inversion N2; subst. intros x. split.
      + intros H. split; [eapply Permutation_in; [apply Permutation_sym; eauto|right; auto]|intros ->; auto].
      + intros (H & Hne). eapply Permutation_in in H; [|exact Pm]. destruct H; congruence || auto.
    - split; auto. intros x. split; [|tauto]. intros H. split; auto. intros ->. eapply rposition_none in P; eauto.
      rewrite key_eqb_refl in P. discriminate.
  Qed.
  Lemma remove_vehicle_static k l : lk_static (remove_vehicle k l) = lk_static l /\ lk_last (remove_vehicle k l) = lk_last l.
  Proof. unfold remove_vehicle. destruct (rposition _ _); auto. Qed.

  Lemma Occ_remove links f lid l k : sm_get links lid = Some l -> Occ links f -> (forall lid', f k = Some lid' -> lid' = lid) ->
    Occ (sm_set links lid (remove_vehicle k l)) (upd_at f k None).
  Proof.
    intros H O Hk lid' l' Hl'. rewrite sm_get_set in Hl'. unfold upd_at.
    destruct (key_eqb_spec lid lid'); simpl in Hl'.
    - subst lid'. replace (sm_mem links lid) with true in Hl' by (symmetry; apply sm_mem_get; eauto).
      inversion Hl'; subst l'. destruct (O _ _ H) as (N & I). destruct (remove_vehicle_spec k l N) as (N2 & I2). split; auto.
      intros x. rewrite I2, I. destruct (key_eqb_spec k x); [|intuition congruence]. subst. intuition congruence.
    - destruct (O _ _ Hl') as (N & I). split; auto. intros x. rewrite I. destruct (key_eqb_spec k x); [|tauto].
      subst. split; [|discriminate]. intros E. apply Hk in E. congruence.
  Qed.
  Lemma Occ_insert links f lid l k i : sm_get links lid = Some l -> Occ links f -> f k = None ->
    Occ (sm_set links lid (set_vehicles l (insert_at i k (lk_vehicles l)))) (upd_at f k (Some lid)).
  Proof.
    intros H O Hk lid' l' Hl'. rewrite sm_get_set in Hl'. unfold upd_at.
    destruct (key_eqb_spec lid lid'); simpl in Hl'.
    - subst lid'. replace (sm_mem links lid) with true in Hl' by (symmetry; apply sm_mem_get; eauto).
      inversion Hl'; subst l'. destruct (O _ _ H) as (N & I). simpl. split.
      + eapply Permutation_NoDup; [apply Permutation_sym, insert_at_perm|]. constructor; auto. rewrite I. congruence.
      + intros x. rewrite in_insert_at, I. destruct (key_eqb_spec k x); intuition congruence.
    - destruct (O _ _ Hl') as (N & I). split; auto. intros x. rewrite I. destruct (key_eqb_spec k x); [|tauto].
      subst. split; congruence.
  Qed.

  (** ** Vehicles *)
  Record vbase (links : linkset) (seq : nat) (k : key) (v : vehicle) : Prop := {
    vb_id : v_id v = k;
    vb_chain : chain links (v_route v);
    vb_ent : 1 <= v_entered v <= length (v_route v);
    vb_src : hd_error (v_route v) = Some (pf_src (v_pathfind v));
    vb_dst : pf_dst_ok links (v_pathfind v);
    vb_paths : Forall (path_ok links (pf_src (v_pathfind v))) (pf_paths (v_pathfind v));
    vb_queue : forall q, v_queued v = Some q -> 1 <= q <= seq
  }.
  Definition flag_ok (v : vehicle) : Prop := v_flag v <= 2 /\ (v_flag v = 2 -> v_entered v < length (v_route v)).

  Lemma vbase_mono links links' seq k v : net_le links links' -> vbase links seq k v -> vbase links' seq k v.
  Proof.
    intros L []; split; auto.
    - eapply chain_mono; eauto.
    - destruct vb_dst0; [left|right]; auto. apply L; auto.
    - eapply Forall_impl; [|eauto]. intros p. apply path_ok_mono; auto.
  Qed.
  Lemma vbase_src links seq k v : vbase links seq k v -> valid links (pf_src (v_pathfind v)).
  Proof. intros V. eapply chain_valid; [apply V|]. apply hd_error_in. apply V. Qed.
  Lemma vbase_link links seq k v : vbase links seq k v -> exists lid, v_link v = Some lid /\ valid links lid /\ lid = pf_src (v_pathfind v).
  Proof.
    intros V. exists (pf_src (v_pathfind v)). unfold v_link. repeat split; [apply V|]. eapply vbase_src; eauto.
  Qed.

  Record St (links : linkset) (vs : vehset) (seq : nat) : Prop := {
    st_net : net_ok links;
    st_wf : sm_wf vs;
    st_veh : forall k v, sm_get vs k = Some v -> vbase links seq k v;
    st_occ : Occ links (at_of vs)
  }.
  Definition flags0 (vs : vehset) : Prop := forall k v, sm_get vs k = Some v -> v_flag v = 0.
  Definition flags_ok (vs : vehset) : Prop := forall k v, sm_get vs k = Some v -> flag_ok v.

  (** All listed vehicles exist. *)
  Definition listed (links : linkset) (vs : vehset) : Prop :=
    forall lid l k, sm_get links lid = Some l -> In k (lk_vehicles l) -> exists v, sm_get vs k = Some v.
  Lemma Occ_listed links vs : Occ links (at_of vs) -> listed links vs.
  Proof.
    intros O lid l k H Hin. destruct (O _ _ H) as (_ & I). apply I in Hin. unfold at_of in Hin.
    destruct (sm_get vs k); eauto. discriminate.
  Qed.

  Definition light_ok (l : light) : Prop :=
    (l_phases l = [] /\ l_phase l = 0 \/ l_phase l < length (l_phases l)) /\
    Forall (fun il => fst il < length (l_movements l)) (l_mlinks l).

  Record Inv (s : sim) : Prop := {
    i_st : St (s_links s) (s_vehicles s) (s_seq s);
    i_flags : flags0 (s_vehicles s);
    i_lwf : sm_wf (s_lights s);
    i_lights : forall k l, sm_get (s_lights s) k = Some l -> light_ok l;
    i_cps : Forall (fun c => valid (s_links s) (cpl_link (cp_a c)) /\ valid (s_links s) (cpl_link (cp_b c))) (s_conflicts s);
    i_frozen : NoDup (s_frozen s)
  }.

  Lemma Inv_new : Inv sim_new.
  Proof.
    split; simpl.
    - split; [apply net_ok_empty|apply sm_wf_empty| |].
      + intros k v H. rewrite sm_get_empty in H. discriminate.
      + intros lid l H. rewrite sm_get_empty in H. discriminate.
    - intros k v H. rewrite sm_get_empty in H. discriminate.
    - apply sm_wf_empty.
    - intros k l H. rewrite sm_get_empty in H. discriminate.
    - constructor.
    - constructor.
  Qed.

  (** Replacing links by links that list the same vehicles and only have more connections. *)
  Lemma St_links links links' vs seq : St links vs seq -> net_ok links' -> net_le links links' ->
    Occ links' (at_of vs) -> St links' vs seq.
  Proof. intros [] N L O. split; auto. intros k v H. eapply vbase_mono; eauto. Qed.
End SimInv.
