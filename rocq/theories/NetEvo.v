(** * How calls change the links (P_Net.v) *)
From Coq Require Import List Bool ZArith NArith Arith Lia.
From Verif Require Import Arith Base BaseProofs SlotMap Util Geom Light Accel Net Path Vehicle LinkOps Sim SpecSim SlotMapProofs Safe NetInv SimInv AccSafe SimSafe StepSafe OpSafe Evo StepEvo SimProofs StepProofs.
Import ListNotations.

Section NetEvo.
  Context {A : Arith}.

  Lemma upd_get links k0 f links' k l' : upd_link links k0 f = Ok links' -> sm_get links' k = Some l' ->
    k = k0 /\ (exists l, sm_get links k = Some l /\ f l = Ok l') \/ k <> k0 /\ sm_get links k = Some l'.
  Proof.
    unfold upd_link, get_link. intros H G. destruct (sm_get links k0) as [l0|] eqn:G0; [|discriminate]. simpl in H. bok H l1 H1. injection H as <-.
    rewrite sm_get_set in G. replace (sm_mem links k0) with true in G by (symmetry; apply sm_mem_get; eauto).
    destruct (key_eqb_spec k0 k) as [->|N]; simpl in G; [left|right; split; congruence].
    injection G as <-. split; auto. exists l0. auto.
  Qed.

  (** Everything of a link but the cells, the vehicles, the control, the group and the lane changes. *)
  Definition built (l : link) := (lk_id l, lk_curve l, lk_limit l, lk_cost l, lk_in l, lk_out l).
  Definition geo (l : link) := (lk_id l, lk_curve l, lk_limit l, lk_cost l).

  Lemma upd_keeps {X} (p : link -> X) links k0 f links' k l' : upd_link links k0 f = Ok links' -> (forall l l1, f l = Ok l1 -> p l1 = p l) ->
    sm_get links' k = Some l' -> exists l, sm_get links k = Some l /\ p l' = p l.
  Proof.
    intros H Hf G. destruct (upd_get _ _ _ _ _ _ H G) as [(-> & l & G0 & E)|(_ & G0)]; eauto.
  Qed.
  Lemma fold_keeps {X Y} (p : link -> X) (g : Y -> key) (f : Y -> link -> res link) ys links links' k l' :
    foldM (fun links y => upd_link links (g y) (f y)) ys links = Ok links' -> (forall y l l1, f y l = Ok l1 -> p l1 = p l) ->
    sm_get links' k = Some l' -> exists l, sm_get links k = Some l /\ p l' = p l.
  Proof.
    revert links. induction ys as [|y ys IH]; intros links H Hf G; simpl in H; [injection H as <-; eauto|].
    bok H ls Hls. destruct (IH _ H Hf G) as (l1 & G1 & E1). destruct (upd_keeps p _ _ _ _ _ _ Hls (Hf y) G1) as (l & G0 & E0). exists l. split; congruence.
  Qed.
  Lemma vehicles_built k l : built (remove_vehicle k l) = built l.
  Proof. destruct (remove_vehicle_set k l) as (vs & ->). reflexivity. Qed.
  Lemma insert_built vs k l l' : insert_vehicle vs k l = Ok l' -> built l' = built l.
  Proof. intros H. destruct (insert_vehicle_set _ _ _ _ H) as (x & ->). reflexivity. Qed.
  Lemma lane_change_built l k l' : add_lane_change l k = Ok l' -> built l' = built l.
  Proof. unfold add_lane_change. destruct (Nat.ltb _ _); [|discriminate]. injection 1 as <-. reflexivity. Qed.
  Lemma static_built l l' : lk_static l = lk_static l' -> built l = built l'.
  Proof. unfold lk_static, built. intros H. injection H as E1 E2 E3 E4 E5 E6 E7 E8 E9. congruence. Qed.

  Lemma step_same_net e s dt s' : Inv s -> step e s dt = Ok s' -> same_net (s_links s) (s_links s').
  Proof.
    intros I H. destruct (step_phases _ _ _ _ I H) as (s1 & s2 & s3 & s4 & s5 & P). destruct (ph6 _ _ _ _ _ _ _ _ _ P) as (s6 & H6 & ->). simpl.
    destruct (coords_evo _ _ H6) as (_ & _ & _ & E6). rewrite E6. simpl. eapply same_net_trans; [apply P|]. eapply same_net_trans; [apply P|]. eapply same_net_trans; [apply P|].
    rewrite <- (pn4 _ _ _ _ _ _ _ _ _ P). apply P.
  Qed.

  (** The links out of and into [k] that a call adds. *)
  Definition outs (o : op) (k : key) : list key := match o with OAddConnection a b => if key_eqb a k then [b] else [] | _ => [] end.
  Definition ins (o : op) (k : key) : list key := match o with OAddConnection a b => if key_eqb b k then [a] else [] | _ => [] end.

  Lemma exec_built e s o s' k l' : Inv s -> exec e s o = Ok s' -> sm_get (s_links s') k = Some l' ->
    (exists l, sm_get (s_links s) k = Some l /\ geo l' = geo l /\ lk_out l' = lk_out l ++ outs o k /\ lk_in l' = lk_in l ++ ins o k) \/
    (exists c lim, o = OAddLink c lim /\ k = sm_next_key (s_links s) /\ link_new (e_fuel e) k c lim = Ok l').
  Proof.
    intros I H G.
    assert ((exists l, sm_get (s_links s) k = Some l /\ built l' = built l) -> outs o k = [] -> ins o k = [] ->
            exists l, sm_get (s_links s) k = Some l /\ geo l' = geo l /\ lk_out l' = lk_out l ++ outs o k /\ lk_in l' = lk_in l ++ ins o k) as K.
    { intros (l & G0 & E) -> ->. exists l. unfold built, geo in *. injection E as E1 E2 E3 E4 E5 E6. rewrite !app_nil_r. split; auto. split; [congruence|auto]. }
    assert (s_links s' = s_links s -> exists l, sm_get (s_links s) k = Some l /\ built l' = built l) as Z by (intros E; rewrite E in G; eauto).
    destruct o; simpl in H.
    - bok H x Hx. unfold add_link in Hx. bok Hx l Hl. injection Hx as <-. injection H as <-. simpl in G.
      rewrite sm_get_insert in G by apply (st_net _ _ _ (i_st _ I)). destruct (key_eqb_spec (sm_next_key (s_links s)) k) as [<-|N].
      + right. injection G as <-. eauto.
      + left. apply K; auto. eauto.
    - left. apply K; auto. unfold add_link_group in H. bok H x1 Hx1. bok H x2 Hx2. bok H x3 Hx3. bok H x4 Hx4. bok H x5 Hx5. injection H as <-. simpl in G.
      destruct (fold_keeps built fst (fun ft l => add_lane_change l (snd ft)) _ _ _ _ _ Hx5 (fun y l l1 E => lane_change_built _ _ _ E) G) as (l1 & G1 & E1).
      destruct (fold_keeps built (fun x => x) (fun _ l => Ok (set_group l x2)) _ _ _ _ _ Hx3 ltac:(intros ? ? ? E; injection E as <-; reflexivity) G1) as (l2 & G2 & E2).
      exists l2. split; congruence.
    - left. apply K; auto. unfold add_link_convergance in H. destruct (key_eqb _ _); [injection H as <-; auto|].
      destruct (sm_get _ a); [|injection H as <-; auto]. destruct (sm_get _ b); [|injection H as <-; auto].
      bok H x Hx. destruct x; [|injection H as <-; auto]. bok H y Hy. injection H as <-. simpl in G.
      exact (fold_keeps built fst (fun kc l => Ok (add_conflict l (snd kc))) _ _ _ _ _ Hy ltac:(intros ? ? ? E; injection E as <-; reflexivity) G).
    - left. unfold add_link_connection in H. bok H x Hx. bok H y Hy. injection H as <-. simpl in G.
      assert (exists l1, sm_get x k = Some l1 /\ geo l' = geo l1 /\ lk_out l' = lk_out l1 /\ lk_in l' = lk_in l1 ++ ins (OAddConnection from to) k) as (l1 & G1 & E1 & E2 & E3).
      { destruct (upd_get _ _ _ _ _ _ Hy G) as [(-> & l & G0 & E)|(N & G0)].
        - injection E as <-. exists l. split; auto. split; auto. split; auto. cbn [ins]. rewrite key_eqb_refl. reflexivity.
        - exists l'. split; auto. split; auto. split; auto. cbn [ins]. destruct (key_eqb_spec to k); [congruence|]. rewrite app_nil_r. reflexivity. }
      destruct (upd_get _ _ _ _ _ _ Hx G1) as [(-> & l & G0 & E)|(N & G0)].
      + injection E as <-. exists l. split; auto. split; [exact E1|]. split; [|exact E3]. rewrite E2. cbn [outs]. rewrite key_eqb_refl. reflexivity.
      + exists l1. split; auto. split; auto. split; auto. rewrite E2. cbn [outs]. destruct (key_eqb_spec from k); [congruence|]. rewrite app_nil_r. reflexivity.
    - left. apply K; auto. bok H x Hx. injection H as <-. auto.
    - left. apply K; auto. bok H x Hx. destruct x as [s1 k1]. injection H as <-. unfold add_vehicle in Hx. bok Hx v0 Hv0. bok Hx v Hv. bok Hx links Hl.
      injection Hx as <- <-. simpl in G. exact (upd_keeps built _ _ _ _ _ _ Hl (fun l l1 E => insert_built _ _ _ _ E) G).
    - left. apply K; auto. unfold sim_remove_vehicle in H. destruct (sm_get _ v) as [v0|]; [|injection H as <-; auto]. simpl in H.
      destruct (v_link v0); [|injection H as <-; auto]. bok H x Hx. injection H as <-. simpl in G.
      refine (upd_keeps built _ _ _ _ _ _ Hx _ G). intros ? ? E. injection E as <-. apply vehicles_built.
    - left. apply K; auto. unfold randomise_velocity_adjusts in H. bok H x Hx. injection H as <-. auto.
    - left. apply K; auto. injection H as <-. apply Z. unfold set_vehicle_frozen. destruct frozen, (position _ _); auto.
    - left. apply K; auto. unfold set_vehicle_destination in H. bok H x Hx. bok H y Hy. injection H as <-. auto.
    - left. apply K; auto. unfold set_link_control in H. bok H x Hx. injection H as <-. simpl in G.
      refine (upd_keeps built _ _ _ _ _ _ Hx _ G). intros ? ? E. injection E as <-. reflexivity.
    - left. apply K; auto. unfold do_lane_change in H. bok H x0 Hx0. bok H x1 Hx1. bok H x2 Hx2. bok H x3 Hx3. bok H x4 Hx4. destruct x4 as [[pos off] sl].
      bok H x5 Hx5. bok H x6 Hx6. injection H as <-. simpl in G.
      destruct (upd_keeps built _ _ _ _ _ _ Hx6 (fun l l1 E => insert_built _ _ _ _ E) G) as (l1 & G1 & E1).
      destruct (v_link x0); [|injection Hx1 as <-; eauto].
      destruct (upd_keeps built _ _ _ _ _ _ Hx1 ltac:(intros ? ? E; injection E as <-; apply vehicles_built) G1) as (l2 & G2 & E2). exists l2. split; congruence.
    - left. apply K; auto. destruct (same_net_get _ _ _ _ (step_same_net _ _ _ _ I H) G) as (l0 & G0 & E). exists l0. split; auto. symmetry. apply static_built. auto.
  Qed.
End NetEvo.
