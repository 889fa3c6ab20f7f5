(** * What a step does to a vehicle, as a function of the map, the vehicle and its acceleration (P_Own.v) *)
From Coq Require Import List Bool ZArith NArith Arith Lia.
From Verif Require Import Arith Base BaseProofs SlotMap Util Geom Light Accel Net Path Vehicle LinkOps Sim SpecSim SpecMotion SlotMapProofs Safe NetInv SimInv AccSafe SimSafe StepSafe OpSafe Evo StepEvo SimProofs StepProofs NetEvo SpecMap RoadMap SpecOwn.
Import ListNotations.

Section OwnProofs.
  Context {A : Arith}.

  Lemma upd_map a k f b : (forall l l', f l = Ok l' -> road l' = road l) -> upd_link a k f = Ok b -> same_map a b.
  Proof.
    intros Hf H. unfold upd_link, get_link in H. destruct (sm_get a k) as [l|] eqn:G; [|discriminate H]. cbn [of_option bind] in H. bok H l' Hl. injection H as <-. intros x. rewrite sm_get_set.
    destruct (key_eqb_spec k x) as [->|N]; cbn [andb].
    - replace (sm_mem a x) with true by (symmetry; apply sm_mem_get; eauto). rewrite G. apply road_map. exact (Hf _ _ Hl).
    - destruct (sm_get a x) as [lx|]; [|exact Logic.I]. apply road_map. reflexivity.
  Qed.
  Lemma ties_left e1 e2 : ties_by_map e1 e2 -> ties_by_map e1 e1.
  Proof. intros (F & T). split; [reflexivity|]. intros a b src dst n M. rewrite (T a b src dst n M). symmetry. apply T. apply same_map_refl. Qed.
  Lemma ties_sym e1 e2 : ties_by_map e1 e2 -> ties_by_map e2 e1.
  Proof. intros (F & T). split; [auto|]. intros a b src dst n M. symmetry. apply T. apply same_map_sym. exact M. Qed.

  (** ** The choice of lanes *)
  Definition moved (e : env) (links : linkset) (v : vehicle) (p : path) (v' : vehicle) : Prop :=
    exists lid l pos off slope w, hd_error (pt_links p) = Some lid /\ sm_get links lid = Some l /\ inverse_sample (lk_curve l) (v_world_pos v) (v_world_dir v) = Ok (Some (pos, off, slope)) /\
      set_location e links v lid pos (Some (LaneChg (nadd pos (nofZ 30)) (cubic_fit pos off slope (nadd pos (nofZ 30)) n0 n0))) = Ok w /\ v' = set_path w p.
  Definition own_choice (e : env) (links : linkset) (v v' : vehicle) : Prop :=
    exists o, choose_path links v = Ok o /\
      match o with
      | None => v' = v
      | Some p => exists cur new, v_link v = Some cur /\ hd_error (pt_links p) = Some new /\ (cur = new /\ v' = set_path v p \/ cur <> new /\ moved e links v p v')
      end.

  Lemma change_map e s vp s' : exec_change e s vp = Ok s' -> same_map (s_links s) (s_links s').
  Proof.
    unfold exec_change. intros H. bok H lid Hl. bok H s1 H1. bok H v Hv. injection H as <-. cbn [with_vehicles s_links]. clear - H1.
    unfold do_lane_change in H1. bok H1 v Hv. bok H1 links Hk. bok H1 l Hl. bok H1 o Ho. bok H1 x Hx. destruct x as [[pos off] slope]. bok H1 w Hw. bok H1 links' Hk'. injection H1 as <-. cbn [with_vehicles with_links s_links].
    eapply same_map_trans; [|eapply upd_map; [|exact Hk']; intros a b E; exact (inserted_road _ _ _ _ E)].
    destruct (v_link v); [|injection Hk as <-; apply same_map_refl]. eapply upd_map; [|exact Hk]. intros a b E. injection E as <-. apply removed_road.
  Qed.
  Lemma change_exact e s vp s' : ties_by_map e e -> exec_change e s vp = Ok s' -> forall k v', sm_get (s_vehicles s') k = Some v' ->
    exists v, sm_get (s_vehicles s) k = Some v /\ (k <> fst vp /\ v' = v \/ k = fst vp /\ moved e (s_links s) v (snd vp) v').
  Proof.
    intros Ti H k v' G. unfold exec_change in H. bok H lid Hl. bok H s1 H1. bok H v1 Hv1. injection H as <-. cbn [with_vehicles s_vehicles] in G. apply do_lane_change_ok in H1.
    destruct H1 as (v & w & links & l & pos & off & slope & Gv & Gl & (k0 & Hk & ->) & Hi & Hs & Es).
    assert (s_vehicles s1 = sm_set (s_vehicles s) (fst vp) w) as Ev by (rewrite Es; reflexivity).
    assert (sm_mem (s_vehicles s) (fst vp) = true) as M by (apply sm_mem_get; eauto).
    assert (v1 = w) as ->. { unfold get_vehicle in Hv1. rewrite Ev, sm_get_set, key_eqb_refl, M in Hv1. cbn in Hv1. congruence. }
    rewrite Ev in G. rewrite !sm_get_set, sm_mem_set, M in G. destruct (key_eqb_spec (fst vp) k) as [<-|N]; cbn [andb] in G; [|exists v'; auto].
    injection G as <-. exists v. split; [exact Gv|]. right. split; [reflexivity|].
    assert (same_map (s_links s) links) as Ml. { destruct (v_link v); [|rewrite Hk; apply same_map_refl]. eapply upd_map; [|exact Hk]. intros a b E. injection E as <-. apply removed_road. }
    destruct (hd_error (pt_links (snd vp))) as [lid'|] eqn:Eh; [|discriminate Hl]. injection Hl as ->. pose proof (Ml lid) as Mi. rewrite Gl in Mi. destruct (sm_get (s_links s) lid) as [l0|] eqn:Gl0; [|destruct Mi]. destruct Mi as (_ & Ec & _).
    exists lid, l0, pos, off, slope, w. split; [exact Eh|]. split; [exact Gl0|]. split; [rewrite Ec; exact Hi|]. split; [|reflexivity]. rewrite (location_same _ _ Ml e e v lid pos _ Ti). exact Hs.
  Qed.
  Lemma moved_map e a b v p v' : ties_by_map e e -> same_map a b -> moved e b v p v' -> moved e a v p v'.
  Proof.
    intros Ti M (lid & l & pos & off & slope & w & H1 & H2 & H3 & H4 & H5). pose proof (M lid) as Mi. rewrite H2 in Mi. destruct (sm_get a lid) as [l0|] eqn:G; [|destruct Mi]. destruct Mi as (_ & Ec & _).
    exists lid, l0, pos, off, slope, w. split; [exact H1|]. split; [exact G|]. split; [rewrite Ec; exact H3|]. split; [|exact H5]. rewrite (location_same _ _ M e e v lid pos _ Ti). exact H4.
  Qed.
  Lemma changes_exact e acc : ties_by_map e e -> NoDup (map fst acc) -> forall s s', foldM (exec_change e) acc s = Ok s' -> forall k v', sm_get (s_vehicles s') k = Some v' ->
    exists v, sm_get (s_vehicles s) k = Some v /\ (~ In k (map fst acc) /\ v' = v \/ exists p, In (k, p) acc /\ moved e (s_links s) v p v').
  Proof.
    intros Ti. induction acc as [|vp acc IH]; intros Nd s s' H k v' G; cbn [foldM] in H.
    - injection H as <-. exists v'. split; [exact G|]. left. split; [intros []|reflexivity].
    - bok H s1 H1. inversion Nd as [|? ? N1 N2]; subst. destruct (IH N2 _ _ H _ _ G) as (v1 & G1 & Q). destruct (change_exact _ _ _ _ Ti H1 _ _ G1) as (v & Gv & R). exists v. split; [exact Gv|].
      destruct R as [(Nk & ->)|(-> & Mv)].
      + destruct Q as [(Nq & ->)|(p & Hp & Mv)]; [left; split; [intros [E|E]; [congruence|exact (Nq E)]|reflexivity]|]. right. exists p. split; [right; exact Hp|]. eapply moved_map; [exact Ti|exact (change_map _ _ _ _ H1)|exact Mv].
      + destruct Q as [(Nq & ->)|(p & Hp & _)]; [|exfalso; apply N1; apply in_map_iff; exists (fst vp, p); auto]. right. exists (snd vp). split; [left; destruct vp; reflexivity|exact Mv].
  Qed.

  Lemma choices_exact links vs acc vs1 : (forall k v, sm_get vs k = Some v -> v_id v = k) -> sm_mapS (choose_one links) vs [] = Ok (acc, vs1) ->
    NoDup (map fst acc) /\ forall k v', sm_get vs1 k = Some v' -> exists v o, sm_get vs k = Some v /\ choose_path links v = Ok o /\
      match o with
      | None => v' = v /\ ~ In k (map fst acc)
      | Some p => exists cur new, v_link v = Some cur /\ hd_error (pt_links p) = Some new /\ (cur = new /\ v' = set_path v p /\ ~ In k (map fst acc) \/ cur <> new /\ v' = v /\ In (k, p) acc)
      end.
  Proof.
    intros Id H.
    pose proof (sm_mapS_ind (choose_one links) (fun done todo acc =>
      NoDup (map fst (done ++ todo)) /\ (forall k v, In (k, v) todo -> sm_get vs k = Some v) /\ NoDup (map fst acc) /\ (forall k, In k (map fst acc) -> In k (map fst done)) /\
      (forall k v', In (k, v') done -> exists v o, sm_get vs k = Some v /\ choose_path links v = Ok o /\
        match o with
        | None => v' = v /\ ~ In k (map fst acc)
        | Some p => exists cur new, v_link v = Some cur /\ hd_error (pt_links p) = Some new /\ (cur = new /\ v' = set_path v p /\ ~ In k (map fst acc) \/ cur <> new /\ v' = v /\ In (k, p) acc)
        end))) as K.
    specialize (K vs [] acc vs1). destruct K as (_ & _ & K1 & _ & K2); auto.
    - intros done k v todo acc0 acc1 v' (P1 & P2 & P3 & P4 & P5) Hc.
      assert (sm_get vs k = Some v) as Gk by (apply P2; left; reflexivity).
      assert (~ In k (map fst done)) as Kd. { rewrite map_app in P1. cbn [map] in P1. apply NoDup_remove_2 in P1. rewrite in_app_iff in P1. tauto. }
      split; [revert P1; rewrite !map_app; cbn [map fst]; rewrite <- app_assoc; auto|]. split; [intros; apply P2; right; assumption|].
      unfold choose_one in Hc. bok Hc o Ho.
      assert (forall k1, In k1 (map fst done) -> In k1 (map fst (done ++ [(k, v')]))) as Sub by (intros k1 Hk; rewrite map_app, in_app_iff; left; exact Hk).
      assert (acc1 = acc0 -> match o with None => v' = v | Some p => exists cur new, v_link v = Some cur /\ hd_error (pt_links p) = Some new /\ cur = new /\ v' = set_path v p end -> 
        NoDup (map fst acc1) /\ (forall k1, In k1 (map fst acc1) -> In k1 (map fst (done ++ [(k, v')]))) /\
        (forall k1 v1, In (k1, v1) (done ++ [(k, v')]) -> exists v o, sm_get vs k1 = Some v /\ choose_path links v = Ok o /\
        match o with
        | None => v1 = v /\ ~ In k1 (map fst acc1)
        | Some p => exists cur new, v_link v = Some cur /\ hd_error (pt_links p) = Some new /\ (cur = new /\ v1 = set_path v p /\ ~ In k1 (map fst acc1) \/ cur <> new /\ v1 = v /\ In (k1, p) acc1)
        end)) as Stay.
      { intros -> D. split; [exact P3|]. split; [intros k1 Hk; apply Sub; apply P4; exact Hk|]. intros k1 v1 Hin. apply in_app_iff in Hin. destruct Hin as [Hin|[Hin|[]]]; [exact (P5 _ _ Hin)|]. injection Hin as <- <-.
        assert (~ In k (map fst acc0)) as Na by (intros Q; apply Kd, P4, Q). exists v, o. split; [exact Gk|]. split; [exact Ho|]. destruct o as [p|]; [|auto]. destruct D as (cur & new & D1 & D2 & D3 & D4). exists cur, new. auto 10. }
      destruct o as [p|]; [|injection Hc as <- <-; apply Stay; reflexivity]. bok Hc cur Hcur. bok Hc new Hnew. destruct (v_link v) as [a|] eqn:Hl; [|discriminate Hcur]. injection Hcur as ->. destruct (hd_error (pt_links p)) as [b|] eqn:Hh; [|discriminate Hnew]. injection Hnew as ->.
      destruct (key_eqb_spec cur new) as [E|E]; cbn [negb] in Hc; injection Hc as <- <-; [apply Stay; [reflexivity|]; exists cur, new; auto|].
      rewrite (Id _ _ Gk). split; [|split].
      + rewrite map_app. cbn [map fst]. apply NoDup_app_intro; [exact P3|repeat constructor; intros []|]. intros x Hx [<-|[]]. apply Kd, P4, Hx.
      + intros k1 Hin. rewrite map_app, in_app_iff in Hin. cbn [map fst] in Hin. destruct Hin as [Hin|[<-|[]]]; [apply Sub, P4, Hin|]. rewrite map_app, in_app_iff. right. left. reflexivity.
      + intros k1 v1 Hin. apply in_app_iff in Hin. destruct Hin as [Hin|[Hin|[]]].
        * assert (k1 <> k) as Nk. { intros ->. apply Kd. apply in_map_iff. exists (k, v1). auto. }
          destruct (P5 _ _ Hin) as (v0 & o & Q1 & Q2 & Q3). exists v0, o. split; [exact Q1|]. split; [exact Q2|]. rewrite map_app. cbn [map fst].
          assert (~ In k1 (map fst acc0) -> ~ In k1 (map fst acc0 ++ [k])) as Out. { intros Q Q'. apply in_app_iff in Q'. destruct Q' as [Q'|[Q'|[]]]; [exact (Q Q')|congruence]. }
          destruct o as [p1|]; [|destruct Q3; auto]. destruct Q3 as (c & n & E1 & E2 & [(E3 & E4 & E5)|(E3 & E4 & E5)]); exists c, n; (split; [exact E1|]; split; [exact E2|]); [left; auto|right]. split; [exact E3|]. split; [exact E4|]. apply in_app_iff. left. exact E5.
        * injection Hin as <- <-. exists v, (Some p). split; [exact Gk|]. split; [exact Ho|]. exists cur, new. split; [exact Hl|]. split; [exact Hh|]. right. split; [exact E|]. split; [reflexivity|]. apply in_app_iff. right. left. reflexivity.
    - split; [apply nodup_keys|]. split; [intros k v Hin; apply in_entries; exact Hin|]. split; [constructor|]. split; [intros k []|intros k v []].
    - split; [exact K1|]. intros k v' G. apply K2. apply in_entries. exact G.
  Qed.

  Lemma decide_exact e s s1 : ties_by_map e e -> (forall k v, sm_get (s_vehicles s) k = Some v -> v_id v = k) -> calculate_lane_changes e s = Ok s1 -> forall k v', sm_get (s_vehicles s1) k = Some v' ->
    exists v, sm_get (s_vehicles s) k = Some v /\ (nltb (s_lc_update s) LANE_CHANGE_UPDATE_SEC = true /\ v' = v \/ nltb (s_lc_update s) LANE_CHANGE_UPDATE_SEC = false /\ own_choice e (s_links s) v v').
  Proof.
    intros Ti Id H k v' G. unfold calculate_lane_changes in H. destruct (nltb (s_lc_update s) LANE_CHANGE_UPDATE_SEC); [injection H as <-; eauto|]. bok H r Hr. destruct r as [acc vs1]. cbn [fst snd] in H.
    destruct (choices_exact _ _ _ _ Id Hr) as (Nd & K). destruct (changes_exact e acc Ti Nd _ _ H _ _ G) as (v1 & G1 & Q). cbn [with_vehicles with_lc_update s_vehicles s_links] in G1, Q. destruct (K _ _ G1) as (v & o & Gv & Ho & D). exists v. split; [exact Gv|]. right. split; [reflexivity|].
    exists o. split; [exact Ho|]. destruct o as [p|].
    - destruct D as (cur & new & D1 & D2 & [(D3 & D4 & D5)|(D3 & D4 & D5)]); exists cur, new; (split; [exact D1|]; split; [exact D2|]).
      + left. split; [exact D3|]. destruct Q as [(_ & ->)|(p1 & Hp & _)]; [exact D4|]. exfalso. apply D5. apply in_map_iff. exists (k, p1). auto.
      + right. split; [exact D3|]. subst v1. destruct Q as [(Q & _)|(p1 & Hp & Mv)]; [exfalso; apply Q; apply in_map_iff; exists (k, p); auto|].
        assert (p1 = p) as ->; [|exact Mv]. clear - Nd Hp D5. induction acc as [|(k0, p0) acc IH]; [destruct Hp|]. cbn [map fst] in Nd. inversion Nd as [|? ? N1 N2]; subst.
        destruct Hp as [Hp|Hp], D5 as [D5|D5]; [congruence| | |exact (IH N2 Hp D5)]; exfalso; apply N1; apply in_map_iff; [exists (k, p)|exists (k, p1)]; cbn; split; congruence.
    - destruct D as (-> & D5). destruct Q as [(_ & ->)|(p1 & Hp & _)]; [reflexivity|]. exfalso. apply D5. apply in_map_iff. exists (k, p1). auto.
  Qed.

  (** ** Each phase on two vehicles in the same motion *)
  Lemma net_map a b : same_net a b -> same_map a b.
  Proof.
    intros N k. pose proof (sn_get _ _ N k) as E. destruct (sm_get a k), (sm_get b k); try discriminate E; [|exact Logic.I]. apply road_map. apply static_road. cbn [option_map] in E. congruence.
  Qed.
  Lemma so_link v w : same_motion v w -> v_link v = v_link w.
  Proof. intros M. unfold v_link. rewrite (so_route _ _ M). reflexivity. Qed.
  Lemma choose_own a b v w : same_map a b -> same_motion v w -> choose_path a v = choose_path b w.
  Proof.
    intros Ma M. unfold choose_path. rewrite (so_change _ _ M), (so_plan _ _ M), (so_route _ _ M). destruct (v_lane_change w); [reflexivity|]. apply bind_first. apply mapM_all. intros p. apply bind_first.
    unfold evaluate_path. rewrite (so_route _ _ M), (so_pos _ _ M). apply bind_all. intros cur. apply bind_all. intros new. destruct (key_eqb cur new); [reflexivity|]. apply get_same; [exact Ma|]. intros l l' (E1 & _ & _ & _ & E5 & _).
    unfold link_project_approx. rewrite E1, E5. reflexivity.
  Qed.
  Lemma location_own e links v w k pos lc v1 w1 : same_motion v w -> set_location e links v k pos lc = Ok v1 -> set_location e links w k pos lc = Ok w1 -> same_motion v1 w1.
  Proof.
    intros M H1 H2. unfold set_location in H1, H2. rewrite (so_plan _ _ M) in H1. bok H1 pf Hf. rewrite Hf in H2. cbn [bind] in H2. injection H1 as <-. injection H2 as <-. destruct M. constructor; cbn; auto.
  Qed.
  Lemma path_own v w p : same_motion v w -> same_motion (set_path v p) (set_path w p).
  Proof. intros []. constructor; cbn; auto. Qed.
  Lemma moved_own e1 e2 a b v w p v' w' : ties_by_map e1 e2 -> same_map a b -> same_motion v w -> moved e1 a v p v' -> moved e2 b w p w' -> same_motion v' w'.
  Proof.
    intros Ti Ma M (lid & l & pos & off & slope & v1 & H1 & H2 & H3 & H4 & ->) (lid2 & l2 & pos2 & off2 & slope2 & w1 & J1 & J2 & J3 & J4 & ->).
    rewrite H1 in J1. injection J1 as <-. pose proof (Ma lid) as Mi. rewrite H2, J2 in Mi. destruct Mi as (_ & Ec & _). rewrite <- Ec, <- (so_place _ _ M), <- (so_dir _ _ M), H3 in J3. injection J3 as <- <- <-.
    apply path_own. rewrite (location_same _ _ Ma e1 e2 v lid pos _ Ti) in H4. eapply location_own; eauto.
  Qed.
  Lemma choice_own e1 e2 a b v w v' w' : ties_by_map e1 e2 -> same_map a b -> same_motion v w -> own_choice e1 a v v' -> own_choice e2 b w w' -> same_motion v' w'.
  Proof.
    intros Ti Ma M (o & H1 & H2) (o2 & J1 & J2). rewrite (choose_own _ _ _ _ Ma M), J1 in H1. injection H1 as ->. destruct o as [p|]; [|subst; exact M].
    destruct H2 as (cur & new & Q1 & Q2 & Q3). destruct J2 as (cur2 & new2 & K1 & K2 & K3). rewrite (so_link _ _ M), K1 in Q1. injection Q1 as ->. rewrite Q2 in K2. injection K2 as <-.
    destruct Q3 as [(Q3 & ->)|(Q3 & Q4)], K3 as [(K3 & ->)|(K3 & K4)]; try contradiction; [apply path_own; exact M|]. eapply moved_own; eauto.
  Qed.
  Lemma keep_own v w : vkeep v w -> same_motion v w.
  Proof. intros (a & f & ->). constructor; reflexivity. Qed.
  Lemma so_sym v w : same_motion v w -> same_motion w v.
  Proof. intros []. constructor; auto. Qed.
  Lemma so_trans v w x : same_motion v w -> same_motion w x -> same_motion v x.
  Proof. intros [] []. constructor; congruence. Qed.
  Lemma integrate_own v w dt q1 q2 r1 r2 v' w' : same_motion v w -> am_get (v_acc v) = am_get (v_acc w) -> integrate v dt q1 = Ok (r1, v') -> integrate w dt q2 = Ok (r2, w') -> same_motion v' w'.
  Proof.
    intros M Ea H1 H2. unfold integrate in H1, H2. bok H1 x Hx. destruct x as [sq [en qu]]. injection H1 as <- <-. bok H2 y Hy. destruct y as [sq2 [en2 qu2]]. injection H2 as <- <-.
    assert (new_vel v dt = new_vel w dt) as Ev by (unfold new_vel; rewrite (so_vel _ _ M), Ea; reflexivity).
    assert (new_pos v dt = new_pos w dt) as Ep by (unfold new_pos; rewrite Ev, (so_vel _ _ M), (so_pos _ _ M); reflexivity).
    destruct M. constructor; cbn; auto. rewrite Ep. congruence.
  Qed.
  Lemma integrate_acc v dt q r v' : integrate v dt q = Ok (r, v') -> v_acc v' = v_acc v.
  Proof. intros H. unfold integrate in H. bok H x Hx. destruct x as [sq [en qu]]. injection H as <- <-. reflexivity. Qed.
  Lemma advance_own e1 e2 a b v w bx v' b_y w' : ties_by_map e1 e2 -> same_map a b -> same_motion v w -> advance e1 a v = Ok (bx, v') -> advance e2 b w = Ok (b_y, w') -> same_motion v' w' /\ v_acc v' = v_acc v /\ v_acc w' = v_acc w.
  Proof.
    intros Ti Ma M H1 H2. unfold advance in H1, H2. rewrite (so_route _ _ M) in H1. destruct (v_route w) as [|id rest]; [injection H1 as <- <-; injection H2 as <- <-; auto|].
    bok H1 l Hl. bok H2 l2 Hl2. unfold get_link in Hl, Hl2. pose proof (Ma id) as Mi. destruct (sm_get a id) as [l0|]; [|discriminate Hl]. injection Hl as ->. destruct (sm_get b id) as [l3|]; [|discriminate Hl2]. injection Hl2 as ->. destruct Mi as (_ & Ec & _).
    assert (lk_length l = lk_length l2) as El by (unfold lk_length; rewrite Ec; reflexivity). rewrite El, (so_pos _ _ M) in H1. destruct (nltb (lk_length l2) (v_pos w)); [|injection H1 as <- <-; injection H2 as <- <-; auto].
    bok H1 pf Hf. bok H2 pfb Hf2. destruct (v_entered v); [discriminate H1|]. destruct (v_entered w); [discriminate H2|]. injection H1 as <- <-. injection H2 as <- <-.
    assert (pf = pfb) as ->. { rewrite (so_plan _ _ M) in Hf. destruct rest; [congruence|]. rewrite (origin_same _ _ Ma e1 e2 _ _ Ti) in Hf. congruence. }
    split; [|split; reflexivity]. destruct M. constructor; cbn; auto. congruence.
  Qed.
  Lemma coords_own a b v w v' w' : same_map a b -> same_motion v w -> update_coords a v = Ok v' -> update_coords b w = Ok w' -> same_motion v' w' /\ v_acc v' = v_acc v /\ v_acc w' = v_acc w.
  Proof.
    intros Ma M H1 H2. rewrite (coords_same _ _ Ma) in H1. unfold update_coords in H1, H2. rewrite (so_route _ _ M), (so_pos _ _ M), (so_change _ _ M), (so_dir _ _ M), (so_place _ _ M), (so_base _ _ M) in H1.
    destruct (hd_error (v_route w)) as [id|]; [|discriminate H1]. cbn [of_option bind] in H1, H2. destruct (get_link b id) as [l|p|]; [|discriminate H1..]. cbn [bind] in H1, H2. cbv zeta in H1, H2. destruct (v_lane_change w) as [lc|] eqn:El; injection H1 as <-; injection H2 as <-; (split; [|split; reflexivity]; destruct M; constructor; cbn; auto).
  Qed.

  (** ** A step *)
  Lemma advance_all e s s' : advance_vehicles e s = Ok s' -> forall k v', sm_get (s_vehicles s') k = Some v' ->
    exists v links b, sm_get (s_vehicles s) k = Some v /\ same_map (s_links s) links /\ advance e links v = Ok (b, v').
  Proof.
    intros H k v' G. unfold advance_vehicles in H. bok H x Hx. destruct x as [[links [adv ex]] vs]. bok H x Hx1. injection H as <-. cbn [with_links with_vehicles s_vehicles] in G.
    assert (sm_get vs k = Some v') as Gk. { rewrite sm_get_fold_remove in G. destruct (key_mem k ex); [discriminate G|exact G]. }
    destruct (sm_mapS_pointwise (advance_one e) (fun st => same_map (s_links s) (fst st)) (s_vehicles s) (s_links s, ([], [])) (links, (adv, ex)) vs) as (_ & _ & K); [|apply same_map_refl|exact Hx|].
    - intros st1 k1 v1 st2 v2 _ P Ho. destruct st1 as [ls [ad x1]]. cbn [fst] in P. unfold advance_one in Ho. bok Ho lid Hlid. bok Ho bv Hb. destruct (fst bv); [|injection Ho as <- _; exact P].
      bok Ho l3 Hl3. assert (same_map ls l3) as Ml by (eapply upd_map; [|exact Hl3]; intros a c E; injection E as <-; apply removed_road). destruct (v_link (snd bv)); injection Ho as <- _; exact (same_map_trans _ _ _ P Ml).
    - destruct (K _ _ Gk) as (st1 & st2 & v & P1 & _ & Ho & Gv). exists v, (fst st1). destruct st1 as [ls [ad x1]]. cbn [fst] in *. unfold advance_one in Ho. bok Ho lid Hlid. bok Ho bv Hb. destruct bv as [b v1]. exists b. split; [exact Gv|]. split; [exact P1|]. cbn [fst snd] in Ho. destruct b; [|injection Ho as _ <-; exact Hb].
      bok Ho l3 Hl3. destruct (v_link v1); injection Ho as _ <-; exact Hb.
  Qed.

  Lemma own_parts e s dt s' k v' : ties_by_map e e -> Inv s -> step e s dt = Ok s' -> sm_get (s_vehicles s') k = Some v' ->
    exists v v1 v2 v4 v5 q q' l4 b l5, sm_get (s_vehicles s) k = Some v /\
      (nltb (s_lc_update s) LANE_CHANGE_UPDATE_SEC = true /\ v1 = v \/ nltb (s_lc_update s) LANE_CHANGE_UPDATE_SEC = false /\ own_choice e (s_links s) v v1) /\
      same_motion v1 v2 /\ integrate v2 dt q = Ok (q', v4) /\ same_map (s_links s) l4 /\ advance e l4 v4 = Ok (b, v5) /\ same_map (s_links s) l5 /\ update_coords l5 v5 = Ok v'.
  Proof.
    intros Ti I H G'. destruct (step_phases _ _ _ _ I H) as (s1 & s2 & s3 & s4 & s5 & P). destruct (ph6 _ _ _ _ _ _ _ _ _ P) as (s6 & H6 & ->). cbn [s_vehicles] in G'.
    assert (same_map (s_links s) (s_links s4)) as M4.
    { apply net_map. rewrite (pn4 _ _ _ _ _ _ _ _ _ P). eapply same_net_trans; [apply P|]. eapply same_net_trans; apply P. }
    assert (same_map (s_links s) (s_links s5)) as M5 by (eapply same_map_trans; [exact M4|apply net_map; apply P]).
    unfold update_vehicle_coords in H6. bok H6 r Hr. destruct r as [u vs]. injection H6 as <-. cbn [with_vehicles s_vehicles] in G'.
    destruct (sm_mapS_pointwise _ (fun _ => True) _ _ _ _ (fun _ _ _ _ _ _ _ _ => Logic.I) Logic.I Hr) as (_ & _ & K2). destruct (K2 _ _ G') as (u1 & u2 & v5 & _ & _ & Ho & G5). bok Ho v6 Hv. injection Ho as _ <-.
    destruct (advance_all _ _ _ (ph5 _ _ _ _ _ _ _ _ _ P) _ _ G5) as (v4 & l4 & b & G4 & Ml & Ha).
    destruct (integrate_evo _ _ _ (ph4 _ _ _ _ _ _ _ _ _ P)) as (_ & Ie & _). destruct (Ie _ _ G4) as (v2 & q & q' & G2 & Hi & _). rewrite (pv3 _ _ _ _ _ _ _ _ _ P) in G2.
    destruct (pk2 _ _ _ _ _ _ _ _ _ P _ _ G2) as (v1 & G1 & Kp).
    destruct (decide_exact e s s1 Ti) with (k := k) (v' := v1) as (v & Gv & D); [intros x vx Gx; exact (vb_id _ _ _ _ (st_veh _ _ _ (i_st _ I) _ _ Gx))|apply P|exact G1|].
    exists v, v1, v2, v4, v5, q, q', l4, b, (s_links s5). split; [exact Gv|]. split; [exact D|]. split; [apply keep_own; exact Kp|]. split; [exact Hi|]. split; [exact (same_map_trans _ _ _ M4 Ml)|]. split; [exact Ha|]. split; [exact M5|exact Hv].
  Qed.

  Lemma step_own e1 e2 s t dt s' t' k v w v' w' : ties_by_map e1 e2 -> Inv s -> Inv t -> same_map (s_links s) (s_links t) ->
    nltb (s_lc_update s) LANE_CHANGE_UPDATE_SEC = nltb (s_lc_update t) LANE_CHANGE_UPDATE_SEC ->
    step e1 s dt = Ok s' -> step e2 t dt = Ok t' ->
    sm_get (s_vehicles s) k = Some v -> sm_get (s_vehicles t) k = Some w -> same_motion v w ->
    sm_get (s_vehicles s') k = Some v' -> sm_get (s_vehicles t') k = Some w' -> am_get (v_acc v') = am_get (v_acc w') -> same_motion v' w'.
  Proof.
    intros Ti Is It Ma Tl H1 H2 Gv Gw M Gv' Gw' Ea.
    destruct (own_parts _ _ _ _ _ _ (ties_left _ _ Ti) Is H1 Gv') as (x & v1 & v2 & v4 & v5 & q & q' & l4 & b & l5 & G0 & D & K1 & Hi & M4 & Ha & M5 & Hc). assert (x = v) by congruence. subst x.
    destruct (own_parts _ _ _ _ _ _ (ties_left _ _ (ties_sym _ _ Ti)) It H2 Gw') as (x & w1 & w2 & w4 & w5 & p & p' & m4 & c & m5 & G0' & D' & K1' & Hi' & M4' & Ha' & M5' & Hc'). assert (x = w) by congruence. subst x.
    assert (same_map l4 m4) as N4 by (eapply same_map_trans; [apply same_map_sym; exact M4|]; eapply same_map_trans; [exact Ma|exact M4']).
    assert (same_map l5 m5) as N5 by (eapply same_map_trans; [apply same_map_sym; exact M5|]; eapply same_map_trans; [exact Ma|exact M5']).
    assert (same_motion v1 w1) as S1.
    { rewrite Tl in D. destruct (nltb (s_lc_update t) LANE_CHANGE_UPDATE_SEC); (destruct D as [(D1 & D2)|(D1 & D2)]; try discriminate D1; destruct D' as [(D1' & D2')|(D1' & D2')]; try discriminate D1'); [subst; exact M|]. exact (choice_own _ _ _ _ _ _ _ _ Ti Ma M D2 D2'). }
    assert (same_motion v2 w2) as S2 by (eapply so_trans; [apply so_sym; exact K1|]; eapply so_trans; [exact S1|exact K1']).
    assert (v_acc v5 = v_acc v4) as A5. { unfold advance in Ha. destruct (v_route v4) as [|id rest]; [injection Ha as _ <-; reflexivity|]. bok Ha l Hl. cbv zeta in Ha. destruct (nltb (lk_length l) (v_pos v4)); [|injection Ha as _ <-; reflexivity]. bok Ha pf Hf. destruct (v_entered v4); [discriminate Ha|]. injection Ha as <- <-. reflexivity. }
    assert (v_acc w5 = v_acc w4) as B5. { unfold advance in Ha'. destruct (v_route w4) as [|id rest]; [injection Ha' as _ <-; reflexivity|]. bok Ha' l Hl. cbv zeta in Ha'. destruct (nltb (lk_length l) (v_pos w4)); [|injection Ha' as _ <-; reflexivity]. bok Ha' pf Hf. destruct (v_entered w4); [discriminate Ha'|]. injection Ha' as <- <-. reflexivity. }
    pose proof (proj1 (update_coords_ok _ _ _ Hc)) as E5. pose proof (proj1 (update_coords_ok _ _ _ Hc')) as E5'.
    assert (am_get (v_acc v2) = am_get (v_acc w2)) as Ea2.
    { rewrite <- (integrate_acc _ _ _ _ _ Hi), <- (integrate_acc _ _ _ _ _ Hi'), <- A5, <- B5. assert (v_acc v' = v_acc v5) as <- by (unfold body in E5; congruence). assert (v_acc w' = v_acc w5) as <- by (unfold body in E5'; congruence). exact Ea. }
    pose proof (integrate_own _ _ _ _ _ _ _ _ _ S2 Ea2 Hi Hi') as S4. destruct (advance_own _ _ _ _ _ _ _ _ _ _ Ti N4 S4 Ha Ha') as (S5 & _ & _). exact (proj1 (coords_own _ _ _ _ _ _ N5 S5 Hc Hc')).
  Qed.

  (** ** Other calls *)
  Lemma so_refl v : same_motion v v.
  Proof. constructor; reflexivity. Qed.
  Lemma aside_own e s o s' k v : Inv s -> aside k o -> exec e s o = Ok s' -> sm_get (s_vehicles s) k = Some v -> exists v', sm_get (s_vehicles s') k = Some v' /\ same_motion v v'.
  Proof.
    intros I As H G. assert (s_vehicles s' = s_vehicles s -> exists v', sm_get (s_vehicles s') k = Some v' /\ same_motion v v') as Z by (intros ->; exists v; split; [exact G|apply so_refl]).
    destruct o; cbn [exec aside] in *; try (exfalso; exact As).
    - apply Z. unfold add_link_convergance in H. destruct (key_eqb _ _); [congruence|]. destruct (sm_get _ a); [|congruence]. destruct (sm_get _ b); [|congruence]. bok H x Hx. destruct x; [|congruence]. bok H y Hy. injection H as <-. reflexivity.
    - apply Z. bok H x Hx. injection H as <-. reflexivity.
    - bok H x Hx. destruct x as [s1 k1]. injection H as <-. apply add_vehicle_ok in Hx. destruct Hx as (-> & w & -> & _). exists v. split; [|apply so_refl]. pose proof (st_wf _ _ _ (i_st _ I)) as W. rewrite (sm_get_insert _ _ _ W). destruct (key_eqb_spec (sm_next_key (s_vehicles s)) k) as [E|_]; [|exact G]. rewrite <- E, (next_key_fresh _ W) in G. discriminate G.
    - unfold sim_remove_vehicle in H. assert (s_vehicles s' = sm_remove (s_vehicles s) v0 \/ s' = s) as [E| ->].
      { destruct (sm_get (s_vehicles s) v0) as [w|]; [|right; congruence]. left. cbn in H. destruct (v_link w); [|injection H as <-; reflexivity]. bok H x Hx. injection H as <-. reflexivity. }
      + rewrite E, sm_get_remove. destruct (key_eqb_spec v0 k) as [->|N]; [contradiction|]. exists v. split; [exact G|apply so_refl].
      + apply Z. reflexivity.
    - unfold randomise_velocity_adjusts in H. bok H x Hx. destruct x as [u vs]. injection H as <-. cbn.
      destruct (sm_mapS_pointwise _ (fun _ => True) _ _ _ _ (fun _ _ _ _ _ _ _ _ => Logic.I) Logic.I Hx) as (_ & K & _). destruct (K _ _ G) as (u1 & u2 & v' & _ & _ & Ho & G1). injection Ho as _ <-. eexists. split; [exact G1|]. constructor; reflexivity.
    - injection H as <-. apply Z. unfold set_vehicle_frozen. destruct frozen, (position _ _); reflexivity.
    - unfold set_vehicle_destination in H. bok H x Hx. bok H y Hy. injection H as <-. cbn. rewrite sm_get_set. destruct (key_eqb_spec v0 k) as [->|N]; [contradiction|]. exists v. split; [exact G|apply so_refl].
    - unfold set_link_control in H. bok H x Hx. injection H as <-. apply Z. reflexivity.
    - apply do_lane_change_ok in H. destruct H as (v1 & v2 & links & l0 & pos & off & slope & _ & _ & _ & _ & _ & Es). assert (s_vehicles s' = sm_set (s_vehicles s) v0 v2) as E by (rewrite Es; reflexivity). rewrite E, sm_get_set. destruct (key_eqb_spec v0 k) as [->|N]; [contradiction|]. exists v. split; [exact G|apply so_refl].
  Qed.
  Lemma aside_map k o : aside k o -> keeps_map o /\ is_step o = false.
  Proof. destruct o; cbn; intros As; try (exfalso; exact As); auto. Qed.
End OwnProofs.
