(** * A due acceleration update forgets the old accelerations (C24) *)
From Coq Require Import List Bool ZArith NArith Arith Lia.
From Verif Require Import Arith Base BaseProofs SlotMap Util Geom Light Accel Net Path Vehicle LinkOps Sim SpecSim SlotMapProofs StepEvo.
Import ListNotations.

Definition rmap {X Y} (f : X -> Y) (r : res X) : res Y := bind r (fun x => Ok (f x)).
Lemma rmap_bind {X Y Z} (f : Y -> Z) (r : res X) (g : X -> res Y) : rmap f (bind r g) = bind r (fun x => rmap f (g x)).
Proof. destruct r; auto. Qed.
Lemma bind_rmap {X Y Z} (f : X -> Y) (r : res X) (g : Y -> res Z) : bind (rmap f r) g = bind r (fun x => g (f x)).
Proof. destruct r; auto. Qed.
Lemma bind_ext {X Y} (r : res X) (f g : X -> res Y) : (forall x, f x = g x) -> bind r f = bind r g.
Proof. intros H. destruct r; simpl; auto. Qed.

Section AccFresh.
  Context {A : Arith}.
  Variable f : key -> num.
  Let g (v : vehicle) : vehicle := set_acc v (am_set_acc (v_acc v) (f (v_id v))).

  Lemma sm_mem_map {V} (h : V -> V) m k : sm_mem (sm_map h m) k = sm_mem m k.
  Proof. unfold sm_mem. rewrite sm_get_map. destruct (sm_get m k); auto. Qed.
  Lemma map_set_nth {X Y} (h : X -> Y) i x l : map h (set_nth i x l) = set_nth i (h x) (map h l).
  Proof. revert i. induction l as [|y l IH]; intros [|i]; simpl; auto. rewrite IH. auto. Qed.
  Lemma sm_map_set {V} (h : V -> V) m k v : sm_map h (sm_set m k v) = sm_set (sm_map h m) k (h v).
  Proof.
    unfold sm_set. rewrite sm_mem_map. destruct (sm_mem m k); auto. unfold sm_map. cbn [sm_slots sm_free]. rewrite map_set_nth. auto.
  Qed.
  Lemma slots_mapS_comm {V S_} (h : V -> V) (F : S_ -> key -> V -> res (S_ * V)) :
    (forall s k v, F s k (h v) = rmap (fun p => (fst p, h (snd p))) (F s k v)) ->
    forall i l s, slots_mapS F i (map (fun sl => Slot (s_ver sl) (option_map h (s_val sl))) l) s
      = rmap (fun p => (fst p, map (fun sl => Slot (s_ver sl) (option_map h (s_val sl))) (snd p))) (slots_mapS F i l s).
  Proof.
    intros Hf i l. revert i. induction l as [|sl l IH]; intros i s; simpl; auto. destruct sl as [ver [v|]]; cbn [s_val s_ver option_map].
    - rewrite Hf, bind_rmap. cbn [fst snd]. rewrite rmap_bind. apply bind_ext. intros [s1 v1]. cbn [fst snd]. rewrite IH, bind_rmap, rmap_bind.
      apply bind_ext. intros [s2 l2]. reflexivity.
    - rewrite IH, bind_rmap, rmap_bind. apply bind_ext. intros [s2 l2]. reflexivity.
  Qed.
  Lemma sm_mapS_comm {V S_} (h : V -> V) (F : S_ -> key -> V -> res (S_ * V)) m s :
    (forall s k v, F s k (h v) = rmap (fun p => (fst p, h (snd p))) (F s k v)) ->
    sm_mapS F (sm_map h m) s = rmap (fun p => (fst p, sm_map h (snd p))) (sm_mapS F m s).
  Proof.
    intros H. unfold sm_mapS. cbn [sm_map sm_slots sm_free]. rewrite slots_mapS_comm by auto. rewrite bind_rmap, rmap_bind.
    apply bind_ext. intros [s1 l]. reflexivity.
  Qed.

  Lemma forget_eq s : forget_acc f s = with_vehicles s (sm_map g (s_vehicles s)).
  Proof. reflexivity. Qed.
  Lemma get_vehicle_map vs k : get_vehicle (sm_map g vs) k = rmap g (get_vehicle vs k).
  Proof. unfold get_vehicle. rewrite sm_get_map. destruct (sm_get vs k); auto. Qed.

  Lemma choose_one_comm links acc k v : choose_one links acc k (g v) = rmap (fun p => (fst p, g (snd p))) (choose_one links acc k v).
  Proof.
    unfold choose_one. change (choose_path links (g v)) with (choose_path links v). rewrite rmap_bind. apply bind_ext. intros [p|]; [|reflexivity].
    change (v_link (g v)) with (v_link v). change (v_id (g v)) with (v_id v). rewrite rmap_bind. apply bind_ext. intros cur.
    rewrite rmap_bind. apply bind_ext. intros nw. destruct (negb (key_eqb cur nw)); reflexivity.
  Qed.
  Lemma insert_idx_map vs pos ids : insert_idx (sm_map g vs) pos ids = insert_idx vs pos ids.
  Proof.
    induction ids as [|k ids IH]; simpl; auto. rewrite get_vehicle_map, bind_rmap. apply bind_ext. intros v.
    change (v_pos (g v)) with (v_pos v). rewrite IH. auto.
  Qed.
  Lemma insert_vehicle_map vs k l : insert_vehicle (sm_map g vs) k l = insert_vehicle vs k l.
  Proof.
    unfold insert_vehicle. rewrite get_vehicle_map, bind_rmap. apply bind_ext. intros v. change (v_pos (g v)) with (v_pos v).
    rewrite insert_idx_map. auto.
  Qed.
  Lemma do_lane_change_comm e s k lid d : do_lane_change e (forget_acc f s) k lid d = rmap (forget_acc f) (do_lane_change e s k lid d).
  Proof.
    rewrite forget_eq. unfold do_lane_change. cbn [with_vehicles s_vehicles s_links]. rewrite get_vehicle_map, bind_rmap, rmap_bind.
    apply bind_ext. intros v. change (v_link (g v)) with (v_link v). change (v_world_pos (g v)) with (v_world_pos v). change (v_world_dir (g v)) with (v_world_dir v).
    rewrite rmap_bind. apply bind_ext. intros links. rewrite rmap_bind. apply bind_ext. intros l. rewrite rmap_bind. apply bind_ext. intros o.
    rewrite rmap_bind. apply bind_ext. intros [[pos off] slope]. unfold set_location. change (v_pathfind (g v)) with (v_pathfind v).
    destruct (set_origin e links (v_pathfind v) lid) as [pf| |]; try reflexivity. cbn [bind].
    match goal with |- context [sm_set (sm_map g (s_vehicles s)) k ?x] => match goal with |- context [sm_set (s_vehicles s) k ?y] =>
      change (sm_set (sm_map g (s_vehicles s)) k x) with (sm_set (sm_map g (s_vehicles s)) k (g y)) end end.
    rewrite <- sm_map_set.
    unfold upd_link. destruct (get_link links lid) as [l0| |]; try reflexivity. cbn [bind]. rewrite insert_vehicle_map.
    destruct (insert_vehicle _ k l0); reflexivity.
  Qed.
  Lemma exec_change_comm e s vp : exec_change e (forget_acc f s) vp = rmap (forget_acc f) (exec_change e s vp).
  Proof.
    unfold exec_change. rewrite rmap_bind. apply bind_ext. intros lid. rewrite do_lane_change_comm, bind_rmap, rmap_bind.
    apply bind_ext. intros s1. rewrite forget_eq. cbn [with_vehicles s_vehicles]. rewrite get_vehicle_map, bind_rmap, rmap_bind.
    apply bind_ext. intros v. cbn [rmap bind]. rewrite forget_eq. cbn [with_vehicles s_vehicles]. rewrite sm_map_set. reflexivity.
  Qed.
  Lemma foldM_comm {X S_} (h : S_ -> S_) (F : S_ -> X -> res S_) : (forall s x, F (h s) x = rmap h (F s x)) ->
    forall l s, foldM F l (h s) = rmap h (foldM F l s).
  Proof.
    intros H l. induction l as [|x l IH]; intros s; simpl; auto. rewrite H, bind_rmap, rmap_bind. apply bind_ext. auto.
  Qed.
  Lemma lane_changes_comm e s : calculate_lane_changes e (forget_acc f s) = rmap (forget_acc f) (calculate_lane_changes e s).
  Proof.
    rewrite forget_eq. unfold calculate_lane_changes. cbn [with_vehicles s_lc_update]. destruct (nltb _ _); auto.
    cbn [with_lc_update with_vehicles s_vehicles s_links]. rewrite (sm_mapS_comm g) by (intros; apply choose_one_comm). rewrite bind_rmap, rmap_bind.
    apply bind_ext. intros [acc vs]. cbn [fst snd].
    rewrite <- (foldM_comm (forget_acc f)) by (intros; apply exec_change_comm). reflexivity.
  Qed.

  Lemma slots_mapS_map {V S_} (F : S_ -> key -> V -> res (S_ * V)) (h : V -> V) : (forall s k v, F s k (h v) = F s k v) ->
    forall i l s, slots_mapS F i (map (fun sl => Slot (s_ver sl) (option_map h (s_val sl))) l) s = slots_mapS F i l s.
  Proof.
    intros Hf i l. revert i. induction l as [|sl l IH]; intros i s; simpl; auto. destruct sl as [ver [v|]]; simpl.
    - rewrite Hf. apply bind_ext. intros p. rewrite IH. auto.
    - rewrite IH. auto.
  Qed.
  Lemma apply_acc_fresh e s : nltb (s_acc_update s) ACCELERATION_UPDATE_SEC = false ->
    sim_apply_accelerations e (forget_acc f s) = sim_apply_accelerations e s.
  Proof.
    intros H. unfold sim_apply_accelerations. cbn [forget_acc with_vehicles s_acc_update]. rewrite H.
    assert (activate_all (with_acc_update (forget_acc f s) n0) = activate_all (with_acc_update s n0)) as E.
    { unfold activate_all. cbn [with_acc_update forget_acc with_vehicles s_links s_vehicles]. unfold sm_mapS, sm_map. cbn [sm_slots sm_free].
      rewrite slots_mapS_map; auto. }
    rewrite E. reflexivity.
  Qed.
  Lemma lc_timer e s s' : calculate_lane_changes e s = Ok s' -> s_acc_update s' = s_acc_update s.
  Proof.
    intros H. apply lc_fields in H. intuition.
  Qed.
  Lemma step_fresh e s dt : nltb (s_acc_update s) ACCELERATION_UPDATE_SEC = false -> step e (forget_acc f s) dt = step e s dt.
  Proof.
    intros H. unfold step. rewrite lane_changes_comm, bind_rmap. destruct (calculate_lane_changes e s) as [s1| |] eqn:E; auto. cbn [bind].
    rewrite apply_acc_fresh; auto. rewrite (lc_timer _ _ _ E). auto.
  Qed.
End AccFresh.
