(** * C67: the tables that project one lane to another *)
From Coq Require Import List Bool ZArith NArith Arith Lia Reals Lra.
From Verif Require Import Arith RealArith Base BaseProofs SlotMap SlotMapProofs Util Geom Light Accel Net Path Vehicle LinkOps Sim SpecSim SpecMotion Safe NetInv SimInv AccSafe SimSafe StepSafe OpSafe Evo StepEvo SimProofs StepProofs NetEvo RFacts LineProofs SpecRoute P_Lane RaExample P_Coord P_Curve SpecTable.
Import ListNotations.

Section Made.
  Context {A : Arith}.
  Definition made (links : linkset) (p : projection) : Prop :=
    exists fuel la lb, sm_get links (pj_src p) = Some la /\ sm_get links (pj_dst p) = Some lb /\ mk_projection fuel la lb = Ok p.
  Lemma made_exec e s o s' p : Inv s -> exec e s o = Ok s' -> made (s_links s) p -> made (s_links s') p.
  Proof.
    intros I H (fuel & la & lb & Ga & Gb & Hm).
    assert (forall k l, sm_get (s_links s) k = Some l -> exists l', sm_get (s_links s') k = Some l' /\ geo l' = geo l) as K.
    { intros k l G. assert (sm_mem (s_links s') k = true) as M by (eapply links_stay; eauto; apply sm_mem_get; eauto). apply sm_mem_get in M. destruct M as (l' & G'). exists l'. split; [exact G'|].
      destruct (exec_built _ _ _ _ _ _ I H G') as [(l0 & G0 & E & _)|(c & lim & -> & -> & _)]; [congruence|]. rewrite (next_key_fresh _ (nk_wf _ (st_net _ _ _ (i_st _ I)))) in G. discriminate G. }
    destruct (K _ _ Ga) as (la' & Ga' & Ea). destruct (K _ _ Gb) as (lb' & Gb' & Eb). exists fuel, la', lb'. split; [exact Ga'|]. split; [exact Gb'|].
    unfold geo in Ea, Eb. injection Ea as A1 A2 _ _. injection Eb as B1 B2 _ _. unfold mk_projection in *. rewrite A1, A2, B1, B2. exact Hm.
  Qed.
  Definition all_made (s : sim) : Prop := forall k l g p, sm_get (s_links s) k = Some l -> lk_group l = Some g -> In p (g_projs g) -> made (s_links s) p.
  Lemma all_made_exec e s o s' : Inv s -> exec e s o = Ok s' -> all_made s -> all_made s'.
  Proof.
    intros I H P k l' g p G Eg Hp.
    assert (forall l, sm_get (s_links s) k = Some l -> lk_group l' = lk_group l -> made (s_links s') p) as K.
    { intros l G0 E. eapply made_exec; eauto. eapply P; eauto. congruence. }
    assert ((exists l, sm_get (s_links s) k = Some l /\ keepers l' = keepers l) \/ sm_get (s_links s) k = None /\ keepers l' = (None, [], []) -> made (s_links s') p) as K'.
    { intros [(l & G0 & E)|(_ & E)]; unfold keepers in E; injection E as E1 _ _; [eauto|congruence]. }
    pose proof (exec_keepers _ _ _ _ _ _ I H G) as X. destruct o; try (apply K'; exact X).
    - clear K' X. pose proof H as H'. cbn [exec] in H. unfold add_link_group in H. bok H ls Hls. bok H g1 Hg. bok H links1 H1. bok H lcs Hc. bok H links2 H2. injection H as <-. cbn [s_links with_links] in *.
      destruct (fold_changes _ _ _ _ _ H2 G) as (l1 & G1 & E1 & _). destruct (fold_groups _ _ _ _ _ _ H1 G1) as (l & G0 & E). destruct (existsb (key_eqb k) ids); [|apply (K l G0); congruence].
      subst l1. cbn [set_group lk_group] in E1. assert (g1 = g) by congruence. subst g1. apply (made_exec _ _ _ _ _ I H').
      unfold group_new in Hg. destruct (Nat.ltb (length ls) 2); [discriminate Hg|]. bok Hg ps Hpr. injection Hg as <-. cbn [g_projs] in Hp.
      apply mapM_ok in Hpr. apply mapM_ok in Hls. apply In_nth_error in Hp. destruct Hp as (n & Hn).
      destruct (nth_error (proj_pairs ls) n) as [(la & lb)|] eqn:En.
      2:{ apply nth_error_None in En. rewrite (Forall2_len _ _ _ Hpr) in En. assert (n < length ps) by (apply nth_error_Some; congruence). lia. }
      pose proof (Forall2_nth _ _ _ _ _ _ Hpr En Hn) as Hm. cbn [fst snd] in Hm.
      assert (forall l, In l ls -> sm_get (s_links s) (lk_id l) = Some l) as Ls.
      { intros x Hx. apply In_nth_error in Hx. destruct Hx as (m & Hm'). destruct (nth_error ids m) as [i|] eqn:Ei.
        2:{ apply nth_error_None in Ei. rewrite (Forall2_len _ _ _ Hls) in Ei. assert (m < length ls) by (apply nth_error_Some; congruence). lia. }
        pose proof (Forall2_nth _ _ _ _ _ _ Hls Ei Hm') as Hg. cbn in Hg. unfold get_link in Hg. apply of_option_ok in Hg. rewrite (lo_id _ _ _ (nk_link _ (st_net _ _ _ (i_st _ I)) _ _ Hg)). exact Hg. }
      assert (In la ls /\ In lb ls) as (Ia & Ib). { apply nth_error_In in En. unfold proj_pairs in En. apply filter_In in En. destruct En as (En & _). apply in_prod_iff in En. exact En. }
      exists (e_fuel e), la, lb. pose proof Hm as Hm'. unfold mk_projection in Hm'. bok Hm' smp Hs. injection Hm' as <-. cbn [pj_src pj_dst]. split; [apply Ls; auto|]. split; [apply Ls; auto|]. exact Hm.
    - clear K' X. pose proof H as H'. cbn [exec] in H. unfold add_link_convergance in H. destruct (key_eqb a b); [injection H as <-; apply (K l'); auto|].
      destruct (sm_get _ a); [|injection H as <-; apply (K l'); auto]. destruct (sm_get _ b); [|injection H as <-; apply (K l'); auto].
      bok H x Hx. destruct x; [|injection H as <-; apply (K l'); auto]. bok H y Hy. injection H as <-. cbn [s_links] in G.
      destruct (fold_keeps (fun l => (lk_group l, lk_changes l)) fst (fun kc l => Ok (add_conflict l (snd kc))) _ _ _ _ _ Hy ltac:(intros ? ? ? E; injection E as <-; reflexivity) G) as (lz & G0 & E).
      injection E as E1 E2. apply (K lz); auto.
  Qed.
  Lemma reachable_made s : reachable s -> all_made s.
  Proof.
    intros Rc. destruct (reachable_history _ Rc) as (ops & H). assert (all_made sim_new) as P0. { intros k l g p G. simpl in G. rewrite sm_get_empty in G. discriminate G. }
    clear Rc. generalize Inv_new P0. generalize (@sim_new A) H. clear P0 H. intros s0 H. induction H as [s|e s o s1 ops s' H1 Hh IH]; intros I P; [exact P|]. apply IH; [eapply exec_Inv; eauto|]. eapply all_made_exec; eauto.
  Qed.

  Lemma samples_good fuel src dst : forall i start t, proj_samples fuel (lk_curve src) (lk_curve dst) i start = Ok t ->
    (forall j e, nth_error t j = Some e -> nltb (mark (i + j)) (lk_length src) = true /\
       found_from dst (centre_at src (mark (i + j))) (match j with O => start | S j' => match nth_error t j' with Some e' => ps_pos e' | None => n0 end end) = Ok (Some (ps_pos e)) /\
       ps_lat e = left_of dst (ps_pos e) (centre_at src (mark (i + j)))) /\
    (nltb (mark (i + length t)) (lk_length src) = false \/
     found_from dst (centre_at src (mark (i + length t))) (match length t with O => start | S j => match nth_error t j with Some e' => ps_pos e' | None => n0 end end) = Ok None).
  Proof.
    induction fuel as [|fuel IH]; intros i start t H; [discriminate H|]. cbn [proj_samples] in H.
    change (nltb (nmul segment_len (nofZ (Z.of_nat i))) (lc_length (lk_curve src))) with (nltb (mark i) (lk_length src)) in H.
    destruct (nltb (mark i) (lk_length src)) eqn:E.
    2:{ injection H as <-. split; [intros [|j] x Hx; discriminate Hx|]. left. cbn [length]. rewrite Nat.add_0_r. exact E. }
    change (project_point_onto_curve (lc_curve (lk_curve dst)) (sm_pos (sample_centre (lk_curve src) (nmul segment_len (nofZ (Z.of_nat i))))) (lit 1 10) (Some start)) with (found_from dst (centre_at src (mark i)) start) in H.
    destruct (found_from dst (centre_at src (mark i)) start) as [[p|]| |] eqn:F; cbn [bind] in H; [| |discriminate H|discriminate H].
    2:{ injection H as <-. split; [intros [|j] x Hx; discriminate Hx|]. right. cbn [length]. rewrite Nat.add_0_r. exact F. }
    bok H rest Hr. injection H as <-. destruct (IH (S i) p rest Hr) as (K1 & K2). split.
    - intros [|j] x Hx; cbn [nth_error] in Hx.
      + injection Hx as <-. rewrite Nat.add_0_r. cbn [ps_pos ps_lat]. auto.
      + destruct (K1 j x Hx) as (Q1 & Q2 & Q3). rewrite <- Nat.add_succ_comm. split; [exact Q1|]. split; [|exact Q3]. destruct j as [|j]; [exact Q2|]. exact Q2.
    - cbn [length]. rewrite <- Nat.add_succ_comm. destruct K2 as [K2|K2]; [left; exact K2|right]. destruct rest as [|y rest]; [exact K2|]. exact K2.
  Qed.

  (** Every table of a group is a good one for the two lanes as they are. *)
  Theorem C67_table :
    forall s k l g p, reachable s -> link_at s k = Some l -> lk_group l = Some g -> In p (g_projs g) ->
      exists src dst, link_at s (pj_src p) = Some src /\ link_at s (pj_dst p) = Some dst /\ good_table src dst (pj_samples p).
  Proof.
    intros s k l g p Rc G Eg Hp. destruct (reachable_made s Rc k l g p G Eg Hp) as (fuel & la & lb & Ga & Gb & Hm). exists la, lb. split; [exact Ga|]. split; [exact Gb|].
    unfold mk_projection in Hm. bok Hm t Ht. injection Hm as <-. cbn [pj_samples]. destruct (samples_good _ _ _ _ _ _ Ht) as (K1 & K2). split.
    - intros i x Hx. destruct (K1 i x Hx) as (Q1 & Q2 & Q3). cbn [Nat.add] in *. auto.
    - cbn [Nat.add] in K2. exact K2.
  Qed.
End Made.
Print Assumptions C67_table.

(** ** Straight, parallel lanes in exact arithmetic *)
Local Open Scope R_scope.
Lemma straight_sample (lc : @link_curve RA) a u pos : unit u -> straight lc a u -> sample_centre lc pos = LSample (on_line a u pos) u.
Proof.
  intros U Sc. unfold sample_centre. specialize (Sc pos). destruct (lc_seg lc pos) as (sg & t). cbn [fst snd] in Sc. destruct Sc as (-> & -> & _). f_equal.
  assert (@magnitude RA u = 1) as Mu by (apply (magnitude_along u u 1); [exact U|lra|lra|lra]). unfold normalize, normalize_to, n1. rewrite Mu. apply pt_ext; cbn [vmul px py]; unR; field.
Qed.
Lemma straight_found (dst : @link RA) b u point start : unit u -> straight (lk_curve dst) b u -> found_from dst point start = Ok (Some (@dot RA (vsub point b) u)).
Proof.
  intros U Sc. unfold found_from, project_point_onto_curve. cbn [bind].
  assert (forall t : R, c_sample (lc_curve (lk_curve dst)) t = on_line b u t) as S1 by (intros t; cbn [lc_curve c_sample]; specialize (Sc t); destruct (lc_seg (lk_curve dst) t); apply Sc).
  assert (forall t : R, c_dt (lc_curve (lk_curve dst)) t = u) as S2 by (intros t; cbn [lc_curve c_dt]; specialize (Sc t); destruct (lc_seg (lk_curve dst) t); apply Sc).
  rewrite (newton_straight _ b u) by (auto; unfold lit; unR; lra). reflexivity.
Qed.
(** How far the lane that begins at [a] begins after the one that begins at [b], along [u], and how far it is to the left of it. *)
Definition shift (a b u : @pt RA) : R := (px a - px b) * px u + (py a - py b) * py u.
Definition beside (a b u : @pt RA) : R := (px a - px b) * - py u + (py a - py b) * px u.

Lemma mark_R i : (@mark RA i : R) = 2 * INR i.
Proof. unfold mark, n2. unR. rewrite <- INR_IZR_INZ. reflexivity. Qed.
Theorem C67_parallel :
  forall (s : @sim RA) k l g p src dst a b u, reachable s -> link_at s k = Some l -> lk_group l = Some g -> In p (g_projs g) ->
    link_at s (pj_src p) = Some src -> link_at s (pj_dst p) = Some dst -> unit u -> straight (lk_curve src) a u -> straight (lk_curve dst) b u ->
    forall i, nth_error (pj_samples p) i = if Rlt_dec (2 * INR i) (lk_length src) then Some (@PSample RA (2 * INR i + shift a b u) (beside a b u)) else None.
Proof.
  intros s k l g p src dst a b u Rc G Eg Hp Gs Gd U Sa Sb.
  destruct (C67_table s k l g p Rc G Eg Hp) as (src' & dst' & Gs' & Gd' & T1 & T2). assert (src' = src) by congruence. assert (dst' = dst) by congruence. subst src' dst'.
  assert (forall i start, found_from dst (centre_at src (mark i)) start = Ok (Some (2 * INR i + shift a b u)%R)) as F.
  { intros i start. rewrite (straight_found dst b u) by auto. do 2 f_equal. unfold centre_at. rewrite (straight_sample _ a u) by auto. unfold dot, on_line, shift. cbn [sm_pos vsub px py]. rewrite mark_R. unR. unfold unit in U.
    transitivity (2 * INR i * (px u * px u + py u * py u) + ((px a - px b) * px u + (py a - py b) * py u)); [ring|]. rewrite U. ring. }
  assert (forall i e, nth_error (pj_samples p) i = Some e -> e = @PSample RA (2 * INR i + shift a b u) (beside a b u)) as Es.
  { intros i e He. destruct (T1 i e He) as (_ & Q2 & Q3). rewrite F in Q2. injection Q2 as Q2. destruct e as [ep el]. cbn [ps_pos ps_lat] in *. f_equal; [congruence|].
    rewrite Q3, <- Q2. unfold left_of, centre_at. rewrite (straight_sample (lk_curve dst) b u) by auto. rewrite (straight_sample (lk_curve src) a u) by auto. unfold on_line, beside. cbn [sm_pos sm_tan vsub px py]. unR. ring. }
  assert (forall i, (i < length (pj_samples p))%nat -> 2 * INR i < lk_length src) as In1.
  { intros i Hi. destruct (nth_error (pj_samples p) i) as [e|] eqn:E; [|apply nth_error_None in E; lia]. destruct (T1 i e E) as (Q1 & _). apply ltb_R in Q1. rewrite mark_R in Q1. exact Q1. }
  assert (lk_length src <= 2 * INR (length (pj_samples p))) as End.
  { destruct T2 as [T2|T2]; [|rewrite F in T2; discriminate T2]. apply ltb_R_false in T2. rewrite mark_R in T2. exact T2. }
  intros i. destruct (Rlt_dec (2 * INR i) (lk_length src)) as [L|L].
  - destruct (nth_error (pj_samples p) i) as [e|] eqn:E; [f_equal; exact (Es i e E)|]. apply nth_error_None in E. apply le_INR in E. lra.
  - apply nth_error_None. destruct (le_lt_dec (length (pj_samples p)) i) as [|Lt]; [assumption|]. specialize (In1 i Lt). lra.
Qed.
Print Assumptions C67_parallel.

(** A vehicle on the one lane appears on the other at most 2 m behind its rear, exactly if it reaches back over the beginning of the lane, and
    sideways exactly where it is. *)
Theorem C67_obstacle :
  forall (s : @sim RA) k l g p src dst a b u (w : @vehicle RA) (o : @obstacle RA), reachable s -> link_at s k = Some l -> lk_group l = Some g -> In p (g_projs g) ->
    link_at s (pj_src p) = Some src -> link_at s (pj_dst p) = Some dst -> unit u -> straight (lk_curve src) a u -> straight (lk_curve dst) b u ->
    (0 < lk_length src)%R -> (lk_length src <= IZR usize_max)%R -> ((pos_rear w : R) < (lk_length src : R))%R -> v_project w p = Ok o ->
    (if Rlt_dec (pos_rear w) 0 then o_pos o = ((pos_rear w : R) + shift a b u)%R else ((pos_rear w : R) + shift a b u - 2 < o_pos o <= (pos_rear w : R) + shift a b u)%R) /\
    i_min (o_lat o) = ((i_min (v_rear_lats w) : R) + beside a b u)%R /\ i_max (o_lat o) = ((i_max (v_rear_lats w) : R) + beside a b u)%R /\
    o_rear o = v_rear_coords w /\ o_vel o = v_vel w.
Proof.
  intros s k l g p src dst a b u w o Rc G Eg Hp Gs Gd U Sa Sb L0 L1 Lw H.
  pose proof (C67_parallel s k l g p src dst a b u Rc G Eg Hp Gs Gd U Sa Sb) as T.
  assert (pj_inv p = (1 / 2)%R) as Ei. { destruct (reachable_made s Rc k l g p G Eg Hp) as (fuel & la & lb & _ & _ & Hm). unfold mk_projection in Hm. bok Hm t Ht. injection Hm as <-. cbn [pj_inv]. unfold n1, segment_len, n2. unR. reflexivity. }
  unfold v_project, proj_project in H. bok H e He. injection H as <-. cbn [o_pos o_lat o_rear o_vel i_add i_min i_max].
  assert (@nsub RA (v_pos w) (v_half_len w) = pos_rear w) as Er by reflexivity. rewrite Er in *. set (x := (pos_rear w : R)) in *.
  assert (exists i, e = @PSample RA (2 * INR i + shift a b u) (beside a b u) /\ (if Rlt_dec x 0 then i = O else 2 * INR i <= x < 2 * INR i + 2)) as (i & -> & Hi).
  { unfold proj_sample in He. destruct (length (pj_samples p)) as [|n] eqn:En; [discriminate He|]. rewrite Ei in He. assert (@nmul RA x (1 / 2)%R = x / 2) as Ex by (unR; lra). rewrite Ex in He. apply of_option_ok in He. set (m := Nat.min _ n) in He. rewrite T in He. destruct (Rlt_dec (2 * INR m) (lk_length src)) as [Lm|]; [|discriminate He].
    injection He as <-. exists m. split; [reflexivity|].
    destruct (Rlt_dec x 0) as [N|N].
    - unfold m. change (@ncast RA usize_max (x / 2)) with (Z.max 0 (Z.min usize_max (Raux.Ztrunc (x / 2)))). assert (Raux.Ztrunc (x / 2) <= 0)%Z. { rewrite Raux.Ztrunc_ceil by lra. apply Raux.Zceil_glb. lra. } assert (Z.max 0 (Z.min usize_max (Raux.Ztrunc (x / 2))) = 0)%Z as -> by lia. reflexivity.
    - assert (Raux.Ztrunc (x / 2) = Raux.Zfloor (x / 2)) as Et by (apply Raux.Ztrunc_floor; lra). pose proof (Raux.Zfloor_lb (x / 2)) as F1. pose proof (Raux.Zfloor_ub (x / 2)) as F2. set (z := Raux.Zfloor (x / 2)) in *.
      assert (0 <= z)%Z as Z0 by (apply Raux.Zfloor_lub; lra). assert (z <= usize_max)%Z as Z1 by (apply le_IZR; lra).
      assert (m = Nat.min (Z.to_nat z) n) as Em. { unfold m. change (@ncast RA usize_max (x / 2)) with (Z.max 0 (Z.min usize_max (Raux.Ztrunc (x / 2)))). rewrite Et. f_equal. f_equal. lia. }
      assert (INR (Z.to_nat z) = IZR z) as Ez by (rewrite INR_IZR_INZ, Z2Nat.id by lia; reflexivity).
      assert (Z.to_nat z < S n)%nat as Lz. { rewrite <- En. apply nth_error_Some. rewrite T. destruct (Rlt_dec (2 * INR (Z.to_nat z)) (lk_length src)) as [|Q]; [discriminate|]. exfalso. apply Q. rewrite Ez. lra. }
      rewrite Em, Nat.min_l by lia. rewrite Ez. lra. }
  cbn [ps_pos ps_lat]. rewrite min_R. unfold n0. unR. split; [|auto]. destruct (Rlt_dec x 0) as [N|N].
  - subst i. rewrite Rmin_left by lra. cbn [INR]. lra.
  - rewrite Rmin_right by lra. lra.
Qed.
Print Assumptions C67_obstacle.

(** ** A concrete case *)
Lemma samples_end (src dst : @link_curve RA) b u : unit u -> straight dst b u -> forall fuel i start, lc_length src <= 2 * INR (i + fuel) -> exists t, proj_samples (S fuel) src dst i start = Ok t.
Proof.
  intros U Sc. assert (forall point start, project_point_onto_curve (lc_curve dst) point (lit 1 10) (Some start) = Ok (Some (@dot RA (vsub point b) u))) as F.
  { intros point start. exact (straight_found (@Link RA null_key None dst [] [] [] [] 0 n0 0%Z [] COpen false) b u point start U Sc). }
  induction fuel as [|fuel IH]; intros i start L.
  - cbn [proj_samples]. rewrite Nat.add_0_r in L. match goal with |- context [@nltb ?A ?x ?y] => replace (@nltb A x y) with false end; [eauto|]. symmetry. apply ltb_R_false. change (lc_length src <= @mark RA i). rewrite mark_R. exact L.
  - remember (S fuel) as n eqn:En. cbn [proj_samples]. destruct (nltb _ _); [|eauto]. rewrite F. cbn [bind]. subst n. destruct (IH (S i) (@dot RA (vsub (sm_pos (sample_centre src (@nmul RA segment_len (nofZ (Z.of_nat i))))) b) u)) as (t & ->); [rewrite Nat.add_succ_comm; exact L|]. cbn [bind]. eauto.
Qed.
Definition group_ops : list (@op RA) := [OAddLink ring_line 10; OAddLink left_line 10; OAddGroup [ring_id; left_id] 0; OAddVehicle ra_car ring_id].
Example C67_example :
  exists (s : @sim RA) l l2 g p w o a b u, history sim_new group_ops s /\ link_at s ring_id = Some l /\ lk_group l = Some g /\ In p (g_projs g) /\ link_at s (pj_src p) = Some l /\ link_at s (pj_dst p) = Some l2 /\
    unit u /\ straight (lk_curve l) a u /\ straight (lk_curve l2) b u /\ 0 < lk_length l /\ (lk_length l <= IZR usize_max)%R /\ vehicle_at s ring_id = Some w /\ v_link w = Some ring_id /\ (pos_rear w < 0)%R /\ v_project w p = Ok o /\ beside a b u = -3.
Proof.
  assert (unit (@Pt RA 1 0)) as U by (unfold unit; cbn; lra).
  assert (21 < INR 200) as F by (rewrite INR_IZR_INZ; cbn -[IZR]; apply IZR_lt; reflexivity).
  destruct (line_curve (@Pt RA 0 0) (@Pt RA 1 0) 10 U 200) as (lc & Hlc & H1 & H2 & H3 & H4); [lra|lra|].
  destruct (line_curve (@Pt RA 0 3) (@Pt RA 1 0) 10 U 200) as (ld & Hld & J1 & J2 & J3 & J4); [lra|lra|].
  assert (10 <= 2 * INR (0 + 199)) as F1 by (rewrite INR_IZR_INZ; cbn -[IZR]; lra).
  destruct (samples_end lc ld _ _ U J4 199 0 (@n0 RA)) as (t1 & T1); [lra|]. destruct (samples_end ld lc _ _ U H4 199 0 (@n0 RA)) as (t2 & T2); [lra|].
  assert (exists s l l2 g p w, run ra_env (@sim_new RA) group_ops = Ok s /\ link_at s ring_id = Some l /\ lk_group l = Some g /\ In p (g_projs g) /\ link_at s (pj_src p) = Some l /\ link_at s (pj_dst p) = Some l2 /\ lk_curve l = lc /\ lk_curve l2 = ld /\
    vehicle_at s ring_id = Some w /\ v_link w = Some ring_id /\ v_pos w = 0 /\ v_half_len w = @nmul RA nhalf 4) as (s & l & l2 & g & p & w & H & Gl & Eg & Hp & Gs & Gd & E1 & E2 & Gw & Lw & Pw & Hw).
  { cbn [run group_ops exec]. unfold add_link. cbn [e_fuel ra_env]. unfold link_new at 1 2. unfold ring_line, left_line. rewrite Hlc, Hld. cbn [bind fst].
    unfold add_link_group, upd_link, get_link. cbn -[link_cost sample_centre add_vehicle proj_samples group_new].
    unfold group_new. cbn -[link_cost sample_centre add_vehicle proj_samples]. unfold mk_projection. cbn [lk_curve lk_id]. rewrite T1, T2. cbn -[link_cost sample_centre add_vehicle].
    unfold add_vehicle, set_location, set_origin, upd_link, get_link. cbn -[link_cost sample_centre update_coords insert_vehicle].
    unfold update_coords. cbn -[link_cost sample_centre vsub rot90 calc_direction vadd long_offset nmin nmax dot insert_vehicle].
    unfold insert_vehicle. cbn -[link_cost sample_centre vsub rot90 calc_direction vadd long_offset nmin nmax dot].
    eexists _, _, _, _, (@Proj RA ring_id left_id _ t1), _. split; [reflexivity|]. cbn -[link_cost sample_centre vsub rot90 calc_direction vadd long_offset nmin nmax dot].
    split; [reflexivity|]. split; [reflexivity|]. split; [left; reflexivity|]. repeat (split; [reflexivity|]). reflexivity. }
  pose proof (history_reachable _ _ _ (run_history _ _ _ _ H) (@reach_new RA)) as Rc.
  assert (lk_length l = lc_length lc) as Len by (unfold lk_length; rewrite E1; reflexivity).
  assert (straight (lk_curve l) (@Pt RA 0 0) (@Pt RA 1 0)) as S1 by (rewrite E1; exact H4). assert (straight (lk_curve l2) (@Pt RA 0 3) (@Pt RA 1 0)) as S2 by (rewrite E2; exact J4).
  pose proof (C67_parallel s ring_id l g p l l2 _ _ _ Rc Gl Eg Hp Gs Gd U S1 S2 0) as T. destruct (Rlt_dec _ _) as [_|N]; [|exfalso; apply N; rewrite Len; cbn [INR]; lra].
  destruct (C38_projection p (@nsub RA (v_pos w) (v_half_len w))) as (e & He & _); [intros E; rewrite E in T; discriminate T|].
  eexists s, l, l2, g, p, w, _, (@Pt RA 0 0), (@Pt RA 0 3), (@Pt RA 1 0). split; [eapply run_history; exact H|]. do 5 (split; [assumption|]). split; [exact U|]. split; [exact S1|]. split; [exact S2|]. split; [rewrite Len; lra|].
  split; [rewrite Len; apply Rle_trans with 10; [lra|]; apply IZR_le; unfold usize_max; lia|]. split; [exact Gw|]. split; [exact Lw|]. split; [unfold pos_rear; rewrite Pw, Hw, half_R; unR; lra|].
  split; [unfold v_project, proj_project; rewrite He; cbn [bind]; reflexivity|]. unfold beside. cbn [px py]. lra.
Qed.
