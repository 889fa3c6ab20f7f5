(** * Computations that end: with enough fuel the result is the same, and not [OutOfFuel] *)
From Coq Require Import List Bool ZArith NArith Arith Lia Reals Lra Psatz.
From Flocq Require Import Core.Raux.
From Verif Require Import Arith RealArith Base BaseProofs SlotMap SlotMapProofs Util Geom Light Accel Net Path Vehicle LinkOps Sim RFacts.
Import ListNotations.

Definition settles {X} (f : nat -> res X) : Prop := exists n r, r <> OutOfFuel /\ forall fuel, n <= fuel -> f fuel = r.
Definition fin {X} (r : res X) : Prop := r <> OutOfFuel.

Section Settles.
  Lemma settles_fin {X} (r : res X) : fin r -> settles (fun _ => r).
  Proof. intros H. exists 0, r. auto. Qed.
  Lemma settles_ok {X} (x : X) : settles (fun _ => Ok x).
  Proof. apply settles_fin. discriminate. Qed.
  Lemma settles_late {X} (f g : nat -> res X) n : (forall fuel, n <= fuel -> f fuel = g fuel) -> settles g -> settles f.
  Proof. intros H (m & r & Hr & Hg). exists (Nat.max n m), r. split; [exact Hr|]. intros fuel L. rewrite H by lia. apply Hg. lia. Qed.
  Lemma settles_bind {X Y} (f : nat -> res X) (g : nat -> X -> res Y) :
    settles f -> (forall x, settles (fun n => g n x)) -> settles (fun n => bind (f n) (g n)).
  Proof.
    intros (n & r & Hr & Hf) Hg. destruct r as [x|p|]; [|exists n, (Panic p); split; [discriminate|]; intros fuel L; rewrite Hf by exact L; reflexivity|contradiction].
    destruct (Hg x) as (m & r & Hr' & Hgx). exists (Nat.max n m), r. split; [exact Hr'|]. intros fuel L. rewrite Hf by lia. cbn [bind]. apply Hgx. lia.
  Qed.
  Lemma settles_bind_fin {X Y} (r : res X) (g : nat -> X -> res Y) :
    fin r -> (forall x, r = Ok x -> settles (fun n => g n x)) -> settles (fun n => bind r (g n)).
  Proof. intros F H. destruct r as [x|p|]; [exact (H x eq_refl)|exists 0, (Panic p); split; [discriminate|reflexivity]|contradiction]. Qed.
  Lemma settles_foldM {S X} (f : nat -> S -> X -> res S) l : (forall s x, In x l -> settles (fun n => f n s x)) -> forall s, settles (fun n => foldM (f n) l s).
  Proof.
    induction l as [|x l IH]; intros H s; [apply settles_ok|]. cbn [foldM]. apply (settles_bind (fun n => f n s x) (fun n => foldM (f n) l)); [apply H; left; reflexivity|].
    intros s'. apply IH. intros s0 y Hy. apply H. right. exact Hy.
  Qed.
  Lemma settles_allM {X} (f : nat -> X -> res bool) l : (forall x, In x l -> settles (fun n => f n x)) -> settles (fun n => allM (f n) l).
  Proof.
    induction l as [|x l IH]; intros H; [apply settles_ok|]. cbn [allM]. apply (settles_bind (fun n => f n x) (fun n b => if b : bool then allM (f n) l else Ok false)); [apply H; left; reflexivity|].
    intros [|]; [|apply settles_ok]. apply IH. intros y Hy. apply H. right. exact Hy.
  Qed.
  Lemma fin_bind {X Y} (r : res X) (g : X -> res Y) : fin r -> (forall x, fin (g x)) -> fin (bind r g).
  Proof. intros F H. destruct r; [apply H|discriminate|contradiction]. Qed.
  Lemma fin_option {X} p (o : option X) : fin (of_option p o).
  Proof. destruct o; discriminate. Qed.
  Lemma fin_ok {X} (x : X) : fin (Ok x).
  Proof. discriminate. Qed.
  Lemma fin_panic {X} p : fin (@Panic X p).
  Proof. discriminate. Qed.
  Lemma fin_mapM {X Y} (f : X -> res Y) l : (forall x, fin (f x)) -> fin (mapM f l).
  Proof. intros H. induction l as [|x l IH]; [discriminate|]. cbn [mapM]. apply fin_bind; [apply H|]. intros y. apply fin_bind; [exact IH|]. intros ys. discriminate. Qed.
End Settles.
Ltac fins := repeat first [apply fin_ok|apply fin_panic|apply fin_option|apply fin_bind; [|intros ?]|apply fin_mapM; intros ?|match goal with |- fin (match ?x with _ => _ end) => destruct x end].

Section Fin.
  Context {A : Arith}.
  Lemma fin_get_link links k : fin (get_link links k).
  Proof. apply fin_option. Qed.
  Lemma fin_get_vehicle vs k : fin (get_vehicle vs k).
  Proof. apply fin_option. Qed.
  Lemma fin_skip_past vs p ids : fin (skip_past vs p ids).
  Proof. induction ids as [|id ids IH]; [discriminate|]. cbn [skip_past]. apply fin_bind; [apply fin_get_vehicle|]. intros v. destruct (nltb _ _); [exact IH|discriminate]. Qed.
  Lemma fin_gap_loop vs p t q route mv ids : fin (gap_loop vs p t q route mv ids).
  Proof.
    induction ids as [|id ids IH]; [discriminate|]. cbn [gap_loop]. apply fin_bind; [apply fin_get_vehicle|]. intros v. destruct (get_route v (fst route)) as [(l & st)|]; [|exact IH].
    destruct (negb _); [exact IH|]. destruct st, q; fins.
  Qed.
  Lemma fin_count_ahead vs p ids : fin (count_ahead vs p ids).
  Proof. induction ids as [|id ids IH]; [discriminate|]. cbn [count_ahead]. apply fin_bind; [apply fin_get_vehicle|]. intros v. destruct (nltb _ _); [discriminate|]. apply fin_bind; [exact IH|]. discriminate. Qed.
  Lemma fin_follow_on vs lim ids : forall log, fin (follow_on_link vs lim ids log).
  Proof.
    induction ids as [|id ids IH]; intros log; [discriminate|]. cbn [follow_on_link]. destruct ids as [|id2 ids]; [apply fin_bind; [apply fin_get_vehicle|discriminate]|].
    apply fin_bind; [apply fin_get_vehicle|]. intros f. apply fin_bind; [apply fin_get_vehicle|]. intros l. apply IH.
  Qed.
  Lemma fin_projections g k : fin (projections_from_link g k).
  Proof. unfold projections_from_link. fins. Qed.
  Lemma fin_project v p : fin (v_project v p).
  Proof. unfold v_project, proj_project, proj_sample. fins. Qed.
  Lemma fin_sort l : fin (sort_desc l).
  Proof. unfold sort_desc. destruct (_ && _); discriminate. Qed.
  Lemma fin_entering vs l log r : fin (entering_cb vs l log r).
  Proof. unfold entering_cb. destruct (hd_error _); [|discriminate]. apply fin_bind; [apply fin_get_vehicle|discriminate]. Qed.
  Lemma fin_activate v links : fin (activate_links v links).
  Proof.
    unfold activate_links. generalize (firstn (v_entered v) (v_route v)). intros l. revert links. induction l as [|k l IH]; intros links; [discriminate|]. cbn [foldM].
    apply fin_bind; [apply fin_bind; [apply fin_get_link|discriminate]|exact IH].
  Qed.
  Lemma fin_slots {V S_} (f : S_ -> key -> V -> res (S_ * V)) l : (forall s k v, fin (f s k v)) -> forall i s, fin (slots_mapS f i l s).
  Proof.
    intros H. induction l as [|sl l IH]; intros i s; [discriminate|]. cbn [slots_mapS]. destruct (s_val sl).
    - apply fin_bind; [apply H|]. intros (s1 & v1). apply fin_bind; [apply IH|]. intros (s2 & l2). discriminate.
    - apply fin_bind; [apply IH|]. intros (s2 & l2). discriminate.
  Qed.
  Lemma fin_mapS {V S_} (f : S_ -> key -> V -> res (S_ * V)) m s : (forall s k v, fin (f s k v)) -> fin (sm_mapS f m s).
  Proof. intros H. unfold sm_mapS. apply fin_bind; [apply fin_slots; exact H|]. intros (s1 & l1). discriminate. Qed.
  Lemma fin_activate_all s : fin (activate_all s).
  Proof.
    unfold activate_all. apply fin_bind; [|discriminate]. apply fin_mapS. intros ls k v. apply fin_bind; [apply fin_activate|discriminate].
  Qed.

  Section Scan.
    Context {S_ : Type}.
    Variable func : nat -> S_ -> relveh -> res (S_ * bool).
    Hypothesis Hf : forall s r, settles (fun n => func n s r).
    Lemma settles_scan vs len route pos mp ids : forall s, settles (fun n => scan (func n) vs len route pos mp ids s).
    Proof.
      induction ids as [|id ids IH]; intros s; [apply settles_ok|]. cbn [scan]. apply settles_bind_fin; [apply fin_get_vehicle|]. intros v _.
      destruct (nltb _ _); [apply settles_ok|]. destruct (get_route v (fst route)) as [(l & st)|]; [|apply IH]. destruct (negb _); [apply IH|].
      assert (settles (fun n => bind (func n s (RV id v (fst route) pos)) (fun sb => if snd sb then scan (func n) vs len route pos mp ids (fst sb) else Ok (fst sb, Stop)))) as K.
      { apply (settles_bind (fun n => func n s (RV id v (fst route) pos)) (fun n sb => if snd sb then scan (func n) vs len route pos mp ids (fst sb) else Ok (fst sb, Stop))); [apply Hf|].
        intros (s' & [|]); [apply IH|apply settles_ok]. }
      destruct st; try exact K; (destruct (nltb _ _); [apply settles_ok|exact K]).
    Qed.
  End Scan.
End Fin.

Local Open Scope R_scope.
Lemma nat_above (x : R) : exists m, INR m > x.
Proof.
  exists (Z.to_nat (Z.max 0 (up x))). rewrite INR_IZR_INZ, Z2Nat.id by lia. destruct (archimed x) as (U & _). apply Rlt_gt. apply Rlt_le_trans with (IZR (up x)); [lra|]. apply IZR_le. lia.
Qed.
Section Exact.
  Variables (links : @linkset RA) (delta V : R).
  Hypothesis Hdelta : 0 < delta.
  Hypothesis Hlinks : forall k l, sm_get links k = Some l -> delta <= lk_length l /\ 0 < lk_limit l <= V.
  Section Scans.
    Context {S_ : Type}.
    Variable func : nat -> S_ -> @relveh RA -> res (S_ * bool).
    Hypothesis Hf : forall s r, settles (fun n => func n s r).
    Lemma settles_process vs (m : nat) : forall k (l : @link RA) route (pos : R) skip s, lk_limit l <= V -> 5 * V <= pos + INR m * delta ->
      settles (fun n => @process_vehicles RA S_ (func n) (n - k) links vs l route pos skip s).
    Proof.
      induction m as [|m IH]; intros k l route pos skip s Hl Hp.
      - eapply settles_late with (n := S k); [intros fuel L; replace (fuel - k)%nat with (S (fuel - S k)) by lia; cbn [process_vehicles]; reflexivity|].
        destruct (negb (lk_active l)); [apply settles_ok|].
        eapply settles_bind.
        { apply settles_scan. exact Hf. }
        intros (s' & [|]); [apply settles_ok|]. cbn [fst snd].
        match goal with |- context [@nleb ?A ?x ?y] => replace (@nleb A x y) with true; [apply settles_ok|] end. symmetry. apply leb_R. unfold MAX_LOOKAHEAD. change (0 <= pos - 5 * lk_limit l). cbn [INR] in Hp. lra.
      - eapply settles_late with (n := S k); [intros fuel L; replace (fuel - k)%nat with (S (fuel - S k)) by lia; cbn [process_vehicles]; reflexivity|].
        destruct (negb (lk_active l)); [apply settles_ok|].
        eapply settles_bind.
        { apply settles_scan. exact Hf. }
        intros (s' & [|]); [apply settles_ok|]. cbn [fst snd]. destruct (nleb _ _); [apply settles_ok|].
        eapply (settles_foldM (fun n s id => _)). intros s0 id _. cbv beta. apply settles_bind_fin; [apply fin_get_link|]. intros l' G. unfold get_link in G. apply of_option_ok in G. destruct (Hlinks _ _ G) as (L1 & L2).
        apply IH; [apply L2|]. rewrite S_INR in Hp. change (5 * V <= (pos + lk_length l') + INR m * delta). lra.
    Qed.
    (** The depth of the search: a bound on the fuel it needs, whatever the callback. *)
    Lemma settles_process' vs (l : @link RA) route (pos : R) skip s : lk_limit l <= V -> settles (fun n => @process_vehicles RA S_ (func n) n links vs l route pos skip s).
    Proof.
      intros Hl. destruct (nat_above ((5 * V - pos) / delta)) as (m & Hm). assert (5 * V <= pos + INR m * delta) as Hp.
      { apply (Rmult_gt_compat_r delta) in Hm; [|exact Hdelta]. unfold Rdiv in Hm. rewrite Rmult_assoc, Rinv_l in Hm by lra. lra. }
      refine (settles_late _ _ 0%nat _ (settles_process vs m 0 l route pos skip s Hl Hp)). intros fuel _. rewrite Nat.sub_0_r. reflexivity.
    Qed.
  End Scans.
  Lemma settles_gap vs (time : R) q (m : nat) : forall k (l : @link RA) (p0 p1 : R) route (mv : R), 0 < lk_limit l <= V -> mv <= V -> Rmax time 0 * V + 1 <= p0 + INR m * delta ->
    settles (fun n => @check_gap RA (n - k) links vs l (p0, p1) time q route mv).
  Proof.
    induction m as [|m IH]; intros k l p0 p1 route mv Hl Hm Hp; (eapply settles_late with (n := S k); [intros fuel L; replace (fuel - k)%nat with (S (fuel - S k)) by lia; cbn [check_gap fst snd]; reflexivity|]);
      (apply settles_bind_fin; [apply fin_skip_past|]; intros ids _); (apply settles_bind_fin; [apply fin_gap_loop|]; intros [b|] _; [apply settles_ok|]).
    - match goal with |- context [@nltb ?A ?x ?y] => replace (@nltb A x y) with true; [apply settles_ok|] end. symmetry. apply ltb_R. rewrite max_R. change (time < p0 / Rmax mv (lk_limit l)).
      assert (0 < Rmax mv (lk_limit l) <= V) as HM by (split; [eapply Rlt_le_trans; [apply Hl|apply Rmax_r]|apply Rmax_lub; lra]).
      cbn [INR] in Hp. assert (Rmax time 0 * Rmax mv (lk_limit l) <= Rmax time 0 * V) as Hx by (apply Rmult_le_compat_l; [apply Rmax_r|lra]).
      assert (time * Rmax mv (lk_limit l) <= Rmax time 0 * Rmax mv (lk_limit l)) as Hy by (apply Rmult_le_compat_r; [lra|apply Rmax_l]).
      apply (Rmult_lt_reg_r (Rmax mv (lk_limit l))); [lra|]. unfold Rdiv. rewrite Rmult_assoc, Rinv_l by lra. lra.
    - destruct (nltb _ _); [apply settles_ok|].
      eapply (settles_allM (fun n id => _)). intros id _. cbv beta. apply settles_bind_fin; [apply fin_get_link|]. intros l' G. unfold get_link in G. apply of_option_ok in G. destruct (Hlinks _ _ G) as (L1 & L2). apply IH; [exact L2| |].
      + rewrite max_R. apply Rmax_lub; lra.
      + rewrite S_INR in Hp. change (Rmax time 0 * V + 1 <= (p0 + lk_length l') + INR m * delta). lra.
  Qed.
  Lemma settles_gap' vs (time : R) q (l : @link RA) (p0 p1 : R) route (mv : R) : 0 < lk_limit l <= V -> mv <= V -> settles (fun n => @check_gap RA n links vs l (p0, p1) time q route mv).
  Proof.
    intros Hl Hm. destruct (nat_above ((Rmax time 0 * V + 1 - p0) / delta)) as (m & Hx).
    assert (Rmax time 0 * V + 1 <= p0 + INR m * delta) as Hp.
    { apply (Rmult_gt_compat_r delta) in Hx; [|exact Hdelta]. unfold Rdiv in Hx. rewrite Rmult_assoc, Rinv_l in Hx by lra. lra. }
    refine (settles_late _ _ 0%nat _ (settles_gap vs time q m 0 l p0 p1 route mv Hl Hm Hp)). intros fuel _. rewrite Nat.sub_0_r. reflexivity.
  Qed.
  Lemma settles_enter_loop vs l r q pr idxs : settles (fun n => @enter_loop RA n links vs l r q pr idxs).
  Proof.
    induction idxs as [|i idxs IH]; [apply settles_ok|]. cbn [enter_loop]. apply settles_bind_fin; [apply fin_option|]. intros c _. apply settles_bind_fin; [apply fin_get_link|]. intros l2 G.
    unfold get_link in G. apply of_option_ok in G. destruct (Hlinks _ _ G) as (L1 & L2). eapply settles_bind; [apply settles_gap'; [exact L2|change (0 <= V); lra]|].
    intros [|]; [exact IH|apply settles_ok].
  Qed.
  Lemma settles_stopline vs self log r : settles (fun n => @stopline_cb RA n links vs self log r).
  Proof.
    unfold stopline_cb. destruct (rv_route r 1) as [(id & st)|]; [|apply settles_fin; fins]. destruct st as [|f|]; [| |apply settles_ok]; (apply settles_bind_fin; [apply fin_get_link|]; intros l _); destruct (lk_control l) as [|dist ms pr|]; try (apply settles_fin; fins; fail).
    unfold can_enter. eapply settles_bind; [|intros [[|] lg]; apply settles_ok]. eapply settles_bind; [apply settles_enter_loop|]. intros [i|]; apply settles_ok.
  Qed.
End Exact.
