(** * The shortest-path search: correctness of the model of [dijkstra] for every tie order *)
From Coq Require Import List Bool ZArith NArith Arith Lia Permutation.
From Verif Require Import Arith Base BaseProofs SlotMap SlotMapProofs Path SpecRoute.
Import ListNotations.

Lemma dt_get_set t k v k' : dt_get (dt_set t k v) k' = if key_eqb k k' then Some v else dt_get t k'.
Proof.
  induction t as [|[k0 v0] t IH]; simpl; [destruct (key_eqb k k'); auto|].
  destruct (key_eqb_spec k0 k) as [->|N]; simpl.
  - destruct (key_eqb k k'); auto.
  - destruct (key_eqb_spec k0 k') as [->|N']; [destruct (key_eqb_spec k k'); congruence|]. apply IH.
Qed.
Lemma heap_min_none h : heap_min h = None -> h = [].
Proof. destruct h as [|[c k] h]; auto. simpl. destruct (heap_min h); discriminate. Qed.
Lemma heap_min_some h m : heap_min h = Some m -> (exists k, In (m, k) h) /\ forall c k, In (c, k) h -> (m <= c)%Z.
Proof.
  revert m. induction h as [|[c0 k0] h IH]; simpl; [discriminate|]. intros m. destruct (heap_min h) as [m'|] eqn:E.
  - injection 1 as <-. destruct (IH _ eq_refl) as ((k & Hk) & L). split.
    + destruct (Z.min_spec c0 m') as [(_ & ->)|(_ & ->)]; [exists k0; auto|exists k; auto].
    + intros c k1 [H|H]; [injection H as <- <-; lia|]. apply L in H. lia.
  - injection 1 as <-. apply heap_min_none in E. subst h. split; [exists k0; auto|]. intros c k [H|[]]. injection H as <- <-. lia.
Qed.
Lemma heap_pop_some pick h e h' : heap_pop pick h = Some (e, h') ->
  exists i, nth_error h i = Some e /\ h' = remove_at i h /\ forall c k, In (c, k) h -> (fst e <= c)%Z.
Proof.
  unfold heap_pop. destruct (heap_min h) as [m|] eqn:M; [|discriminate]. apply heap_min_some in M. destruct M as ((k & Hk) & L).
  set (is_min := fun i => match nth_error h i with Some (c, _) => Z.eqb c m | None => false end).
  set (i := if is_min pick then pick else match position (fun e => Z.eqb (fst e) m) h with Some i => i | None => O end).
  assert (is_min i = true) as Hi.
  { unfold i. destruct (is_min pick) eqn:P; auto. destruct (position _ h) as [j|] eqn:Q.
    - apply position_some in Q. destruct Q as (x & Hx & E). unfold is_min. rewrite Hx. destruct x as [c q]. simpl in E. exact E.
    - exfalso. eapply position_none in Q; [|exact Hk]. simpl in Q. rewrite Z.eqb_refl in Q. discriminate. }
  unfold is_min in Hi. intros E. change (match nth_error h i with Some e => Some (e, remove_at i h) | None => None end = Some (e, h')) in E.
  destruct (nth_error h i) as [e0|] eqn:N; [|discriminate]. injection E as <- <-. exists i. split; auto. split; auto.
  destruct e0 as [c0 k0]. apply Z.eqb_eq in Hi. subst. simpl. auto.
Qed.
Lemma heap_pop_none pick h : heap_pop pick h = None -> h = [].
Proof.
  unfold heap_pop. destruct (heap_min h) as [m|] eqn:M; [|intros _; apply heap_min_none; auto]. apply heap_min_some in M. destruct M as ((k & Hk) & L).
  set (is_min := fun i => match nth_error h i with Some (c, _) => Z.eqb c m | None => false end).
  set (i := if is_min pick then pick else match position (fun e => Z.eqb (fst e) m) h with Some i => i | None => O end).
  assert (is_min i = true) as Hi.
  { unfold i. destruct (is_min pick) eqn:P; auto. destruct (position _ h) as [j|] eqn:Q.
    - apply position_some in Q. destruct Q as (x & Hx & E). unfold is_min. rewrite Hx. destruct x as [c q]. simpl in E. exact E.
    - exfalso. eapply position_none in Q; [|exact Hk]. simpl in Q. rewrite Z.eqb_refl in Q. discriminate. }
  unfold is_min in Hi. intros E. change (match nth_error h i with Some e => Some (e, remove_at i h) | None => None end = None) in E.
  destruct (nth_error h i); discriminate.
Qed.

Section Dij.
  Variable succ : key -> res (list (key * Z)).
  Variable goal : key -> bool.
  Variable start : key.
  Hypothesis weights : forall a es b w, succ a = Ok es -> In (b, w) es -> (0 <= w)%Z.

  (** There is a way from [start] to a node at a cost. *)
  Inductive way : key -> Z -> Prop :=
  | way_start : way start 0
  | way_step a c es b w : way a c -> succ a = Ok es -> In (b, w) es -> way b (c + w).
  Lemma way_nonneg k c : way k c -> (0 <= c)%Z.
  Proof. induction 1; [lia|]. pose proof (weights _ _ _ _ H0 H1). lia. Qed.

  Definition label (t : dtable) (k : key) (c : Z) : Prop := exists p, dt_get t k = Some (p, c).

  (** The state of the search; [P] are the expanded nodes, latest first. *)
  Record DI (P : list key) (t : dtable) (h : list (Z * key)) (B : Z) : Prop := {
    di_start : dt_get t start = Some (None, 0%Z);
    di_way : forall k p c, dt_get t k = Some (p, c) -> way k c;
    di_parent : forall k p c, dt_get t k = Some (p, c) ->
      match p with
      | None => k = start
      | Some q => In q P /\ exists cq es w, label t q cq /\ succ q = Ok es /\ In (k, w) es /\ c = (cq + w)%Z
      end;
    di_order : forall P1 k P2 q c, P = P1 ++ k :: P2 -> dt_get t k = Some (Some q, c) -> In q P2;
    di_done : forall k, In k P -> goal k = false /\ exists c es, label t k c /\ (c <= B)%Z /\ succ k = Ok es /\ ~ In (c, k) h;
    di_nodup : NoDup P;
    di_heap : forall c k, In (c, k) h -> (B <= c)%Z /\ exists c', label t k c' /\ (c' <= c)%Z;
    di_open : forall k c, label t k c -> ~ In k P -> In (c, k) h;
    di_hnodup : NoDup h
  }.
  Definition closed_at (t : dtable) (k : key) : Prop :=
    forall c es b w, label t k c -> succ k = Ok es -> In (b, w) es -> exists cb, label t b cb /\ (cb <= c + w)%Z.

  Lemma label_det t k c c' : label t k c -> label t k c' -> c = c'.
  Proof. intros (p & H) (p' & H'). congruence. Qed.

  (** Relaxing the edges out of an expanded node. *)
  Lemma relax_inv node cost all P B es t h t' h' : DI (node :: P) t h B -> label t node cost -> B = cost ->
    succ node = Ok all -> (forall x, In x es -> In x all) ->
    dij_relax node cost es t h = Ok (t', h') ->
    DI (node :: P) t' h' B /\ label t' node cost /\ (forall k c, label t k c -> exists c', label t' k c' /\ (c' <= c)%Z) /\
    (forall k c, In k (node :: P) -> label t k c -> label t' k c) /\
    (forall b w, In (b, w) es -> exists cb, label t' b cb /\ (cb <= cost + w)%Z) /\
    length h' <= length h + length es.
  Proof.
    revert t h. induction es as [|(s, w) es IH]; intros t h D L EB Sn Sub H; cbn [dij_relax] in H.
    - injection H as <- <-. split; auto. split; auto. split; [intros k c Hk; exists c; split; auto; lia|]. split; auto. split; [intros b w []|simpl; lia].
    - destruct (Z.ltb usize_max (cost + w)) eqn:Ov; [discriminate H|].
      assert (0 <= w)%Z as Hw by (eapply weights; [exact Sn|]; apply Sub; left; reflexivity).
      assert (way node cost) as Wn by (destruct L as (p & L); eapply di_way; eauto).
      set (better := match dt_get t s with None => true | Some (_, c') => Z.ltb (cost + w) c' end) in H.
      destruct better eqn:Bt.
      + assert (forall c', label t s c' -> (cost + w < c')%Z) as Lt.
        { intros c' (p & Hp). unfold better in Bt. rewrite Hp in Bt. apply Z.ltb_lt in Bt. exact Bt. }
        assert (~ In s (node :: P)) as Ns.
        { intros Hs. destruct (di_done _ _ _ _ D s Hs) as (_ & c & es0 & Lc & Le & _). specialize (Lt _ Lc). lia. }
        assert (s <> start) as Nst.
        { intros ->. assert (label t start 0) as L0 by (exists None; apply D). specialize (Lt _ L0). pose proof (way_nonneg _ _ Wn). lia. }
        assert (forall k c, k <> s -> (label (dt_set t s (Some node, cost + w)%Z) k c <-> label t k c)) as Lo.
        { intros k c Nk. unfold label. rewrite dt_get_set. destruct (key_eqb_spec s k); [congruence|]. tauto. }
        assert (forall c, label (dt_set t s (Some node, cost + w)%Z) s c <-> c = (cost + w)%Z) as Ls.
        { intros c. unfold label. rewrite dt_get_set, key_eqb_refl. split; [intros (p & E); congruence|intros ->; eauto]. }
        assert (~ In ((cost + w)%Z, s) h) as Nh.
        { intros Hin. destruct (di_heap _ _ _ _ D _ _ Hin) as (_ & c' & Lc' & Le). specialize (Lt _ Lc'). lia. }
        assert (DI (node :: P) (dt_set t s (Some node, cost + w)%Z) (h ++ [((cost + w)%Z, s)]) B) as D'.
        { split.
          - rewrite dt_get_set. destruct (key_eqb_spec s start); [congruence|]. apply D.
          - intros k p c. rewrite dt_get_set. destruct (key_eqb_spec s k) as [<-|]; [|apply D]. intros E. injection E as <- <-. eapply way_step; eauto. apply Sub. left; auto.
          - intros k p c. rewrite dt_get_set. destruct (key_eqb_spec s k) as [<-|].
            + intros E. injection E as <- <-. split; [left; auto|]. exists cost, all, w. split; [apply Lo; auto; intros ->; apply Ns; left; auto|]. split; auto. split; auto. apply Sub. left; auto.
            + intros E. pose proof (di_parent _ _ _ _ D _ _ _ E) as X. destruct p as [q|]; auto. destruct X as (Hq & cq & es0 & w0 & Lq & X). split; auto. exists cq, es0, w0. split; auto. apply Lo; auto. intros ->. auto.
          - intros P1 k P2 q c Ep. rewrite dt_get_set. destruct (key_eqb_spec s k) as [<-|]; [|apply (di_order _ _ _ _ D _ _ _ _ _ Ep)].
            exfalso. apply Ns. rewrite Ep. apply in_or_app. right. left. auto.
          - intros k Hk. destruct (di_done _ _ _ _ D k Hk) as (Gk & c & es0 & Lc & Le & Sk & Nk). split; auto. exists c, es0. assert (k <> s) by (intros ->; auto). split; [apply Lo; auto|]. split; auto. split; auto.
            rewrite in_app_iff. intros [X|[X|[]]]; [auto|]. congruence.
          - apply D.
          - intros c k Hin. apply in_app_iff in Hin. destruct Hin as [Hin|[E|[]]].
            + destruct (di_heap _ _ _ _ D _ _ Hin) as (Bc & c' & Lc' & Le). split; auto. destruct (key_eq_dec k s) as [->|Nk].
              * exists (cost + w)%Z. split; [apply Ls; auto|]. specialize (Lt _ Lc'). lia.
              * exists c'. split; auto. apply Lo; auto.
            + injection E as <- <-. split; [lia|]. exists (cost + w)%Z. split; [apply Ls; auto|lia].
          - intros k c Hl Nk. apply in_app_iff. destruct (key_eq_dec k s) as [->|Ne].
            + apply Ls in Hl. subst c. right. left. auto.
            + left. apply (di_open _ _ _ _ D); auto. apply Lo; auto.
          - apply NoDup_app_intro; [apply D|repeat constructor; auto|]. intros x Hx [<-|[]]. auto. }
        assert (label (dt_set t s (Some node, cost + w)%Z) node cost) as L' by (apply Lo; auto; intros ->; apply Ns; left; auto).
        destruct (IH _ _ D' L' EB Sn (fun x Hx => Sub x (or_intror Hx)) H) as (R1 & R2 & R3 & R4 & R5 & R6).
        split; auto. split; auto. split; [|split; [|split]].
        * intros k c Hk. destruct (key_eq_dec k s) as [->|Ne].
          -- destruct (R3 s (cost + w)%Z) as (c' & Lc' & Le); [apply Ls; auto|]. exists c'. split; auto. specialize (Lt _ Hk). lia.
          -- apply R3. apply Lo; auto.
        * intros k c Hk Lk. apply R4; auto. apply Lo; auto. intros ->. auto.
        * intros b w0 [E|Hb]; [|eauto]. injection E as <- <-. apply (R3 s (cost + w)%Z). apply Ls; auto.
        * rewrite app_length in R6. simpl in *. lia.
      + destruct (IH _ _ D L EB Sn (fun x Hx => Sub x (or_intror Hx)) H) as (R1 & R2 & R3 & R4 & R5 & R6).
        split; auto. split; auto. split; auto. split; auto. split; [|simpl; lia].
        intros b w0 [E|Hb]; [|eauto]. injection E as <- <-. unfold better in Bt. destruct (dt_get t s) as [(p, c')|] eqn:G; [|discriminate Bt]. apply Z.ltb_ge in Bt.
        destruct (R3 s c') as (c2 & L2 & Le); [exists p; auto|]. exists c2. split; auto. lia.
  Qed.
  Lemma relax_panic node cost es t h p : dij_relax node cost es t h = Panic p -> p = POverflow.
  Proof.
    revert t h. induction es as [|(s, w) es IH]; intros t h H; cbn [dij_relax] in H; [discriminate H|]. destruct (Z.ltb usize_max (cost + w)); [congruence|].
    destruct (match dt_get t s with None => true | Some (_, c') => Z.ltb (cost + w) c' end); eauto.
  Qed.
  Lemma relax_fuel node cost es t h : dij_relax node cost es t h <> OutOfFuel.
  Proof.
    revert t h. induction es as [|(s, w) es IH]; intros t h H; cbn [dij_relax] in H; [discriminate H|]. destruct (Z.ltb usize_max (cost + w)); [discriminate|].
    destruct (match dt_get t s with None => true | Some (_, c') => Z.ltb (cost + w) c' end); eapply IH; eauto.
  Qed.

  Definition closed (P : list key) (t : dtable) : Prop := forall k, In k P -> closed_at t k.

  (** Popping an entry. *)
  Lemma pop_stale P t h B i cost node : DI P t h B -> nth_error h i = Some (cost, node) -> (forall c k, In (c, k) h -> (cost <= c)%Z) ->
    (exists c, label t node c /\ (c < cost)%Z) -> DI P t (remove_at i h) cost.
  Proof.
    intros D Hi Mn (cn & Ln & Lt). pose proof (remove_at_perm _ _ _ Hi) as Pm.
    assert (forall x, In x (remove_at i h) -> In x h) as Sub by (intros x Hx; eapply Permutation_in; [apply Permutation_sym; exact Pm|right; auto]).
    assert (In (cost, node) h) as Hin by (eapply nth_error_In; eauto).
    destruct (di_heap _ _ _ _ D _ _ Hin) as (Bc & _).
    split; try apply D.
    - intros k Hk. destruct (di_done _ _ _ _ D k Hk) as (Gk & c & es0 & Lc & Le & Sk & Nk). split; auto. exists c, es0. split; auto. split; [lia|]. split; auto.
    - intros c k Hck. apply Sub in Hck. split; [eauto|]. apply (di_heap _ _ _ _ D _ _ Hck).
    - intros k c Lk Nk. pose proof (di_open _ _ _ _ D _ _ Lk Nk) as Hk. eapply Permutation_in in Hk; [|exact Pm]. destruct Hk as [E|]; auto. injection E as <- <-.
      rewrite (label_det _ _ _ _ Lk Ln) in *. lia.
    - apply NoDup_remove_at. apply D.
  Qed.
  Lemma pop_expand P t h B i cost node es : DI P t h B -> nth_error h i = Some (cost, node) -> (forall c k, In (c, k) h -> (cost <= c)%Z) ->
    label t node cost -> goal node = false -> succ node = Ok es -> DI (node :: P) t (remove_at i h) cost /\ ~ In node P.
  Proof.
    intros D Hi Mn Ln Gn Sn. pose proof (remove_at_perm _ _ _ Hi) as Pm.
    assert (forall x, In x (remove_at i h) -> In x h) as Sub by (intros x Hx; eapply Permutation_in; [apply Permutation_sym; exact Pm|right; auto]).
    assert (In (cost, node) h) as Hin by (eapply nth_error_In; eauto).
    destruct (di_heap _ _ _ _ D _ _ Hin) as (Bc & _).
    assert (~ In (cost, node) (remove_at i h)) as Nin.
    { assert (NoDup ((cost, node) :: remove_at i h)) as N by (eapply Permutation_NoDup; [exact Pm|apply D]). inversion N; auto. }
    assert (~ In node P) as Np.
    { intros Hp. destruct (di_done _ _ _ _ D node Hp) as (_ & c & es0 & Lc & _ & _ & Nk). rewrite (label_det _ _ _ _ Ln Lc) in *. auto. }
    split; auto. split; try apply D.
    - intros k p c E. pose proof (di_parent _ _ _ _ D _ _ _ E) as X. destruct p; auto. destruct X as (X1 & X2). split; auto. right; auto.
    - intros P1 k P2 q c Ep E. destruct P1 as [|x P1]; simpl in Ep; injection Ep as -> ->.
      + pose proof (di_parent _ _ _ _ D _ _ _ E) as X. apply X.
      + eapply (di_order _ _ _ _ D); eauto.
    - intros k [<-|Hk].
      + split; auto. exists cost, es. split; auto. split; [lia|]. auto.
      + destruct (di_done _ _ _ _ D k Hk) as (Gk & c & es0 & Lc & Le & Sk & Nk). split; auto. exists c, es0. split; auto. split; [lia|]. split; auto.
    - constructor; auto. apply D.
    - intros c k Hck. apply Sub in Hck. split; [eauto|]. apply (di_heap _ _ _ _ D _ _ Hck).
    - intros k c Lk Nk. assert (~ In k P) as Nk2 by (intros X; apply Nk; right; auto). pose proof (di_open _ _ _ _ D _ _ Lk Nk2) as Hk.
      eapply Permutation_in in Hk; [|exact Pm]. destruct Hk as [E|]; auto. injection E as <- <-. exfalso. apply Nk. left; auto.
    - apply NoDup_remove_at. apply D.
  Qed.

  (** Every way leaves the expanded nodes through an open entry. *)
  Lemma way_cut P t h B m : DI P t h B -> closed P t -> (forall c k, In (c, k) h -> (m <= c)%Z) ->
    forall k z, way k z -> (In k P /\ exists c, label t k c /\ (c <= z)%Z) \/ (m <= z)%Z.
  Proof.
    intros D C Mn.
    assert (forall k c, label t k c -> forall z, (c <= z)%Z -> (In k P /\ exists c, label t k c /\ (c <= z)%Z) \/ (m <= z)%Z) as K.
    { intros k c Lk z Le. destruct (in_dec key_eq_dec k P) as [Hk|Nk]; [left; eauto|]. right. pose proof (Mn _ _ (di_open _ _ _ _ D _ _ Lk Nk)). lia. }
    induction 1 as [|a c es b w Ha IH Sa Hb].
    - apply (K start 0%Z); [exists None; apply D|lia].
    - pose proof (weights _ _ _ _ Sa Hb). destruct IH as [(Pa & ca & La & Le)|]; [|right; lia].
      destruct (C a Pa ca es b w La Sa Hb) as (cb & Lb & Leb). apply (K b cb); auto. lia.
  Qed.

  Lemma run_inv fuel pick P t h B r : DI P t h B -> closed P t -> dij_run fuel pick succ goal t h = Ok r ->
    match r with
    | None => forall k z, way k z -> goal k = false
    | Some (node, t') => exists P' h' B' c, DI P' t' h' B' /\ closed P' t' /\ goal node = true /\ label t' node c /\ ~ In node P' /\
                         forall k z, way k z -> goal k = true -> (c <= z)%Z
    end.
  Proof.
    revert pick P t h B. induction fuel as [|fuel IH]; intros pick P t h B D C H; cbn [dij_run] in H; [discriminate H|].
    destruct (heap_pop (pick O) h) as [((cost, node), h')|] eqn:Pop.
    - apply heap_pop_some in Pop. destruct Pop as (i & Hi & -> & Mn). cbn [fst] in Mn.
      assert (In (cost, node) h) as Hin by (eapply nth_error_In; eauto).
      destruct (di_heap _ _ _ _ D _ _ Hin) as (Bc & c0 & L0 & Le0).
      destruct (goal node) eqn:Gn.
      + injection H as <-. assert (~ In node P) as Np by (intros X; destruct (di_done _ _ _ _ D node X); congruence).
        pose proof (Mn _ _ (di_open _ _ _ _ D _ _ L0 Np)). assert (c0 = cost) by lia. subst c0.
        exists P, h, B, cost. split; auto. split; auto. split; auto. split; auto. split; auto.
        intros k z W Gk. destruct (way_cut _ _ _ _ _ D C Mn _ _ W) as [(Pk & _)|]; auto.
        destruct (di_done _ _ _ _ D k Pk). congruence.
      + destruct L0 as (p0 & L0). rewrite L0 in H. destruct (Z.ltb_spec c0 cost) as [Lt|Ge].
        * apply (IH _ P t _ cost) in H; auto. eapply pop_stale; eauto. exists c0. split; auto. exists p0; auto.
        * assert (c0 = cost) by lia. subst c0. apply bind_ok in H. destruct H as (es & Hes & H). apply bind_ok in H. destruct H as ((t1, h1) & Hr & H). cbn [fst snd] in H.
          assert (label t node cost) as Ln by (exists p0; auto).
          destruct (pop_expand _ _ _ _ _ _ _ _ D Hi Mn Ln Gn Hes) as (D1 & Np).
          destruct (relax_inv _ _ _ _ _ _ _ _ _ _ D1 Ln eq_refl Hes (fun x Hx => Hx) Hr) as (D2 & L2 & R3 & R4 & R5 & _).
          eapply (IH _ (node :: P) t1 h1); eauto. intros k Hk c es0 b w Lk Sk Hb. destruct Hk as [<-|Hk].
          -- rewrite Hes in Sk. injection Sk as <-. rewrite (label_det _ _ _ _ Lk L2). eauto.
          -- destruct (di_done _ _ _ _ D k Hk) as (_ & ck & _ & Lck & _). assert (label t1 k ck) as Lk1 by (apply R4; auto; right; auto).
             rewrite (label_det _ _ _ _ Lk Lk1). destruct (C k Hk ck es0 b w Lck Sk Hb) as (cb & Lb & Leb). destruct (R3 b cb Lb) as (cb' & Lb' & Leb'). exists cb'. split; auto. lia.
    - injection H as <-. apply heap_pop_none in Pop. subst h. intros k z W.
      destruct (way_cut _ _ _ _ (z + 1) D C ltac:(intros ? ? []) _ _ W) as [(Pk & _)|]; [|lia].
      destruct (di_done _ _ _ _ D k Pk). auto.
  Qed.

  Local Notation route := (SpecRoute.route succ).
  Lemma route_snoc a p b z es c w : route a p b z -> succ b = Ok es -> In (c, w) es -> route a (p ++ [c]) c (z + w).
  Proof.
    induction 1; intros S1 S2; cbn [app].
    - replace (0 + w)%Z with (w + 0)%Z by lia. eapply route_step; eauto. constructor.
    - replace (w0 + z + w)%Z with (w0 + (z + w))%Z by lia. eapply route_step; eauto.
  Qed.
  Lemma route_way p k z : route start p k z -> way k z.
  Proof.
    assert (forall a p k z, route a p k z -> forall c, way a c -> way k (c + z)) as K.
    { induction 1; intros c0 W; [rewrite Z.add_0_r; auto|]. replace (c0 + (w + z0))%Z with (c0 + w + z0)%Z by lia. apply IHroute. eapply way_step; eauto. }
    intros H. apply (K _ _ _ _ H 0%Z). constructor.
  Qed.
  Lemma way_route k z : way k z -> exists p, route start p k z.
  Proof. induction 1 as [|a c es b w _ (p & Hp) S1 S2]; [exists [start]; constructor|]. exists (p ++ [b]). eapply route_snoc; eauto. Qed.
  Lemma route_app a p k z tl k2 z2 : route a (p ++ [k]) k z -> route k (k :: tl) k2 z2 -> route a (p ++ k :: tl) k2 (z + z2).
  Proof.
    revert a z. induction p as [|x p IH]; intros a z H1 H2; simpl in *.
    - inversion H1; subst; [exact H2|]. match goal with X : route _ [] _ _ |- _ => inversion X end.
    - inversion H1; subst; [destruct p; discriminate|]. rewrite <- Z.add_assoc. eapply route_step; eauto.
  Qed.

  (** Following the parents. *)
  Lemma path_inv fuel P t h B node c tl k2 z2 : DI P t h B -> label t node c -> route node (node :: tl) k2 z2 ->
    (exists P1 P2, P = P1 ++ P2 /\ (forall q c, dt_get t node = Some (Some q, c) -> In q P2) /\ length P2 < fuel) ->
    exists p, dij_path fuel t node tl = Ok p /\ route start p k2 (c + z2).
  Proof.
    intros D. revert node c tl z2. induction fuel as [|fuel IH]; intros node c tl z2 (pa & G) Rt (P1 & P2 & EP & HP & Lf); [lia|].
    cbn [dij_path]. rewrite G. pose proof (di_parent _ _ _ _ D _ _ _ G) as X. destruct pa as [q|].
    - destruct X as (Hq & cq & es & w & Lq & Sq & Hw & ->).
      pose proof (HP _ _ G) as Hq2. apply in_split in Hq2. destruct Hq2 as (Q1 & Q2 & ->).
      destruct (IH q cq (node :: tl) (w + z2)%Z Lq) as (p & E & Rp).
      + eapply route_step; eauto.
      + exists (P1 ++ Q1 ++ [q]), Q2. split; [rewrite EP, <- !app_assoc; auto|]. split.
        * intros q' c' E. eapply (di_order _ _ _ _ D (P1 ++ Q1) q Q2); eauto. rewrite EP, <- app_assoc; auto.
        * rewrite app_length in Lf. simpl in Lf. lia.
      + exists p. split; auto. replace (cq + w + z2)%Z with (cq + (w + z2))%Z by lia. auto.
    - subst node. assert (c = 0)%Z as -> by (pose proof (di_start _ _ _ _ D); congruence). exists (start :: tl). split; auto.
  Qed.
  (** Whatever path comes out, it is a route. *)
  Lemma path_ok_inv fuel P t h B node c tl k2 z2 p : DI P t h B -> label t node c -> route node (node :: tl) k2 z2 ->
    dij_path fuel t node tl = Ok p -> route start p k2 (c + z2).
  Proof.
    intros D. revert node c tl z2. induction fuel as [|fuel IH]; intros node c tl z2 (pa & G) Rt H; cbn [dij_path] in H; [discriminate H|].
    rewrite G in H. pose proof (di_parent _ _ _ _ D _ _ _ G) as X. destruct pa as [q|].
    - destruct X as (Hq & cq & es & w & Lq & Sq & Hw & ->). replace (cq + w + z2)%Z with (cq + (w + z2))%Z by lia. eapply IH; eauto. eapply route_step; eauto.
    - injection H as <-. subst node. assert (c = 0)%Z as -> by (pose proof (di_start _ _ _ _ D); congruence). auto.
  Qed.

  Lemma DI_init : DI [] [(start, (None, 0%Z))] [(0%Z, start)] 0.
  Proof.
    assert (forall k x, dt_get [(start, (None, 0%Z))] k = Some x -> k = start /\ x = (None, 0%Z)) as K.
    { intros k x. simpl. destruct (key_eqb_spec start k); [|discriminate]. injection 1 as <-. auto. }
    split.
    - simpl. rewrite key_eqb_refl. auto.
    - intros k p c E. apply K in E. destruct E as (-> & E). injection E as -> ->. constructor.
    - intros k p c E. apply K in E. destruct E as (-> & E). injection E as -> ->. auto.
    - intros P1 k P2 q c E. destruct P1; discriminate.
    - intros k [].
    - constructor.
    - intros c k [E|[]]. injection E as <- <-. split; [lia|]. exists 0%Z. split; [|lia]. exists None. simpl. rewrite key_eqb_refl. auto.
    - intros k c (p & E) _. apply K in E. destruct E as (-> & E). injection E as -> ->. left. auto.
    - repeat constructor. auto.
  Qed.

  (** What the search finds is a cheapest route to a goal, and it finds one if there is one. *)
  Lemma dijkstra_some fuel pick p c : dijkstra fuel pick start succ goal = Ok (Some (p, c)) ->
    (exists k, goal k = true /\ route start p k c) /\ forall p' k' c', goal k' = true -> route start p' k' c' -> (c <= c')%Z.
  Proof.
    unfold dijkstra. intros H. apply bind_ok in H. destruct H as (r & Hr & H). destruct r as [(node, t)|]; [|discriminate H].
    apply bind_ok in H. destruct H as (p0 & Hp & H). injection H as <- <-.
    pose proof (run_inv _ _ _ _ _ _ _ DI_init ltac:(intros ? []) Hr) as (P & h & B & c & D & C & Gn & L & _ & Mn).
    assert (match dt_get t node with Some (_, c) => c | None => 0%Z end = c) as -> by (destruct L as (q & ->); auto).
    split; [exists node; split; auto; rewrite <- (Z.add_0_r c); eapply path_ok_inv; eauto; constructor|].
    intros p' k' c' Gk Rk. apply (Mn k' c'); auto. eapply route_way; eauto.
  Qed.
  Lemma dijkstra_none fuel pick : dijkstra fuel pick start succ goal = Ok None -> forall p k c, route start p k c -> goal k = false.
  Proof.
    unfold dijkstra. intros H. apply bind_ok in H. destruct H as (r & Hr & H). destruct r as [(node, t)|]; [apply bind_ok in H; destruct H as (p & _ & H); discriminate H|].
    pose proof (run_inv _ _ _ _ _ _ _ DI_init ltac:(intros ? []) Hr) as Z. intros p k c Rk. eapply Z. eapply route_way; eauto.
  Qed.

  (** The search ends: one unit of fuel for every edge and node suffices. *)
  Definition deg (a : key) : nat := match succ a with Ok es => length es | _ => 0 end.
  Definition inb (k : key) (P : list key) : bool := existsb (key_eqb k) P.
  Lemma inb_true k P : inb k P = true <-> In k P.
  Proof. unfold inb. rewrite existsb_exists. split; [intros (x & Hx & E); destruct (key_eqb_spec k x); [subst; auto|discriminate]|intros H; exists k; rewrite key_eqb_refl; auto]. Qed.
  Definition rest (N P : list key) : nat := list_sum (map deg (filter (fun k => negb (inb k P)) N)).
  Lemma rest_same N P node : ~ In node N -> rest N (node :: P) = rest N P.
  Proof.
    unfold rest. induction N as [|x N IH]; auto. intros H. assert (x <> node) as Nx by (intros ->; apply H; left; auto).
    cbn [filter]. replace (inb x (node :: P)) with (inb x P) by (unfold inb; simpl; destruct (key_eqb_spec x node); [congruence|auto]).
    destruct (negb (inb x P)); cbn [map list_sum]; [|apply IH; intros X; apply H; right; auto].
    simpl. f_equal. apply IH. intros X. apply H. right. auto.
  Qed.
  Lemma rest_drop N P node : NoDup N -> In node N -> ~ In node P -> rest N (node :: P) + deg node = rest N P.
  Proof.
    induction N as [|x N IH]; [intros _ []|]. intros ND. inversion ND as [|? ? Nx ND2 Eq]; subst. intros [->|Hin] Np.
    - pose proof (rest_same N P node Nx) as E. unfold rest in *. cbn [filter].
      replace (inb node (node :: P)) with true by (symmetry; apply inb_true; left; auto).
      replace (inb node P) with false by (symmetry; apply not_true_is_false; rewrite inb_true; auto).
      change (negb true) with false. change (negb false) with true. cbv iota. rewrite E. simpl. lia.
    - specialize (IH ND2 Hin Np). unfold rest in *. cbn [filter]. assert (x <> node) as Nx2 by (intros ->; auto).
      replace (inb x (node :: P)) with (inb x P) by (unfold inb; simpl; destruct (key_eqb_spec x node); [congruence|auto]).
      destruct (negb (inb x P)); simpl in *; lia.
  Qed.

  Section Ends.
    Variable N : list key.
    Hypothesis N_nodup : NoDup N.
    Hypothesis N_start : In start N.
    Hypothesis N_closed : forall a es b w, In a N -> succ a = Ok es -> In (b, w) es -> In b N.
    Hypothesis N_succ : forall a, In a N -> succ a <> OutOfFuel.

    Lemma way_in k c : way k c -> In k N.
    Proof. induction 1; eauto. Qed.
    Lemma run_ends fuel pick P t h B : DI P t h B -> length h + rest N P < fuel -> dij_run fuel pick succ goal t h <> OutOfFuel.
    Proof.
      revert pick P t h B. induction fuel as [|fuel IH]; intros pick P t h B D Lf H; [lia|]. cbn [dij_run] in H.
      destruct (heap_pop (pick O) h) as [((cost, node), h')|] eqn:Pop; [|discriminate H].
      apply heap_pop_some in Pop. destruct Pop as (i & Hi & -> & Mn). cbn [fst] in Mn.
      assert (In (cost, node) h) as Hin by (eapply nth_error_In; eauto).
      destruct (di_heap _ _ _ _ D _ _ Hin) as (Bc & c0 & (p0 & L0) & Le0).
      assert (length (remove_at i h) + 1 = length h) as Lr.
      { pose proof (Permutation_length (remove_at_perm _ _ _ Hi)) as E. simpl in E. lia. }
      assert (In node N) as Nn by (eapply way_in, di_way; eauto).
      destruct (goal node) eqn:Gn; [discriminate H|]. rewrite L0 in H. destruct (Z.ltb_spec c0 cost) as [Lt|Ge].
      - revert H. apply (IH _ P t _ cost); [|lia]. eapply pop_stale; eauto. exists c0. split; auto. exists p0; auto.
      - assert (c0 = cost) by lia. subst c0. assert (label t node cost) as Ln by (exists p0; auto).
        destruct (succ node) as [es| |] eqn:Hes; cbn [bind] in H; [|discriminate H|eapply N_succ; eauto].
        destruct (pop_expand _ _ _ _ _ _ _ _ D Hi Mn Ln Gn Hes) as (D1 & Np).
        destruct (dij_relax node cost es t (remove_at i h)) as [(t1, h1)| |] eqn:Hr; cbn [bind] in H; [|discriminate H|eapply relax_fuel; eauto].
        destruct (relax_inv _ _ _ _ _ _ _ _ _ _ D1 Ln eq_refl Hes (fun x Hx => Hx) Hr) as (D2 & _ & _ & _ & _ & R6).
        revert H. eapply (IH _ (node :: P)); [exact D2|]. pose proof (rest_drop N P node N_nodup Nn Np) as E. assert (deg node = length es) as Ed by (unfold deg; rewrite Hes; auto). cbn [snd]. lia.
    Qed.
    Lemma dijkstra_ends fuel pick : 1 + list_sum (map deg N) < fuel -> length N < fuel -> dijkstra fuel pick start succ goal <> OutOfFuel.
    Proof.
      intros F1 F2 H. unfold dijkstra in H.
      destruct (dij_run fuel pick succ goal [(start, (None, 0%Z))] [(0%Z, start)]) as [r| |] eqn:Hr; cbn [bind] in H; [|discriminate H|].
      - destruct r as [(node, t)|]; [|discriminate H].
        pose proof (run_inv _ _ _ _ _ _ _ DI_init ltac:(intros ? []) Hr) as (P & h & B & c & D & C & Gn & L & Nn & Mn).
        destruct (path_inv fuel P t h B node c [] node 0%Z D L) as (p & E & _); [constructor| |rewrite E in H; discriminate H].
        exists [], P. split; auto. split; [intros q c' E; apply (di_parent _ _ _ _ D _ _ _ E)|].
        eapply Nat.le_lt_trans; [|exact F2]. apply NoDup_incl_length; [apply D|]. intros k Hk. destruct (di_done _ _ _ _ D k Hk) as (_ & ck & _ & (p & Lk) & _).
        eapply way_in, di_way; eauto.
      - revert Hr. eapply run_ends; [apply DI_init|]. unfold rest.
        replace (filter (fun k => negb (inb k [])) N) with N; [simpl length; lia|].
        clear. induction N; simpl; f_equal; auto.
    Qed.

    (** No overflow if as many edges as there are nodes do not cost too much. *)
    Variable W : Z.
    Hypothesis W_nonneg : (0 <= W)%Z.
    Hypothesis W_weight : forall a es b w, In a N -> succ a = Ok es -> In (b, w) es -> (w <= W)%Z.
    Hypothesis W_total : (Z.of_nat (length N) * W <= usize_max)%Z.
    Definition low (n : nat) (t : dtable) : Prop := forall k c, label t k c -> (c <= Z.of_nat n * W)%Z.
    Lemma relax_low node cost n es t h : (cost <= Z.of_nat n * W)%Z -> (forall b w, In (b, w) es -> (w <= W)%Z) -> S n <= length N -> low (S n) t ->
      (forall p, dij_relax node cost es t h <> Panic p) /\ forall t' h', dij_relax node cost es t h = Ok (t', h') -> low (S n) t'.
    Proof.
      intros Hc Hw Hn. revert t h. induction es as [|(s, w) es IH]; intros t h L; cbn [dij_relax].
      - split; [discriminate|]. intros t' h' E. injection E as <- <-. exact L.
      - assert (cost + w <= Z.of_nat (S n) * W)%Z as C by (pose proof (Hw s w (or_introl eq_refl)); lia).
        assert (Z.of_nat (S n) * W <= usize_max)%Z as U by nia.
        destruct (Z.ltb_spec usize_max (cost + w)) as [X|_]; [lia|].
        assert (forall b w0, In (b, w0) es -> (w0 <= W)%Z) as Hw' by (intros; eapply Hw; right; eauto).
        destruct (match dt_get t s with None => true | Some (_, c') => Z.ltb (cost + w) c' end); [|apply IH; auto].
        apply IH; auto. intros k c (p & E). rewrite dt_get_set in E. destruct (key_eqb_spec s k); [injection E as _ <-; exact C|]. apply (L k). exists p; exact E.
    Qed.
    Lemma run_low fuel pick P t h B : DI P t h B -> low (length P) t -> forall p, dij_run fuel pick succ goal t h = Panic p -> exists a, In a N /\ succ a = Panic p.
    Proof.
      revert pick P t h B. induction fuel as [|fuel IH]; intros pick P t h B D L p H; cbn [dij_run] in H; [discriminate H|].
      destruct (heap_pop (pick O) h) as [((cost, node), h')|] eqn:Pop; [|discriminate H].
      apply heap_pop_some in Pop. destruct Pop as (i & Hi & -> & Mn). cbn [fst] in Mn.
      assert (In (cost, node) h) as Hin by (eapply nth_error_In; eauto).
      destruct (di_heap _ _ _ _ D _ _ Hin) as (Bc & c0 & (p0 & L0) & Le0).
      assert (In node N) as Nn by (eapply way_in, di_way; eauto).
      destruct (goal node) eqn:Gn; [discriminate H|]. rewrite L0 in H. destruct (Z.ltb_spec c0 cost) as [Lt|Ge].
      - revert H. apply (IH _ P t _ cost); [|exact L]. eapply pop_stale; eauto. exists c0. split; auto. exists p0; auto.
      - assert (c0 = cost) by lia. subst c0. assert (label t node cost) as Ln by (exists p0; auto).
        destruct (succ node) as [es|q|] eqn:Hes; cbn [bind] in H; [|injection H as <-; eauto|discriminate H].
        destruct (pop_expand _ _ _ _ _ _ _ _ D Hi Mn Ln Gn Hes) as (D1 & Np).
        assert (S (length P) <= length N) as Lp.
        { change (length (node :: P) <= length N). apply NoDup_incl_length; [apply D1|]. intros k Hk. destruct (di_done _ _ _ _ D1 k Hk) as (_ & ck & _ & (pk & Lk) & _). eapply way_in, di_way; [exact D1|exact Lk]. }
        assert (low (S (length P)) t) as L1. { intros k c Lk. pose proof (L k c Lk). nia. }
        destruct (relax_low node cost (length P) es t (remove_at i h) (L _ _ Ln) (fun b w X => W_weight _ _ _ _ Nn Hes X) Lp L1) as (R1 & R2).
        destruct (dij_relax node cost es t (remove_at i h)) as [(t1, h1)|q|] eqn:Hr; cbn [bind] in H; [|exfalso; eapply R1; reflexivity|discriminate H].
        destruct (relax_inv _ _ _ _ _ _ _ _ _ _ D1 Ln eq_refl Hes (fun x Hx => Hx) Hr) as (D2 & _).
        revert H. eapply (IH _ (node :: P)); [exact D2|]. cbn [length fst]. eapply R2; reflexivity.
    Qed.
    Lemma dijkstra_low fuel pick p : dijkstra fuel pick start succ goal = Panic p -> exists a, In a N /\ succ a = Panic p.
    Proof.
      intros H. unfold dijkstra in H.
      destruct (dij_run fuel pick succ goal [(start, (None, 0%Z))] [(0%Z, start)]) as [r|q|] eqn:Hr; cbn [bind] in H; [| |discriminate H].
      - destruct r as [(node, t)|]; [|discriminate H].
        assert (forall fuel n acc, dij_path fuel t n acc <> Panic p) as Np.
        { clear. induction fuel as [|fuel IH]; intros n acc H; cbn [dij_path] in H; [discriminate H|]. destruct (dt_get t n) as [([q|], c)|]; try discriminate H. eapply IH; eauto. }
        destruct (dij_path fuel t node []) eqn:Ep; cbn [bind] in H; [discriminate H|injection H as ->; exfalso; eapply Np; exact Ep|discriminate H].
      - injection H as <-. revert Hr. eapply run_low; [apply DI_init|]. intros k c (q0 & E). cbn [dt_get] in E. destruct (key_eqb start k); [injection E as _ <-; simpl; lia|discriminate E].
    Qed.
  End Ends.
End Dij.

(** The only panic of the search itself is an overflow of the cost. *)
Lemma dijkstra_panic succ goal (ok : key -> Prop) start fuel pick q : ok start ->
  (forall a, ok a -> (forall p, succ a <> Panic p) /\ forall es b w, succ a = Ok es -> In (b, w) es -> ok b) ->
  dijkstra fuel pick start succ goal = Panic q -> q = POverflow.
Proof.
  intros Hs Hok H. unfold dijkstra in H.
  assert (forall fuel pick t h, (forall c k, In (c, k) h -> ok k) -> dij_run fuel pick succ goal t h = Panic q -> q = POverflow) as K.
  { clear H fuel pick. induction fuel as [|fuel IH]; intros pick t h Hh H; cbn [dij_run] in H; [discriminate H|].
    destruct (heap_pop (pick O) h) as [((cost, node), h')|] eqn:Pop; [|discriminate H].
    apply heap_pop_some in Pop. destruct Pop as (i & Hi & -> & _).
    assert (ok node) as On by (eapply Hh, nth_error_In; eauto).
    assert (forall c k, In (c, k) (remove_at i h) -> ok k) as Hr.
    { intros c k Hx. apply (Hh c k). eapply Permutation_in; [apply Permutation_sym, remove_at_perm; exact Hi|right; auto]. }
    destruct (goal node); [discriminate H|].
    destruct (match dt_get t node with Some (_, c) => Z.ltb c cost | None => false end); [eauto|].
    destruct (Hok node On) as (NP & Cl). destruct (succ node) as [es| |] eqn:Hes; cbn [bind] in H; [|exfalso; eapply NP; eauto|discriminate H].
    destruct (dij_relax node cost es t (remove_at i h)) as [(t1, h1)| |] eqn:Rx; cbn [bind] in H; [|injection H as ->; eapply relax_panic; eauto|discriminate H].
    eapply IH; [|exact H]. cbn [snd]. specialize (Cl es). clear -Rx Hr Cl.
    assert (forall b w, In (b, w) es -> ok b) as Ce by (intros; eapply Cl; eauto). clear Cl. revert t t1 h1 Rx Hr.
    generalize (remove_at i h). induction es as [|(x, w) es IH]; intros h0 t t1 h1 Rx Hr; cbn [dij_relax] in Rx; [injection Rx as <- <-; auto|].
    destruct (Z.ltb usize_max (cost + w)); [discriminate Rx|].
    destruct (match dt_get t x with None => true | Some (_, c') => Z.ltb (cost + w) c' end).
    - eapply IH; [intros; eapply Ce; right; eauto|exact Rx|]. intros c k Hx. apply in_app_iff in Hx. destruct Hx as [Hx|[E|[]]]; eauto. injection E as <- <-. eapply Ce. left; eauto.
    - eapply IH; [intros; eapply Ce; right; eauto|exact Rx|auto]. }
  destruct (dij_run fuel pick succ goal [(start, (None, 0%Z))] [(0%Z, start)]) as [r| |] eqn:Hr; cbn [bind] in H; [|injection H as ->; eapply K; [|exact Hr]; intros c k [E|[]]; injection E as <- <-; auto|discriminate H].
  destruct r as [(node, t)|]; [|discriminate H].
  assert (forall fuel n acc, dij_path fuel t n acc <> Panic q) as Np.
  { clear. induction fuel as [|fuel IH]; intros n acc H; cbn [dij_path] in H; [discriminate H|]. destruct (dt_get t n) as [([p|], c)|]; try discriminate H. eapply IH; eauto. }
  destruct (dij_path fuel t node []) eqn:Ep; cbn [bind] in H; [discriminate H|injection H as ->; exfalso; eapply Np; exact Ep|discriminate H].
Qed.

(** More rounds do not change a result. *)
Lemma run_more succ goal fuel : forall fuel' pick t h r, fuel <= fuel' -> dij_run fuel pick succ goal t h = r -> r <> OutOfFuel -> dij_run fuel' pick succ goal t h = r.
Proof.
  induction fuel as [|fuel IH]; intros fuel' pick t h r L H N; [cbn in H; congruence|]. destruct fuel' as [|fuel']; [lia|]. cbn [dij_run] in *.
  destruct (heap_pop (pick O) h) as [((cost, node), h')|]; [|exact H]. destruct (goal node); [exact H|].
  match type of H with (if ?c then _ else _) = _ => destruct c end; [apply IH; auto; lia|].
  destruct (succ node) as [es| |]; [|exact H|exact H]. cbn [bind] in *. destruct (dij_relax node cost es t h') as [th| |]; [|exact H|exact H]. cbn [bind] in *. apply IH; auto; lia.
Qed.
Lemma path_more fuel : forall fuel' t node acc r, fuel <= fuel' -> dij_path fuel t node acc = r -> r <> OutOfFuel -> dij_path fuel' t node acc = r.
Proof.
  induction fuel as [|fuel IH]; intros fuel' t node acc r L H N; [cbn in H; congruence|]. destruct fuel' as [|fuel']; [lia|]. cbn [dij_path] in *.
  destruct (dt_get t node) as [([p|], c)|]; [|exact H|exact H]. apply IH; auto; lia.
Qed.
Lemma dijkstra_more succ goal fuel fuel' pick start r : fuel <= fuel' -> dijkstra fuel pick start succ goal = r -> r <> OutOfFuel -> dijkstra fuel' pick start succ goal = r.
Proof.
  unfold dijkstra. intros L H N. destruct (dij_run fuel pick succ goal [(start, (None, 0%Z))] [(0%Z, start)]) as [o|p|] eqn:E; [|cbn [bind] in H; subst r; rewrite (run_more _ _ _ fuel' _ _ _ _ L E); [reflexivity|discriminate]|cbn [bind] in H; congruence].
  rewrite (run_more _ _ _ fuel' _ _ _ _ L E) by discriminate. cbn [bind] in *. destruct o as [(node, t)|]; [|exact H].
  destruct (dij_path fuel t node []) as [l|p|] eqn:Ep; cbn [bind] in H; [| |congruence]; rewrite (path_more _ fuel' _ _ _ _ L Ep) by discriminate; exact H.
Qed.
