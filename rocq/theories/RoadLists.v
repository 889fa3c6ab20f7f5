(** * Lists of links and of the vehicles on them *)
From Coq Require Import List Bool ZArith NArith Arith Lia Reals Lra Sorting.Sorted Relations.
From Verif Require Import Arith RealArith Base BaseProofs SlotMap Util Geom Light Accel Net Path Vehicle LinkOps Sim SpecSim SlotMapProofs SpecRoad.
Import ListNotations.

Section Flat.
  Context {X : Type}.
  Variable f : key -> list X.
  (** Two neighbours in the concatenation are neighbours in one of the lists, or the last of one and the first of a later one with only empty ones between. *)
  Lemma flat_next road : forall pre a b post, flat_map f road = pre ++ a :: b :: post ->
    (exists x p q, In x road /\ f x = p ++ a :: b :: q) \/
    (exists r1 x r2 y r3 p q, road = r1 ++ x :: r2 ++ y :: r3 /\ f x = p ++ [a] /\ f y = b :: q /\ forall z, In z r2 -> f z = []).
  Proof.
    assert (forall road b post, flat_map f road = b :: post -> exists r2 y r3 q, road = r2 ++ y :: r3 /\ f y = b :: q /\ forall z, In z r2 -> f z = []) as Hd.
    { induction road0 as [|x road0 IH]; intros b post E; cbn [flat_map] in E; [discriminate E|]. destruct (f x) as [|c q] eqn:Ef.
      - destruct (IH _ _ E) as (r2 & y & r3 & q & -> & F & N). exists (x :: r2), y, r3, q. split; [reflexivity|]. split; [exact F|]. intros z [<-|Hz]; auto.
      - injection E as -> _. exists [], x, road0, q. split; [reflexivity|]. split; [exact Ef|]. intros z []. }
    induction road as [|x road IH]; intros pre a b post E; cbn [flat_map] in E; [destruct pre; discriminate E|].
    destruct (app_eq_app _ _ _ _ E) as (l & [(E1 & E2)|(E1 & E2)]).
    - destruct l as [|c [|c' l]].
      + rewrite app_nil_r in E1. cbn in E2. destruct (IH [] a b post (eq_sym E2)) as [(y & p & q & Hy & F)|(r1 & y & r2 & z & r3 & p & q & -> & F)].
        * left. exists y, p, q. split; [right; exact Hy|exact F].
        * right. exists (x :: r1), y, r2, z, r3, p, q. auto.
      + cbn in E2. injection E2 as <- E2. symmetry in E2. destruct (Hd _ _ _ E2) as (r2 & y & r3 & q & -> & F & N).
        right. exists [], x, r2, y, r3, pre, q. auto.
      + cbn in E2. injection E2 as <- <- E2. left. exists x, pre, l. split; [left; reflexivity|exact E1].
    - destruct (IH l a b post E2) as [(y & p & q & Hy & F)|(r1 & y & r2 & z & r3 & p & q & -> & F)].
      + left. exists y, p, q. split; [right; exact Hy|exact F].
      + right. exists (x :: r1), y, r2, z, r3, p, q. auto.
  Qed.
  Lemma neighbours_sorted (P : X -> X -> Prop) l : (forall pre a b post, l = pre ++ a :: b :: post -> P a b) -> Sorted P l.
  Proof.
    induction l as [|a l IH]; intros H; [constructor|]. constructor; [apply IH; intros pre x y post E; apply (H (a :: pre) x y post); rewrite E; reflexivity|].
    destruct l as [|b l]; constructor. apply (H [] a b l). reflexivity.
  Qed.
  Lemma sorted_pairs (P : X -> X -> Prop) l : StronglySorted P l -> forall a b, In a l -> In b l -> a = b \/ P a b \/ P b a.
  Proof.
    intros H. induction H as [|x l H IH F]; intros a b Ha Hb; [destruct Ha|]. rewrite Forall_forall in F. destruct Ha as [<-|Ha], Hb as [<-|Hb]; auto.
  Qed.
  Lemma strong_app (P : X -> X -> Prop) l1 l2 : StronglySorted P (l1 ++ l2) -> StronglySorted P l1 /\ StronglySorted P l2.
  Proof.
    induction l1 as [|a l1 IH]; cbn; intros H; [split; [constructor|exact H]|]. inversion H as [|? ? H1 F]; subst. destruct (IH H1) as (A1 & A2). split; [|exact A2]. constructor; [exact A1|].
    rewrite Forall_forall in *. intros z Hz. apply F. apply in_or_app. left. exact Hz.
  Qed.
  Lemma strong_part (P : X -> X -> Prop) road x : StronglySorted P (flat_map f road) -> In x road -> StronglySorted P (f x).
  Proof.
    induction road as [|y road IH]; intros H Hx; [destruct Hx|]. cbn [flat_map] in H. apply strong_app in H. destruct H as (H1 & H2). destruct Hx as [<-|Hx]; auto.
  Qed.
End Flat.

Section Starts.
  Local Open Scope R_scope.
  Variable len : key -> R.
  Fixpoint total_of (r : list key) : R := match r with [] => 0 | x :: r => len x + total_of r end.
  Lemma start_app r1 r x : ~ In x r1 -> start_of len (r1 ++ r) x = total_of r1 + start_of len r x.
  Proof.
    induction r1 as [|y r1 IH]; intros N; cbn [app start_of total_of]; [lra|]. destruct (key_eqb_spec x y) as [->|_]; [exfalso; apply N; left; reflexivity|].
    rewrite IH; [lra|]. intros Hx. apply N. right. exact Hx.
  Qed.
  Lemma start_here x r : start_of len (x :: r) x = 0.
  Proof. cbn [start_of]. rewrite key_eqb_refl. reflexivity. Qed.
  Lemma start_later r1 x r2 y r3 : NoDup (r1 ++ x :: r2 ++ y :: r3) -> start_of len (r1 ++ x :: r2 ++ y :: r3) y = start_of len (r1 ++ x :: r2 ++ y :: r3) x + len x + total_of r2.
  Proof.
    intros Nd. rewrite (start_app r1 (x :: r2 ++ y :: r3) x). 2:{ apply NoDup_remove_2 in Nd. intros Hx. apply Nd. apply in_or_app. left. exact Hx. }
    rewrite start_here. replace (r1 ++ x :: r2 ++ y :: r3) with ((r1 ++ x :: r2) ++ y :: r3) in * by (rewrite <- app_assoc; reflexivity).
    rewrite start_app. 2:{ apply NoDup_remove_2 in Nd. intros Hx. apply Nd. apply in_or_app. left. exact Hx. }
    rewrite start_here. assert (forall l, total_of (r1 ++ l) = total_of r1 + total_of l) as ->; [|cbn [total_of]; lra].
    intros l. induction r1 as [|z r IH]; cbn; [lra|]. rewrite IH; [lra|]. cbn in Nd. inversion Nd; assumption.
  Qed.
  Lemma start_next road x y : NoDup road -> next_on road x y -> start_of len road y = start_of len road x + len x.
  Proof. intros Nd (pre & post & ->). pose proof (start_later pre x [] y post Nd) as E. cbn [app total_of] in E. lra. Qed.
  Lemma total_low (m : R) r : (forall x, In x r -> m <= len x) -> 0 <= m -> r <> [] -> m <= total_of r.
  Proof.
    intros F M N. destruct r as [|x r]; [congruence|]. cbn. assert (0 <= total_of r). { assert (forall y, In y r -> m <= len y) as F' by (intros; apply F; right; assumption). clear - F' M. induction r as [|y r IH]; cbn; [lra|]. specialize (F' y (or_introl eq_refl)) as Fy. assert (0 <= total_of r) by (apply IH; intros; apply F'; right; assumption). lra. }
    specialize (F x (or_introl eq_refl)). lra.
  Qed.
End Starts.
Local Open Scope R_scope.
Lemma start_ext (len len' : key -> R) road x : (forall y, In y road -> len y = len' y) -> start_of len road x = start_of len' road x.
Proof.
  induction road as [|y road IH]; intros E; cbn [start_of]; [reflexivity|]. destruct (key_eqb x y); [reflexivity|]. rewrite (E y (or_introl eq_refl)), IH; auto. intros; apply E; right; assumption.
Qed.
Lemma next_in road x y : next_on road x y -> In x road /\ In y road.
Proof. intros (pre & post & ->). split; apply in_or_app; right; [left|right; left]; reflexivity. Qed.
Lemma next_unique road x y z : NoDup road -> next_on road x y -> next_on road x z -> y = z.
Proof.
  intros Nd (p1 & q1 & E1) (p2 & q2 & E2). rewrite E1 in E2, Nd. clear E1 road.
  revert p2 E2. induction p1 as [|a p1 IH]; intros p2 E2; destruct p2 as [|b p2]; cbn in *.
  - injection E2 as E2 _. exact E2.
  - exfalso. injection E2 as -> E2. inversion Nd as [|? ? N1 N2]; subst. apply N1. rewrite E2. apply in_or_app. right. left. reflexivity.
  - exfalso. injection E2 as -> E2. inversion Nd as [|? ? N1 N2]; subst. apply N1. apply in_or_app. right. left. reflexivity.
  - injection E2 as -> E2. inversion Nd; subst. eauto.
Qed.
Lemma last_or_next road x : In x road -> x = last road null_key \/ exists y, next_on road x y.
Proof.
  induction road as [|a road IH]; intros Hx; [destruct Hx|]. destruct road as [|b road].
  - destruct Hx as [<-|[]]. left. reflexivity.
  - destruct Hx as [<-|Hx]; [right; exists b, [], road; reflexivity|]. destruct (IH Hx) as [E|(y & pre & post & E)].
    + left. exact E.
    + right. exists y, (a :: pre), post. rewrite E. reflexivity.
Qed.
Lemma last_not_next road y : NoDup road -> ~ next_on road (last road null_key) y.
Proof.
  intros Nd (pre & post & E). assert (last road null_key = last (y :: post) null_key) as El.
  { rewrite E at 1. replace (pre ++ last road null_key :: y :: post) with ((pre ++ [last road null_key]) ++ y :: post) by (rewrite <- app_assoc; reflexivity). generalize (pre ++ [last road null_key]) as p. clear.
    induction p as [|a p IH]; [reflexivity|]. cbn [app]. rewrite <- IH. destruct p; reflexivity. }
  rewrite E in Nd. apply NoDup_remove_2 in Nd. apply Nd. apply in_or_app. right. rewrite El. clear. revert y. induction post as [|b post IH]; intros y; [left; reflexivity|]. right. apply IH.
Qed.
