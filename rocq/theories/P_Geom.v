(** * Vectors, cubic functions, line segments and Bezier curves (C35, C37, C43), in exact arithmetic *)
From Coq Require Import List Bool ZArith Arith Lia Reals Lra Psatz.
From Coquelicot Require Import Coquelicot.
From Verif Require Import Arith RealArith Base Util Geom RFacts LineProofs.
Import ListNotations.
Local Open Scope R_scope.

(** A vector function has the derivative [v] at [t]: both components have. *)
Definition vderive (f : R -> @pt RA) (t : R) (v : @pt RA) : Prop :=
  derivable_pt_lim (fun t => px (f t)) t (px v) /\ derivable_pt_lim (fun t => py (f t)) t (py v).

Ltac derv := apply is_derive_Reals; auto_derive; [auto|]; try (field; auto; fail); try ring.

(** ** C35: cubic functions *)
Theorem C35_fit :
  forall x1 y1 d1 x2 y2 d2 : R, x1 <> x2 -> let f := @cubic_fit RA x1 y1 d1 x2 y2 d2 in
    cubic_y f x1 = y1 /\ cubic_y f x2 = y2 /\ derivable_pt_lim (cubic_y f) x1 d1 /\ derivable_pt_lim (cubic_y f) x2 d2.
Proof.
  intros x1 y1 d1 x2 y2 d2 N f. assert (x2 - x1 <> 0) as N' by lra.
  unfold f, cubic_y, cubic_y_and_dy, cubic_fit, powi_m1, powi_m2, powi_m3, n1, n2. cbn [fst cb_a cb_b cb_c cb_d cb_offset]. unR.
  split; [field; exact N'|]. split; [field; exact N'|].
  split; apply is_derive_Reals; (auto_derive; [exact I|]); unR; field; exact N'.
Qed.
Print Assumptions C35_fit.
Theorem C35_derivative : forall (f : @cubic RA) (x : R), derivable_pt_lim (cubic_y f) x (cubic_dy f x).
Proof. intros f x. unfold cubic_y, cubic_dy, cubic_y_and_dy, n2. cbn [fst snd]. unR. apply is_derive_Reals. auto_derive; [exact I|]. ring. Qed.
Print Assumptions C35_derivative.
Theorem C35_translate : forall (f : @cubic RA) (a x : R), cubic_y (cubic_translate_x f a) x = cubic_y f (x + a) /\ cubic_dy (cubic_translate_x f a) x = cubic_dy f (x + a).
Proof. intros f a x. unfold cubic_y, cubic_dy, cubic_y_and_dy, cubic_translate_x, n2. cbn [fst snd cb_a cb_b cb_c cb_d cb_offset]. unR. split; ring. Qed.
Print Assumptions C35_translate.
Theorem C35_constant : forall y x : R, cubic_y (@cubic_constant RA y) x = y.
Proof. intros y x. unfold cubic_y, cubic_y_and_dy, cubic_constant, n0. cbn [fst cb_a cb_b cb_c cb_d cb_offset]. unR. ring. Qed.
(** It is the only cubic that does. *)
Lemma deriv_unique f x a b : derivable_pt_lim f x a -> derivable_pt_lim f x b -> a = b.
Proof. apply uniqueness_limite. Qed.
Theorem C35_only :
  forall x1 y1 d1 x2 y2 d2 : R, x1 <> x2 -> forall a b c d : R, let p := fun x => a * x^3 + b * x^2 + c * x + d in
    p x1 = y1 -> p x2 = y2 -> derivable_pt_lim p x1 d1 -> derivable_pt_lim p x2 d2 -> forall x, cubic_y (@cubic_fit RA x1 y1 d1 x2 y2 d2) x = p x.
Proof.
  intros x1 y1 d1 x2 y2 d2 N a b c d p E1 E2 D1 D2 x. assert (x2 - x1 <> 0) as N' by lra.
  assert (forall t, derivable_pt_lim p t (3 * a * t^2 + 2 * b * t + c)) as Dp by (intros t; unfold p; apply is_derive_Reals; auto_derive; [exact I|]; ring).
  pose proof (deriv_unique _ _ _ _ D1 (Dp x1)) as ->. pose proof (deriv_unique _ _ _ _ D2 (Dp x2)) as ->. rewrite <- E1, <- E2. unfold p.
  unfold cubic_y, cubic_y_and_dy, cubic_fit, powi_m1, powi_m2, powi_m3, n1, n2. cbn [fst cb_a cb_b cb_c cb_d cb_offset]. unR. field. exact N'.
Qed.
Print Assumptions C35_only.
Example C35_example : (1 : R) <> 3 /\ cubic_y (@cubic_fit RA 1 2 0 3 0 0) 2 = 1.
Proof. split; [lra|]. unfold cubic_y, cubic_y_and_dy, cubic_fit, powi_m1, powi_m2, powi_m3, n1, n2. cbn [fst cb_a cb_b cb_c cb_d cb_offset]. unR. field. Qed.

(** ** C37: line segments and Bezier curves *)
Lemma mag_sq (v : @pt RA) : @magnitude RA v * @magnitude RA v = px v * px v + py v * py v.
Proof. unfold magnitude, magnitude2, dot. unR. apply sqrt_sqrt. nra. Qed.
Lemma mag_pos (v : @pt RA) : 0 <= @magnitude RA v.
Proof. unfold magnitude. unR. apply sqrt_pos. Qed.
Lemma mag_0 (v : @pt RA) : @magnitude RA v = 0 <-> (px v : R) = 0 /\ (py v : R) = 0.
Proof. pose proof (mag_sq v) as M. split; [intros E; rewrite E in M; split; nra|intros (E1 & E2); rewrite E1, E2 in M; nra]. Qed.
Theorem C37_line :
  forall a b : @pt RA, a <> b -> let l := ls_from_ends a b in
    ls_sample l 0 = a /\ ls_sample l (ls_length l) = b /\ ls_end l = b /\ 0 < ls_length l /\ ls_length l * ls_length l = (px b - px a) * (px b - px a) + (py b - py a) * (py b - py a) /\
    unit (ls_tangent l) /\ forall t, vderive (ls_sample l) t (c_dt (ls_curve l) t) /\ vderive (c_dt (ls_curve l)) t (c_dt2 (ls_curve l) t).
Proof.
  intros a b N l. set (d := @magnitude RA (vsub b a)). assert (d <> 0) as Hd.
  { unfold d. intros E. apply mag_0 in E. cbn [vsub px py] in E. unR. destruct E as (E1 & E2). apply N. apply pt_ext; lra. }
  assert (0 < d) as Hp by (pose proof (mag_pos (vsub b a)); unfold d in *; lra).
  pose proof (mag_sq (vsub b a)) as M. cbn [vsub px py] in M. fold d in M. unR.
  assert (l = LineSeg a (vdiv (vsub b a) d) d) as -> by reflexivity.
  assert (ls_end (LineSeg a (@vdiv RA (vsub b a) d) d) = b) as E by (unfold ls_end; apply pt_ext; cbn [vadd vscale vdiv vsub px py ls_start ls_length ls_tangent]; unR; field; exact Hd).
  cbn [ls_length ls_tangent]. repeat split; auto.
  - apply pt_ext; unfold ls_sample; cbn [vadd vscale vdiv vsub px py ls_start ls_length ls_tangent]; unR; lra.
  - unfold unit. cbn [vdiv vsub px py]. unR. replace ((px b - px a) / d * ((px b - px a) / d) + (py b - py a) / d * ((py b - py a) / d)) with (((px b - px a) * (px b - px a) + (py b - py a) * (py b - py a)) / (d * d)) by (field; exact Hd). rewrite <- M. field. exact Hd.
  - unfold ls_sample. cbn [vadd vscale vdiv vsub px py ls_start ls_length ls_tangent c_dt ls_curve]. unR. derv.
  - unfold ls_sample. cbn [vadd vscale vdiv vsub px py ls_start ls_length ls_tangent c_dt ls_curve]. unR. derv.
  - cbn [c_dt c_dt2 ls_curve ls_tangent default_dt2]. unfold default_dt2, default_dt. cbn [vdiv vsub px py]. unR. apply is_derive_Reals. auto_derive; [exact I|]. unfold Rdiv. ring.
  - cbn [c_dt c_dt2 ls_curve ls_tangent default_dt2]. unfold default_dt2, default_dt. cbn [vdiv vsub px py]. unR. apply is_derive_Reals. auto_derive; [exact I|]. unfold Rdiv. ring.
Qed.
Print Assumptions C37_line.
Ltac bez := unfold qb_sample, qb_dt, qb_dt2, cb_sample, cb_dt, cb_quadratic, cb_line, cb_reverse, cb_subdivide, vlerp, n1, n2, lit in *; cbn [vadd vsub vscale vmul px py q0 q1 q2 b0 b1 b2 b3 fst snd] in *; unR.
Theorem C37_quadratic :
  forall q : @qbez RA, qb_sample q 0 = q0 q /\ qb_sample q 1 = q2 q /\ forall t, vderive (qb_sample q) t (qb_dt q t) /\ vderive (qb_dt q) t (qb_dt2 q t).
Proof.
  intros [[x0 y0] [x1 y1] [x2 y2]]. split; [apply pt_ext; bez; ring|]. split; [apply pt_ext; bez; ring|]. intros t. split; split; bez; derv.
Qed.
Print Assumptions C37_quadratic.
Theorem C37_cubic :
  forall c : @cbez RA, cb_sample c 0 = b0 c /\ cb_sample c 1 = b3 c /\ forall t, vderive (cb_sample c) t (cb_dt c t).
Proof.
  intros [[x0 y0] [x1 y1] [x2 y2] [x3 y3]]. split; [apply pt_ext; bez; ring|]. split; [apply pt_ext; bez; ring|]. intros t. split; bez; derv.
Qed.
Print Assumptions C37_cubic.
Theorem C37_quadratic_as_cubic : forall (q : @qbez RA) (t : R), cb_sample (cb_quadratic (q0 q) (q1 q) (q2 q)) t = qb_sample q t.
Proof. intros [[x0 y0] [x1 y1] [x2 y2]] t. apply pt_ext; bez; field. Qed.
Print Assumptions C37_quadratic_as_cubic.
Theorem C37_line_as_cubic : forall (a b : @pt RA) (t : R), cb_sample (cb_line a b) t = Pt (px a + t * (px b - px a) : @num RA) (py a + t * (py b - py a) : @num RA).
Proof. intros [x0 y0] [x1 y1] t. apply pt_ext; bez; field. Qed.
Print Assumptions C37_line_as_cubic.
Theorem C37_reverse : forall (c : @cbez RA) (t : R), cb_sample (cb_reverse c) t = cb_sample c (1 - t).
Proof. intros [[x0 y0] [x1 y1] [x2 y2] [x3 y3]] t. apply pt_ext; bez; ring. Qed.
Print Assumptions C37_reverse.
Theorem C37_subdivide :
  forall (c : @cbez RA) (t u : R), cb_sample (fst (cb_subdivide c t)) u = cb_sample c (t * u) /\ cb_sample (snd (cb_subdivide c t)) u = cb_sample c (t + (1 - t) * u).
Proof. intros [[x0 y0] [x1 y1] [x2 y2] [x3 y3]] t u. split; apply pt_ext; bez; ring. Qed.
Print Assumptions C37_subdivide.
Example C37_example : @Pt RA 0 0 <> @Pt RA 3 4 /\ ls_length (@ls_from_ends RA (@Pt RA 0 0) (@Pt RA 3 4)) = 5.
Proof.
  split; [intros E; injection E; lra|]. unfold ls_from_ends. cbn [ls_length]. unfold magnitude, magnitude2, dot. cbn [vsub px py]. unR.
  replace ((3 - 0) * (3 - 0) + (4 - 0) * (4 - 0)) with (5 * 5) by ring. apply sqrt_square. lra.
Qed.

(** ** C43: helpers *)
(** A quarter turn counterclockwise (in axes that point right and up): the length stays, the angle is right,
    and four turns, but no fewer, bring back a vector that is not zero. *)
Theorem C43_rot90 :
  forall v : @pt RA, dot (rot90 v) v = 0 /\ magnitude2 (rot90 v) = magnitude2 v /\ perp_dot v (rot90 v) = magnitude2 v /\ rot90 (rot90 v) = Pt (- px v : @num RA) (- py v : @num RA).
Proof. intros [x y]. unfold dot, magnitude2, perp_dot, rot90, dot. cbn [px py]. unR. repeat split; try ring. Qed.
Print Assumptions C43_rot90.
(** The comment in the code calls it clockwise: a vector to the right is not turned downwards. *)
Theorem C43_clockwise_refuted : exists v : @pt RA, rot90 v <> Pt (py v) (- px v : @num RA).
Proof. exists (@Pt RA 1 0). unfold rot90. cbn [px py]. unR. intros E. injection E. lra. Qed.
Print Assumptions C43_clockwise_refuted.
(** For an orthonormal frame, placing local coordinates and taking them are inverse to each other. *)
Theorem C43_project_local :
  forall (o x y : @pt RA), unit x -> unit y -> dot x y = 0 ->
    (forall a b : R, project_local (vadd o (vadd (@vscale RA a x) (@vscale RA b y))) o x y = @Pt RA a b) /\
    (forall p, vadd o (vadd (vscale (px (project_local p o x y)) x) (vscale (py (project_local p o x y)) y)) = p).
Proof.
  intros [ox oy] [xx xy] [yx yy]. unfold unit, dot. cbn [px py]. unR. intros U1 U2 U3. split.
  - intros a b. apply pt_ext; unfold project_local, dot; cbn [vadd vsub vscale px py]; unR.
    + transitivity (a * (xx * xx + xy * xy) + b * (xx * yx + xy * yy)); [ring|]. rewrite U1, U3. ring.
    + transitivity (a * (xx * yx + xy * yy) + b * (yx * yx + yy * yy)); [ring|]. rewrite U2, U3. ring.
  - intros [p q]. set (d := xx * yy - xy * yx).
    assert (d * d = 1) as D. { transitivity ((xx * xx + xy * xy) * (yx * yx + yy * yy) - (xx * yx + xy * yy) * (xx * yx + xy * yy)); [unfold d; ring|]. rewrite U1, U2, U3. ring. }
    (* y is d times x turned *)
    assert (yx = - d * xy) as Y1. { transitivity (yx * (xx * xx + xy * xy) - xx * (xx * yx + xy * yy)); [rewrite U1, U3; ring|]. unfold d. ring. }
    assert (yy = d * xx) as Y2. { transitivity (yy * (xx * xx + xy * xy) - xy * (xx * yx + xy * yy)); [rewrite U1, U3; ring|]. unfold d. ring. }
    clearbody d. rewrite Y1, Y2. apply pt_ext; unfold project_local, dot; cbn [vadd vsub vscale px py]; unR.
    + transitivity (ox + (p - ox) * (xx * xx + (d * d) * (xy * xy)) + (q - oy) * (xx * xy - (d * d) * (xx * xy))); [ring|]. rewrite D. transitivity (ox + (p - ox) * (xx * xx + xy * xy)); [ring|]. rewrite U1. ring.
    + transitivity (oy + (q - oy) * (xy * xy + (d * d) * (xx * xx)) + (p - ox) * (xx * xy - (d * d) * (xx * xy))); [ring|]. rewrite D. transitivity (oy + (q - oy) * (xx * xx + xy * xy)); [ring|]. rewrite U1. ring.
Qed.
Print Assumptions C43_project_local.
Lemma unit_deriv (X Y : R -> R) (t dx dy : R) : is_derive X t dx -> is_derive Y t dy -> 0 < X t * X t + Y t * Y t -> let m := sqrt (X t * X t + Y t * Y t) in
  is_derive (fun t => X t * (1 / sqrt (X t * X t + Y t * Y t))) t ((dx - X t / m * (X t / m * dx + Y t / m * dy)) / m).
Proof.
  intros Dx Dy P m. assert (m * m = X t * X t + Y t * Y t) as M by (apply sqrt_sqrt; lra). assert (m <> 0) as N by (intros E; rewrite E in M; lra).
  pose proof (is_derive_unique _ _ _ Dx) as Ux. pose proof (is_derive_unique _ _ _ Dy) as Uy.
  assert (ex_derive X t) as Ex by (eexists; exact Dx). assert (ex_derive Y t) as Ey by (eexists; exact Dy). 
  auto_derive; [repeat split; auto|]. fold m. change (Derive (fun x => X x) t) with (Derive X t). change (Derive (fun x => Y x) t) with (Derive Y t). rewrite Ux, Uy. field_simplify_eq; [|exact N].
  assert (m ^ 2 = X t * X t + Y t * Y t) as M2 by (rewrite <- M; ring). rewrite !M2. ring.
Qed.
(** A unit vector and its derivative, for every differentiable vector function that does not vanish. *)
Theorem C43_normalize :
  forall (f : R -> @pt RA) (t : R) (df : @pt RA), vderive f t df -> @magnitude RA (f t) <> 0 ->
    unit (fst (normalize_with_derivative (f t) df)) /\ fst (normalize_with_derivative (f t) df) = normalize (f t) /\ vderive (fun t => normalize (f t)) t (snd (normalize_with_derivative (f t) df)).
Proof.
  intros f t df (Dx & Dy) N. pose proof (mag_sq (f t)) as M. pose proof (mag_pos (f t)) as Mp. set (m := @magnitude RA (f t)) in *.
  assert (fst (normalize_with_derivative (f t) df) = normalize (f t)) as E.
  { unfold normalize_with_derivative, normalize, normalize_to, n1. cbn [fst]. fold m. apply pt_ext; cbn [vdiv vmul px py]; unR; field; exact N. }
  split; [|split; [exact E|]].
  - rewrite E. unfold unit, normalize, normalize_to, n1. fold m. cbn [vmul px py]. unR. replace (px (f t) * (1 / m) * (px (f t) * (1 / m)) + py (f t) * (1 / m) * (py (f t) * (1 / m))) with ((px (f t) * px (f t) + py (f t) * py (f t)) / (m * m)) by (field; exact N). rewrite <- M. field. exact N.
  - assert (m = sqrt (px (f t) * px (f t) + py (f t) * py (f t))) as Em by reflexivity.
    assert (0 < px (f t) * px (f t) + py (f t) * py (f t)) as Pos by (rewrite <- M; nra).
    apply is_derive_Reals in Dx, Dy. pose proof (is_derive_unique _ _ _ Dx) as Ux. pose proof (is_derive_unique _ _ _ Dy) as Uy.
    assert (ex_derive (fun t => px (f t) : R) t) as Ex by (eexists; exact Dx). assert (ex_derive (fun t => py (f t) : R) t) as Ey by (eexists; exact Dy).
    unfold normalize_with_derivative. cbn [snd]. fold m. unfold normalize, normalize_to, magnitude, magnitude2, dot, n1 in *. cbn [vdiv vmul vsub px py] in *. unR.
    split; apply is_derive_Reals.
    + exact (unit_deriv _ _ t _ _ Dx Dy Pos).
    + pose proof (unit_deriv _ _ t _ _ Dy Dx) as K. cbv beta in K. rewrite (Rplus_comm (py (f t) * py (f t))) in K. specialize (K Pos). cbv zeta in K.
      rewrite <- Em in K. rewrite (Rplus_comm (py (f t) / m * py df)) in K. eapply is_derive_ext; [|exact K]. intros u. cbv beta. rewrite Rplus_comm. reflexivity.
Qed.
Print Assumptions C43_normalize.
Example C43_example : unit (@Pt RA (3/5) (4/5)) /\ unit (@Pt RA (-4/5) (3/5)) /\ dot (@Pt RA (3/5) (4/5)) (@Pt RA (-4/5) (3/5)) = 0 /\
  vderive (fun t => @Pt RA 1 t) 2 (@Pt RA 0 1) /\ @magnitude RA (@Pt RA 1 2) <> 0.
Proof.
  unfold unit, dot. cbn [px py]. unR. split; [lra|]. split; [lra|]. split; [lra|]. split; [split; cbn [px py]; apply is_derive_Reals; auto_derive; auto|].
  intros E. apply mag_0 in E. cbn [px py] in E. lra.
Qed.
