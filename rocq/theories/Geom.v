(** * Points, vectors, cubic functions and curves: src/math/** and the cgmath operations used. *)
From Coq Require Import List Arith ZArith Bool.
From Verif Require Import Arith Base Util.
Import ListNotations.

Section Geom.
  Context {A : Arith}.
  Local Open Scope num_scope.

  (** [Point2d] and [Vector2d] (math.rs:15-18) share one type here. *)
  Record pt := Pt { px : num; py : num }.

  (** cgmath operations *)
  Definition vadd (a b : pt) : pt := Pt (px a + px b) (py a + py b).
  Definition vsub (a b : pt) : pt := Pt (px a - px b) (py a - py b).
  Definition vscale (k : num) (a : pt) : pt := Pt (k * px a) (k * py a).      (* k * v *)
  Definition vmul (a : pt) (k : num) : pt := Pt (px a * k) (py a * k).        (* v * k *)
  Definition vdiv (a : pt) (k : num) : pt := Pt (px a / k) (py a / k).
  Definition dot (a b : pt) : num := px a * px b + py a * py b.
  Definition perp_dot (a b : pt) : num := px a * py b - py a * px b.
  Definition magnitude2 (a : pt) : num := dot a a.
  Definition magnitude (a : pt) : num := nsqrt (magnitude2 a).
  Definition normalize_to (a : pt) (m : num) : pt := vmul a (m / magnitude a).
  Definition normalize (a : pt) : pt := normalize_to a n1.
  Definition distance (a b : pt) : num := magnitude (vsub b a).
  Definition vlerp (a b : pt) (t : num) : pt := vadd a (vmul (vsub b a) t).
  Definition vzero : pt := Pt n0 n0.

  (** math/util.rs:11-19 *)
  Definition project_local (p origin x_axis y_axis : pt) : pt :=
    let p := vsub p origin in Pt (dot p x_axis) (dot p y_axis).

  (** math/util.rs:22-24 *)
  Definition rot90 (v : pt) : pt := Pt (- py v) (px v).

  (** math/util.rs:35-40 *)
  Definition normalize_with_derivative (v dv : pt) : pt * pt :=
    let mag := magnitude v in
    let s := vdiv v mag in
    let ds := vdiv (vsub dv (vmul s (dot s dv))) mag in
    (s, ds).

  (** ** math/cubic.rs *)
  (** cubic.rs:9-12 *)
  Record cubic := Cubic { cb_a : num; cb_b : num; cb_c : num; cb_d : num; cb_offset : num }.

  (** cubic.rs:16-21 *)
  Definition cubic_constant (y : num) : cubic := Cubic n0 n0 n0 y n0.

  (** cubic.rs:25-35 *)
  Definition cubic_fit (x1 y1 dydx1 x2 y2 dydx2 : num) : cubic :=
    let w := x2 - x1 in
    let a := n2 * y1 - n2 * y2 + w * dydx1 + w * dydx2 in
    let b := nofZ (-3) * y1 + nofZ 3 * y2 - n2 * w * dydx1 - w * dydx2 in
    let c := w * dydx1 in
    let d := y1 in
    Cubic (a * powi_m3 w) (b * powi_m2 w) (c * powi_m1 w) d (- x1).

  (** cubic.rs:38-43 *)
  Definition cubic_translate_x (f : cubic) (amount : num) : cubic :=
    Cubic (cb_a f) (cb_b f) (cb_c f) (cb_d f) (cb_offset f + amount).

  (** cubic.rs:56-64 *)
  Definition cubic_y_and_dy (f : cubic) (x : num) : num * num :=
    let x := x + cb_offset f in
    (cb_a f * x * x * x + cb_b f * x * x + cb_c f * x + cb_d f,
     cb_a f * nofZ 3 * x * x + cb_b f * n2 * x + cb_c f).
  (** cubic.rs:46-53 *)
  Definition cubic_y (f : cubic) (x : num) : num := fst (cubic_y_and_dy f x).
  Definition cubic_dy (f : cubic) (x : num) : num := snd (cubic_y_and_dy f x).

  (** ** math/curve.rs: the trait [ParametricCurve2d] as a record of functions.
      A user-supplied curve is an arbitrary value of this type. *)
  Record curve := Curve {
    c_sample : num -> pt;
    c_bounds : interval;
    c_dt : num -> pt;
    c_dt2 : num -> pt
  }.

  (** curve.rs:21-26 default [sample_dt] *)
  Definition default_dt (sample : num -> pt) (bounds : interval) (t : num) : pt :=
    let delta := i_length bounds * lit 1 10000 in
    vdiv (vsub (sample (t + delta)) (sample t)) delta.

  (** curve.rs:32-37 default [sample_dt2]: the same difference quotient of [sample_dt] *)
  Definition default_dt2 (dt : num -> pt) (bounds : interval) (t : num) : pt :=
    default_dt dt bounds t.

  (** ** math/curve/bezier.rs *)
  (** bezier.rs:9-13 *)
  Record lineseg := LineSeg { ls_start : pt; ls_tangent : pt; ls_length : num }.
  (** bezier.rs:17-29 *)
  Definition ls_from_ends (start end_ : pt) : lineseg :=
    let diff := vsub end_ start in
    let len := magnitude diff in
    let tangent := vdiv diff len in
    let tangent := if nnan (px tangent) then vzero else tangent in
    LineSeg start tangent len.
  (** bezier.rs:37-39 *)
  Definition ls_end (l : lineseg) : pt := vadd (ls_start l) (vscale (ls_length l) (ls_tangent l)).
  (** bezier.rs:43-45 *)
  Definition ls_sample (l : lineseg) (t : num) : pt := vadd (ls_start l) (vscale t (ls_tangent l)).
  (** bezier.rs:42-54 *)
  Definition ls_curve (l : lineseg) : curve :=
    let b := Itv n0 (ls_length l) in
    let dt := fun _ => ls_tangent l in
    Curve (ls_sample l) b dt (default_dt2 dt b).

  (** bezier.rs:59-61 *)
  Record qbez := QBez { q0 : pt; q1 : pt; q2 : pt }.
  (** bezier.rs:71-78 *)
  Definition qb_sample (q : qbez) (t : num) : pt :=
    let t1 := n1 - t in
    vadd (vadd (vscale (t1 * t1) (q0 q)) (vscale (n2 * t1 * t) (q1 q))) (vscale (t * t) (q2 q)).
  (** bezier.rs:84-89 *)
  Definition qb_dt (q : qbez) (t : num) : pt :=
    let t1 := n1 - t in
    vadd (vadd (vscale (nofZ (-2) * t1) (q0 q)) (vscale (n2 - nofZ 4 * t) (q1 q)))
         (vscale (n2 * t) (q2 q)).
  (** bezier.rs:91-94 *)
  Definition qb_dt2 (q : qbez) (_ : num) : pt :=
    vadd (vsub (vscale n2 (q0 q)) (vscale (nofZ 4) (q1 q))) (vscale n2 (q2 q)).
  Definition qb_curve (q : qbez) : curve :=
    Curve (qb_sample q) (Itv n0 n1) (qb_dt q) (qb_dt2 q).

  (** bezier.rs:99-101 *)
  Record cbez := CBez { b0 : pt; b1 : pt; b2 : pt; b3 : pt }.
  (** bezier.rs:110-117 *)
  Definition cb_line (s e : pt) : cbez :=
    CBez s (vlerp s e (lit 1 3)) (vlerp s e (lit 2 3)) e.
  (** bezier.rs:121-129 *)
  Definition cb_quadratic (p0 p1 p2 : pt) : cbez :=
    CBez p0 (vadd p0 (vscale (lit 2 3) (vsub p1 p0)))
            (vadd p2 (vscale (lit 2 3) (vsub p1 p2))) p2.
  (** bezier.rs:132-144 *)
  Definition cb_subdivide (c : cbez) (t : num) : cbez * cbez :=
    let p10 := vlerp (b0 c) (b1 c) t in
    let p11 := vlerp (b1 c) (b2 c) t in
    let p12 := vlerp (b2 c) (b3 c) t in
    let p20 := vlerp p10 p11 t in
    let p21 := vlerp p11 p12 t in
    let p30 := vlerp p20 p21 t in
    (CBez (b0 c) p10 p20 p30, CBez p30 p21 p12 (b3 c)).
  (** bezier.rs:148-150 *)
  Definition cb_reverse (c : cbez) : cbez := CBez (b3 c) (b2 c) (b1 c) (b0 c).
  (** bezier.rs:154-162 *)
  Definition cb_sample (c : cbez) (t : num) : pt :=
    let t1 := n1 - t in
    vadd (vadd (vadd (vscale (t1 * t1 * t1) (b0 c))
                     (vscale (nofZ 3 * t1 * t1 * t) (b1 c)))
               (vscale (nofZ 3 * t1 * t * t) (b2 c)))
         (vscale (t * t * t) (b3 c)).
  (** bezier.rs:168-174 *)
  Definition cb_dt (c : cbez) (t : num) : pt :=
    let t1 := n1 - t in
    vadd (vadd (vadd (vscale (nofZ (-3) * t1 * t1) (b0 c))
                     (vscale (nofZ 9 * t * t - nofZ 12 * t + nofZ 3) (b1 c)))
               (vscale (nofZ (-9) * t * t + nofZ 6 * t) (b2 c)))
         (vscale (nofZ 3 * t * t) (b3 c)).
  Definition cb_curve (c : cbez) : curve :=
    let b := Itv n0 n1 in
    Curve (cb_sample c) b (cb_dt c) (default_dt2 (cb_dt c) b).

  (** ** math/curve/algorithms.rs *)

  (** [Iterator::min_by] with [partial_cmp(..).unwrap()] on the second component:
      the first of several minima; a NaN makes the comparison panic. *)
  Fixpoint min_by_snd {X} (best : X * num) (l : list (X * num)) : res (X * num) :=
    match l with
    | [] => Ok best
    | y :: l => if nnan (snd best) || nnan (snd y) then Panic PNanCompare
                else min_by_snd (if snd y <? snd best then y else best) l
    end.

  (** algorithms.rs:15-22 initial guess: the best of nine evenly spaced samples *)
  Definition initial_guess (c : curve) (point : pt) : res num :=
    let cand i := let t := i_lerp (c_bounds c) (nofZ (Z.of_nat i) / nofZ 8) in
                  (t, magnitude (vsub point (c_sample c t))) in
    bind (min_by_snd (cand O) (map cand (seq 1 8))) (fun b => Ok (fst b)).

  (** algorithms.rs:26-33: at most [n] Newton corrections *)
  Fixpoint newton (c : curve) (point : pt) (max_error : num) (n : nat) (t : num) : option num :=
    match n with
    | O => None
    | S n =>
        let p := c_sample c t in
        let p_dt := c_dt c t in
        let error := dot p_dt (vsub point p) / magnitude p_dt in
        let t := t + error in
        if (nabs error <? max_error) || negb (i_contains (c_bounds c) t) then Some t
        else newton c point max_error n t
    end.

  (** algorithms.rs:6-36 *)
  Definition project_point_onto_curve (c : curve) (point : pt) (max_error : num)
      (t0 : option num) : res (option num) :=
    bind (match t0 with Some t => Ok t | None => initial_guess c point end)
         (fun t => Ok (newton c point max_error 64 t)).

  (** algorithms.rs:39-61; the [while] loop is cut off after [fuel] rounds *)
  Fixpoint intersect_loop (fuel : nat) (c1 c2 : curve) (pos1 : num) (pos2 : option num)
      : res (option (num * num)) :=
    match fuel with
    | O => OutOfFuel
    | S fuel =>
        if pos1 <? i_max (c_bounds c1) then
          let point1 := c_sample c1 pos1 in
          bind (project_point_onto_curve c2 point1 (lit 1 10) pos2) (fun pos2 =>
            match pos2 with
            | Some p2 =>
                let d := distance point1 (c_sample c2 p2) in
                if d <? lit 1 100 then Ok (Some (pos1, p2))
                else intersect_loop fuel c1 c2 (pos1 + d) pos2
            | None => intersect_loop fuel c1 c2 (pos1 + n1) pos2
            end)
        else Ok None
    end.
  Definition intersect_curves (fuel : nat) (c1 c2 : curve) : res (option (num * num)) :=
    intersect_loop fuel c1 c2 (i_min (c_bounds c1)) None.

  (** algorithms.rs:64-118.  State of the search for the next point. *)
  Record eqst := EqSt {
    e_ts : interval;            (* ts *)
    e_ps : pt * pt;             (* ps *)
    e_dists : interval;         (* dists *)
    e_points : list pt;         (* points, latest first *)
    e_last : pt                 (* last_p *)
  }.

  (** algorithms.rs:79-105: the inner loop of at most [n] bisection rounds *)
  Fixpoint eq_inner (c : curve) (dist : num) (end_t : num) (end_p : pt) (n : nat) (s : eqst) : eqst :=
    match n with
    | O => s
    | S n =>
        let new_t := i_lerp (e_ts s) (i_inv_lerp (e_dists s) dist) in
        let new_p := c_sample c new_t in
        let new_dist := magnitude (vsub new_p (e_last s)) in
        let f := new_dist / dist in
        if f <? lit 99 100 then
          eq_inner c dist end_t end_p n
            (EqSt (Itv new_t (i_max (e_ts s))) (new_p, snd (e_ps s))
                  (Itv new_dist (i_max (e_dists s))) (e_points s) (e_last s))
        else if f >? lit 101 100 then
          eq_inner c dist end_t end_p n
            (EqSt (Itv (i_min (e_ts s)) new_t) (fst (e_ps s), new_p)
                  (Itv (i_min (e_dists s)) new_dist) (e_points s) (e_last s))
        else
          EqSt (Itv new_t end_t) (new_p, end_p)
               (Itv n0 (magnitude (vsub end_p new_p))) (new_p :: e_points s) new_p
    end.

  (** algorithms.rs:78-106: the outer loop, cut off after [fuel] rounds *)
  Fixpoint eq_outer (fuel : nat) (c : curve) (dist : num) (end_t : num) (end_p : pt) (s : eqst) : res eqst :=
    match fuel with
    | O => OutOfFuel
    | S fuel =>
        if i_max (e_dists s) >? dist
        then eq_outer fuel c dist end_t end_p (eq_inner c dist end_t end_p 100 s)
        else Ok s
    end.

  (** algorithms.rs:64-118 *)
  Definition equidistant_points_along_curve (fuel : nat) (c : curve) (dist : num) : res (list pt * num) :=
    let end_ts := c_bounds c in
    let sp := c_sample c (i_min end_ts) in
    let ep := c_sample c (i_max end_ts) in
    bind (eq_outer fuel c dist (i_max end_ts) ep
            (EqSt end_ts (sp, ep) (Itv n0 (magnitude (vsub ep sp))) [sp] sp))
      (fun s =>
         let last_point := hd sp (e_points s) in
         let end_vec := vsub (snd (e_ps s)) last_point in
         let end_magnitude := magnitude end_vec in
         let length_ := nofZ (Z.of_nat (length (e_points s) - 1)) * dist in
         if end_magnitude >? lit 1 1000 * dist
         then Ok (rev (vadd last_point (normalize_to end_vec dist) :: e_points s), length_ + end_magnitude)
         else Ok (rev (e_points s), length_)).

  (** algorithms.rs:139-159 [SubdividedSamples]; the stack has its top first *)
  Definition sub_stack (c : curve) : list (num * pt) :=
    let min := i_min (c_bounds c) in
    let max := i_max (c_bounds c) in
    let mid := nhalf * (min + max) in
    [(min, c_sample c min); (mid, c_sample c mid); (max, c_sample c max)].

  (** algorithms.rs:167-171: the [while] loop pushing mid points *)
  Fixpoint sub_push (fuel : nat) (c : curve) (length2 : num) (t1 : num) (p1 : pt)
      (t2 : num) (p2 : pt) (stack : list (num * pt)) : res (list (num * pt)) :=
    match fuel with
    | O => OutOfFuel
    | S fuel =>
        if magnitude2 (vsub p2 p1) >? length2 then
          let mid_t := nhalf * (t1 + t2) in
          let mid_p := c_sample c mid_t in
          sub_push fuel c length2 t1 p1 mid_t mid_p ((mid_t, mid_p) :: stack)
        else Ok stack
    end.

  (** algorithms.rs:164-174: one call of [next] *)
  Definition sub_next (fuel : nat) (c : curve) (length2 : num) (stack : list (num * pt))
      : res (option ((num * pt) * list (num * pt))) :=
    match stack with
    | [] => Ok None
    | (t1, p1) :: rest =>
        match rest with
        | [] => Ok (Some ((t1, p1), []))
        | (t2, p2) :: _ =>
            bind (sub_push fuel c length2 t1 p1 t2 p2 rest) (fun st => Ok (Some ((t1, p1), st)))
        end
    end.

  (** algorithms.rs:121-136: collecting the iterator *)
  Fixpoint sub_collect (fuel : nat) (c : curve) (length2 : num) (stack : list (num * pt))
      : res (list (num * pt)) :=
    match fuel with
    | O => OutOfFuel
    | S fuel' =>
        bind (sub_next fuel c length2 stack) (fun o =>
          match o with
          | None => Ok []
          | Some (x, st) => bind (sub_collect fuel' c length2 st) (fun l => Ok (x :: l))
          end)
    end.
  Definition subdivided_samples_along_curve (fuel : nat) (c : curve) (max_length : num) : res (list (num * pt)) :=
    sub_collect fuel c (powi2 max_length) (sub_stack c).
  Definition subdivided_points_along_curve (fuel : nat) (c : curve) (max_length : num) : res (list pt) :=
    bind (subdivided_samples_along_curve fuel c max_length) (fun l => Ok (map snd l)).

  (** ** link/curve.rs *)
  (** link/curve.rs:8-12 *)
  Record link_curve := LinkCurve { lc_scale : num; lc_length : num; lc_segments : list qbez }.

  (** link/curve.rs:36-41: make the number of points odd *)
  Definition make_odd (points : list pt) : list pt :=
    if Nat.even (length points) then
      match rev points with
      | p2 :: p1 :: _ => points ++ [vlerp p1 p2 n2]
      | _ => points
      end
    else points.

  (** link/curve.rs:47-51: the segment through three consecutive points *)
  Definition mk_segment (p1 p2 p3 : pt) : qbez :=
    let mid := vlerp p1 p3 nhalf in
    QBez p1 (vlerp p2 mid (nofZ (-1))) p3.

  (** link/curve.rs:43-52: [windows(3).step_by(2)] *)
  Fixpoint segments_of (points : list pt) : list qbez :=
    match points with
    | p1 :: ((p2 :: ((p3 :: _) as tl)) as _tl) => mk_segment p1 p2 p3 :: segments_of tl
    | _ => []
    end.

  (** link/curve.rs:32-61 *)
  Definition lc_with_step (fuel : nat) (c : curve) (step : num) : res link_curve :=
    bind (equidistant_points_along_curve fuel c step) (fun pl =>
      let segments := segments_of (make_odd (fst pl)) in
      match segments with
      | [] => Panic PNoSegments
      | _ => Ok (LinkCurve (nhalf / step) (snd pl) segments)
      end).

  (** link/curve.rs:25-28 *)
  Definition lc_new (fuel : nat) (c : curve) : res link_curve := lc_with_step fuel c nhalf.

  (** link/curve.rs:131-143; [get_unchecked] out of range is [PUnchecked] *)
  Definition lc_sample_index (lc : link_curve) (pos : num) : nat :=
    Nat.min (Z.to_nat (ncast u32_max (pos * lc_scale lc))) (length (lc_segments lc) - 1).
  Definition lc_sample_internal (lc : link_curve) (pos : num) : res (qbez * num) :=
    let idx := lc_sample_index lc pos in
    bind (of_option PUnchecked (nth_error (lc_segments lc) idx))
         (fun seg => Ok (seg, pos * lc_scale lc - nofZ (Z.of_nat idx))).

  (** The segments of a constructed curve are never empty; this total version is used by the
      parts of the model that read a curve ([lc_sample_internal_total] in P_Curve.v shows it
      agrees with [lc_sample_internal] whenever there is a segment). *)
  Definition lc_seg (lc : link_curve) (pos : num) : qbez * num :=
    let idx := lc_sample_index lc pos in
    (nth idx (lc_segments lc) (QBez vzero vzero vzero), pos * lc_scale lc - nofZ (Z.of_nat idx)).

  (** link/curve.rs:15-20 [LinkSample] *)
  Record lsample := LSample { sm_pos : pt; sm_tan : pt }.

  (** link/curve.rs:119-124 *)
  Definition sample_centre (lc : link_curve) (pos : num) : lsample :=
    let '(seg, t) := lc_seg lc pos in
    LSample (qb_sample seg t) (normalize (qb_dt seg t)).

  (** link/curve.rs:73-89 *)
  Definition lc_sample (lc : link_curve) (pos offset : num) : lsample :=
    let '(seg, t) := lc_seg lc pos in
    let c := qb_sample seg t in
    let tan := normalize (qb_dt seg t) in
    let p := rot90 tan in
    LSample (vadd c (vmul p offset)) tan.

  (** link/curve.rs:146-165: a link curve is itself a parametric curve *)
  Definition lc_curve (lc : link_curve) : curve :=
    Curve (fun t => let '(seg, t) := lc_seg lc t in qb_sample seg t)
          (Itv n0 (lc_length lc))
          (fun t => let '(seg, t) := lc_seg lc t in qb_dt seg t)
          (fun t => let '(seg, t) := lc_seg lc t in qb_dt2 seg t).

  (** link/curve.rs:92-113 *)
  Definition inverse_sample (lc : link_curve) (point tangent : pt) : res (option (num * num * num)) :=
    bind (project_point_onto_curve (lc_curve lc) point (lit 1 1000) None) (fun o =>
      match o with
      | None => Ok None
      | Some pos =>
          let '(seg, t) := lc_seg lc pos in
          let c := qb_sample seg t in
          let c_dp := qb_dt seg t in
          let c_dp2 := qb_dt2 seg t in
          let '(tn, t_dp) := normalize_with_derivative c_dp c_dp2 in
          let p := rot90 tn in
          let p_dp := rot90 t_dp in
          let offset := dot (vsub point c) p in
          let slope := (- perp_dot (vadd c_dp (vmul p_dp offset)) tangent) / perp_dot p tangent in
          Ok (Some (pos, offset, slope))
      end).

  (** link/curve.rs:168-174 *)
  Definition lat_offset (s : lsample) (lat : num) : pt := vadd (sm_pos s) (vmul (rot90 (sm_tan s)) lat).
  Definition long_offset (s : lsample) (long : num) : pt := vadd (sm_pos s) (vmul (sm_tan s) long).
End Geom.
