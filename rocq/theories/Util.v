(** * src/util.rs and src/math/lut.rs *)
From Coq Require Import List Arith ZArith Bool.
From Verif Require Import Arith Base.
Import ListNotations.

Section Util.
  Context {A : Arith}.
  Local Open Scope num_scope.

  (** util.rs:18-23 [Interval] *)
  Record interval := Itv { i_min : num; i_max : num }.

  (** util.rs:34-36 *)
  Definition i_overlaps (a b : interval) : bool :=
    (i_max a >? i_min b) && (i_max b >? i_min a).
  (** util.rs:39-41 *)
  Definition i_contains (a : interval) (v : num) : bool :=
    (v >=? i_min a) && (v <=? i_max a).
  (** util.rs:46-48 *)
  Definition i_length (a : interval) : num := i_max a - i_min a.
  (** util.rs:53-55 [as_array] *)
  Definition i_as_array (a : interval) : num * num := (i_min a, i_max a).
  (** util.rs:60-65 *)
  Definition i_disc (c r : num) : interval := Itv (c - r) (c + r).
  (** util.rs:68-70 *)
  Definition i_midpoint (a : interval) : num := nhalf * (i_min a + i_max a).
  (** util.rs:74-76.  [T::max] for [T: num_traits::Float] is [f64::max]. *)
  Definition i_clearance_with (a b : interval) : num :=
    nmax (i_min b - i_max a) (i_min a - i_max b).
  (** util.rs:80-82 *)
  Definition i_distance (a : interval) (x : num) : num :=
    nmax (x - i_max a) (i_min a - x).
  (** util.rs:86-88 *)
  Definition i_lerp (a : interval) (t : num) : num := i_min a + t * (i_max a - i_min a).
  (** util.rs:92-94 *)
  Definition i_inv_lerp (a : interval) (v : num) : num :=
    (v - i_min a) / (i_max a - i_min a).
  (** util.rs:97-106, 108-117 *)
  Definition i_add (a : interval) (x : num) : interval := Itv (i_min a + x) (i_max a + x).
  Definition i_sub (a : interval) (x : num) : interval := Itv (i_min a - x) (i_max a - x).

  (** math/lut.rs:6-10 [LookupTable] *)
  Record lut (T : Type) := Lut { lut_offset : num; lut_step : num; lut_values : list T }.
  Arguments Lut {T}. Arguments lut_offset {T}. Arguments lut_step {T}. Arguments lut_values {T}.

  (** math/lut.rs:14-24 *)
  Definition lut_from_samples {T} (range : interval) (step : num) (f : num -> T) : lut T :=
    let offset := i_min range in
    let n := Z.to_nat (ncast usize_max (nceil (i_length range / step))) in
    Lut offset step
      (map (fun i => f (offset + (nofZ (Z.of_nat i) + nhalf) * step)) (seq 0 n)).

  (** math/lut.rs:27-31 *)
  Definition lut_sample {T} (l : lut T) (x : num) : res T :=
    let idx := (x - lut_offset l) / lut_step l in
    match length (lut_values l) with
    | O => Panic PEmptyTable
    | S n => of_option PIndex
               (nth_error (lut_values l) (Nat.min (Z.to_nat (ncast u32_max idx)) n))
    end.
End Util.
Arguments Lut {A T}. Arguments lut_offset {A T}. Arguments lut_step {A T}. Arguments lut_values {A T}.
Arguments interval {A}. Arguments Itv {A}.

(** util.rs:125-129 [rotated_range] (usize overflow of [i + start] ignored). *)
Definition rotated_range (count start : nat) : list nat :=
  map (fun i => if Nat.leb count i then i - count else i)
      (map (fun i => i + start) (seq 0 count)).
