(** * Tables of positions between lanes: what property C67 talks about *)
From Coq Require Import List Bool ZArith NArith Arith.
From Verif Require Import Arith Base SlotMap Util Geom Light Accel Net Path Vehicle LinkOps Sim SpecSim SpecMotion.
Import ListNotations.

Section SpecTable.
  Context {A : Arith}.

  (** The point on the centre line of a link at [pos]. *)
  Definition centre_at (l : link) (pos : num) : pt := sm_pos (sample_centre (lk_curve l) pos).
  (** How far [point] is to the left of the centre line of [l], seen from position [pos]. *)
  Definition left_of (l : link) (pos : num) (point : pt) : num :=
    let m := sample_centre (lk_curve l) pos in
    nadd (nmul (nsub (px point) (px (sm_pos m))) (nneg (py (sm_tan m)))) (nmul (nsub (py point) (py (sm_pos m))) (px (sm_tan m))).
  (** The [i]-th position, every two metres, at which a lane is projected to another one. *)
  Definition mark (i : nat) : num := nmul n2 (nofZ (Z.of_nat i)).
  (** What the search for [point] on the centre line of [l] finds, to 0.1 m, from the position [start]. *)
  Definition found_from (l : link) (point : pt) (start : num) : res (option num) :=
    project_point_onto_curve (lc_curve (lk_curve l)) point (lit 1 10) (Some start).

  (** [t] lists, for the marks of [src] in order, the positions on [dst] beside them and how far they are to
      the left of [dst] there; every search starts where the last one ended.  It ends with the last mark before the end of [src], or
      with the last one that was found. *)
  Definition good_table (src dst : link) (t : list psample) : Prop :=
    (forall i e, nth_error t i = Some e -> nltb (mark i) (lk_length src) = true /\
       found_from dst (centre_at src (mark i)) (match i with O => n0 | S j => match nth_error t j with Some e' => ps_pos e' | None => n0 end end) = Ok (Some (ps_pos e)) /\
       ps_lat e = left_of dst (ps_pos e) (centre_at src (mark i))) /\
    (nltb (mark (length t)) (lk_length src) = false \/
     found_from dst (centre_at src (mark (length t))) (match length t with O => n0 | S j => match nth_error t j with Some e' => ps_pos e' | None => n0 end end) = Ok None).
End SpecTable.
