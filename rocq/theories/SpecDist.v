(** * How far a vehicle gets: what property C68 talks about *)
From Coq Require Import List Bool ZArith NArith Arith.
From Verif Require Import Arith Base SlotMap Util Geom Light Accel Net Path Vehicle LinkOps Sim SpecSim.
Import ListNotations.

Section SpecDist.
  Context {A : Arith}.

  (** A length in tenths of a metre, as an unsigned 32-bit number. *)
  Definition tenths (x : num) : Z := ncast u32_max (nmul (nofZ 10) x).

  (** [gets links t i k x]: from the start of link [k] one can get [x] tenths of a metre further with at most [i] lane changes.  At the
      destination [t] one can go on without end.  Otherwise one can drive to the end of the link and stop there, or go on to a following
      link, or change to a permitted lane at once. *)
  Inductive gets (links : linkset) (t : key) : nat -> key -> Z -> Prop :=
  | gets_there i : gets links t i t u32_max
  | gets_end i k l : sm_get links k = Some l -> gets links t i k (tenths (lk_length l))
  | gets_on i k l o x : sm_get links k = Some l -> In o (lk_out l) -> gets links t i o x ->
      gets links t i k (Z.min (x + tenths (lk_length l)) u32_max)
  | gets_change i k o x : chg_of links k o -> gets links t i o x -> gets links t (S i) k x.

  (** The path [p], starting [d] metres ahead, ends with link [k], which starts [x] metres ahead. *)
  Inductive ahead (links : linkset) : num -> list key -> key -> num -> Prop :=
  | ahead_last d k : ahead links d [k] k d
  | ahead_on d a l p k x : sm_get links a = Some l -> ahead links (nadd d (lk_length l)) p k x -> ahead links d (a :: p) k x.
End SpecDist.
