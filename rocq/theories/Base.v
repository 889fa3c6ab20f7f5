(** * Results: panics and non-termination are explicit values. *)
From Coq Require Import List Bool ZArith Arith.
Import ListNotations.

(** Reasons for a panic (or, for [PUnchecked], undefined behaviour) of the Rust code.
    Overflow checks are those of a debug build. *)
Inductive panic :=
| PBadLink           (* slotmap index with an unknown LinkId: "invalid SlotMap key used" *)
| PBadVehicle        (* slotmap index with an unknown VehicleId *)
| PEmptyRoute        (* route[0] / link_id().unwrap() on an empty route; path.links[0] *)
| PUnderflow         (* usize subtraction below zero (other than the cases named below) *)
| PUnreachable       (* unreachable!() *)
| PIndex             (* a Vec/slice/array index out of range *)
| PUnchecked         (* get_unchecked out of range: undefined behaviour *)
| PNoPhase           (* light.rs:130/145 phases[phase] on an empty phase list *)
| PShift             (* shift amount >= bit width: light.rs:135/147/165, group.rs:151 *)
| PGroupSmall        (* group.rs:47 *)
| PNotInGroup        (* group.rs:86/92/93 expect, link.rs:147/158/560 unwrap *)
| PLaneChangesFull   (* link.rs:181 push on a full ArrayVec<_, 2> *)
| PPathFull          (* push on a full ArrayVec<_, 8> *)
| PNoSegments        (* link/curve.rs:54 assert *)
| PProjection        (* simulation.rs:387 inverse_sample(..).unwrap() *)
| PNanCompare        (* partial_cmp(..).unwrap() on a NaN *)
| PEmptySamples      (* group.rs:185 samples.len() - 1 on an empty table *)
| PEmptyTable        (* math/lut.rs:29 values.len() - 1 on an empty table *)
| POverflow.         (* usize addition overflow in route costs *)

Inductive res (X : Type) :=
| Ok (x : X)
| Panic (p : panic)
| OutOfFuel.          (* the loop or recursion was cut off: it may not terminate *)
Arguments Ok {X} x.
Arguments Panic {X} p.
Arguments OutOfFuel {X}.

Definition bind {X Y} (r : res X) (f : X -> res Y) : res Y :=
  match r with
  | Ok x => f x
  | Panic p => Panic p
  | OutOfFuel => OutOfFuel
  end.

Declare Scope res_scope.
Delimit Scope res_scope with res.
Notation "'let*' x ':=' e 'in' f" := (bind e (fun x => f))
  (at level 200, x pattern, e at level 200, f at level 200, right associativity) : res_scope.

Definition of_option {X} (p : panic) (o : option X) : res X :=
  match o with Some x => Ok x | None => Panic p end.

(** Fold of a partial function over a list: a [for] loop with early exit on panic. *)
Fixpoint foldM {S X} (f : S -> X -> res S) (l : list X) (s : S) : res S :=
  match l with
  | [] => Ok s
  | x :: l => bind (f s x) (foldM f l)
  end.

Fixpoint mapM {X Y} (f : X -> res Y) (l : list X) : res (list Y) :=
  match l with
  | [] => Ok []
  | x :: l => bind (f x) (fun y => bind (mapM f l) (fun ys => Ok (y :: ys)))
  end.

(** [iter.all(..)] with short-circuit. *)
Fixpoint allM {X} (f : X -> res bool) (l : list X) : res bool :=
  match l with
  | [] => Ok true
  | x :: l => bind (f x) (fun b => if b then allM f l else Ok false)
  end.

(** [Vec::insert(idx, x)] for [idx <= len]. *)
Definition insert_at {X} (n : nat) (x : X) (l : list X) : list X :=
  firstn n l ++ x :: skipn n l.

(** [Vec::remove(idx)] for [idx < len]. *)
Definition remove_at {X} (n : nat) (l : list X) : list X :=
  firstn n l ++ skipn (S n) l.

(** [iter.position(f)]: index of the first match. *)
Fixpoint position {X} (f : X -> bool) (l : list X) : option nat :=
  match l with
  | [] => None
  | x :: l => if f x then Some O else option_map S (position f l)
  end.

(** [iter.rposition(f)]: index of the last match. *)
Fixpoint rposition {X} (f : X -> bool) (l : list X) : option nat :=
  match l with
  | [] => None
  | x :: l => match rposition f l with
              | Some n => Some (S n)
              | None => if f x then Some O else None
              end
  end.

(** Replaces the element at an index (no effect out of range). *)
Fixpoint set_nth {X} (n : nat) (x : X) (l : list X) : list X :=
  match l, n with
  | [], _ => []
  | _ :: l, O => x :: l
  | y :: l, S n => y :: set_nth n x l
  end.

Fixpoint skip_while {X} (f : X -> bool) (l : list X) : list X :=
  match l with
  | [] => []
  | x :: l' => if f x then skip_while f l' else l
  end.

(** [iter.enumerate()]. *)
Definition enumerate {X} (l : list X) : list (nat * X) := combine (seq 0 (length l)) l.

Definition lastopt {X} (l : list X) : option X :=
  match rev l with [] => None | x :: _ => Some x end.
