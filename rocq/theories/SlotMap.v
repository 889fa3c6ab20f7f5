(** * slotmap::SlotMap (crate slotmap 1.0, not part of /repo).

    A slot holds a version and, if occupied, a value.  Removing bumps the version and
    pushes the slot on a LIFO free list; inserting takes the head of the free list or
    appends a slot.  A key is (index, version).  Iteration is by increasing index.
    Simplifications: the intrusive free list is an explicit list; versions and indices
    are unbounded (the crate wraps versions after 2^31 reuses of one slot). *)
From Coq Require Import List Arith Bool.
From Verif Require Import Base.
Import ListNotations.

Record key := Key { k_idx : nat; k_ver : nat }.

(** The null key ([Default] of a key type): never a key of a map (index 0 is the sentinel slot). *)
Definition null_key : key := Key 0 1.

Definition key_eqb (a b : key) : bool :=
  Nat.eqb (k_idx a) (k_idx b) && Nat.eqb (k_ver a) (k_ver b).

Record slot V := Slot { s_ver : nat; s_val : option V }.
Arguments Slot {V}. Arguments s_ver {V}. Arguments s_val {V}.

Record slotmap V := SM { sm_slots : list (slot V); sm_free : list nat }.
Arguments SM {V}. Arguments sm_slots {V}. Arguments sm_free {V}.

(** [SlotMap::with_key]: one sentinel slot at index 0. *)
Definition sm_empty {V} : slotmap V := SM [Slot 0 None] [].

Definition sm_get {V} (m : slotmap V) (k : key) : option V :=
  match nth_error (sm_slots m) (k_idx k) with
  | Some s => if Nat.eqb (s_ver s) (k_ver k) then s_val s else None
  | None => None
  end.

Definition sm_mem {V} (m : slotmap V) (k : key) : bool :=
  match sm_get m k with Some _ => true | None => false end.

(** The key the next insertion will return. *)
Definition sm_next_key {V} (m : slotmap V) : key :=
  match sm_free m with
  | i :: _ => match nth_error (sm_slots m) i with
              | Some s => Key i (S (s_ver s))
              | None => Key i 1
              end
  | [] => Key (length (sm_slots m)) 1
  end.

(** [insert_with_key]: the value may depend on the key and its computation may panic,
    in which case the map is unchanged. *)
Definition sm_insert {V} (m : slotmap V) (v : V) : slotmap V :=
  match sm_free m with
  | i :: fr => SM (set_nth i (Slot (k_ver (sm_next_key m)) (Some v)) (sm_slots m)) fr
  | [] => SM (sm_slots m ++ [Slot 1 (Some v)]) []
  end.

(** [&mut map[key]] assignment; no effect for an unknown key (the callers check). *)
Definition sm_set {V} (m : slotmap V) (k : key) (v : V) : slotmap V :=
  if sm_mem m k then SM (set_nth (k_idx k) (Slot (k_ver k) (Some v)) (sm_slots m)) (sm_free m)
  else m.

Definition sm_remove {V} (m : slotmap V) (k : key) : slotmap V :=
  if sm_mem m k then SM (set_nth (k_idx k) (Slot (S (k_ver k)) None) (sm_slots m)) (k_idx k :: sm_free m)
  else m.

(** Iteration order: increasing slot index. *)
Fixpoint entries_from {V} (i : nat) (l : list (slot V)) : list (key * V) :=
  match l with
  | [] => []
  | s :: l => match s_val s with
              | Some v => (Key i (s_ver s), v) :: entries_from (S i) l
              | None => entries_from (S i) l
              end
  end.
Definition sm_entries {V} (m : slotmap V) : list (key * V) := entries_from 0 (sm_slots m).
Definition sm_keys {V} (m : slotmap V) : list key := map fst (sm_entries m).
Definition sm_values {V} (m : slotmap V) : list V := map snd (sm_entries m).

(** Applies a function to every value, in place: [for (_, v) in &mut map]. *)
Definition sm_map {V} (f : V -> V) (m : slotmap V) : slotmap V :=
  SM (map (fun s => Slot (s_ver s) (option_map f (s_val s))) (sm_slots m)) (sm_free m).

Definition sm_upd {V} (m : slotmap V) (k : key) (f : V -> V) : slotmap V :=
  match sm_get m k with Some v => sm_set m k (f v) | None => m end.
