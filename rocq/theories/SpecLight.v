(** * What the traffic-light properties talk about (C01-C05)

    A light is used through [add_movement], [add_phase] and [step], in any order, and observed
    through [state()] ([light_states]).  Nothing here looks inside a light. *)
From Coq Require Import List Arith ZArith NArith Bool.
From Verif Require Import Arith Base SlotMap Light.
Import ListNotations.

Section SpecLight.
  Context {A : Arith}.
  Local Open Scope num_scope.

  (** The calls [lop] and histories [lrun] are defined at the end of Light.v. *)

  (** The arguments the movements and phases were given, in order. *)
  Definition movements_of (ops : list lop) : list (N * num * num) :=
    flat_map (fun o => match o with LMovement c a r _ => [(c, a, r)] | _ => [] end) ops.
  Definition phases_of (ops : list lop) : list (N * num) :=
    flat_map (fun o => match o with LPhase m d => [(m, d)] | _ => [] end) ops.

  (** Bit [j] of a mask. *)
  Definition has_bit (mask : N) (j : nat) : Prop := N.testbit mask (N.of_nat j) = true.

  (** Movement [i] names movement [j] as conflicting. *)
  Definition names (ops : list lop) (i j : nat) : Prop :=
    exists c a r, nth_error (movements_of ops) i = Some (c, a, r) /\ has_bit c j.

  Definition symmetric_conflicts (ops : list lop) : Prop :=
    forall i j, i < length (movements_of ops) -> j < length (movements_of ops) ->
                names ops i j -> names ops j i.

  (** No phase lets two different conflicting movements go. *)
  Definition exclusive_phases (ops : list lop) : Prop :=
    forall m d i j, In (m, d) (phases_of ops) -> i <> j ->
                    has_bit m i -> has_bit m j -> names ops i j -> False.

  (** The state [state()] reports for movement [i]. *)
  Definition signal (l : light) (i : nat) : option light_state := nth_error (light_states l) i.
  Definition lit_up (o : option light_state) : Prop := o = Some Green \/ o = Some Amber.

  (** What a stopwatch next to each signal head shows: it restarts with [dt] in a step in which the
      signal changes, and adds [dt] otherwise.  It only sees the reported states and the [dt]s. *)
  Fixpoint tick (dt : num) (before after : list light_state) (w : list num) : list num :=
    match before, after, w with
    | b :: before, a :: after, x :: w =>
        (if ls_eqb a b then x + dt else dt) :: tick dt before after w
    | _, _, _ => []
    end.
  Definition watch_step (st : light * list num) (o : lop) : res (light * list num) :=
    bind (lexec (fst st) o) (fun l' =>
      Ok (l', match o with
              | LMovement _ _ _ _ => snd st ++ [n0]
              | LPhase _ _ => snd st
              | LStep dt => tick dt (light_states (fst st)) (light_states l') (snd st)
              end)).
  Definition watch (ops : list lop) : res (light * list num) := foldM watch_step ops (light_new, []).

  (** [n] further steps of the same length. *)
  Fixpoint steps (n : nat) (dt : num) (l : light) : res light :=
    match n with
    | O => Ok l
    | S n => bind (light_step l dt) (steps n dt)
    end.
End SpecLight.
