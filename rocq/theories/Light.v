(** * src/light.rs *)
From Coq Require Import List Arith ZArith NArith Bool.
From Verif Require Import Arith Base SlotMap.
Import ListNotations.

(** light.rs:38-46 *)
Inductive light_state := Red | Amber | Green.

Definition ls_eqb (a b : light_state) : bool :=
  match a, b with Red, Red | Amber, Amber | Green, Green => true | _, _ => false end.

Section Light.
  Context {A : Arith}.
  Local Open Scope num_scope.

  (** link.rs:63-78 [TrafficControl] *)
  Inductive control :=
  | COpen
  | CYield (distance : num) (must_stop : bool) (priority : Z)
  | CClosed.

  (** light.rs:19-35.  The field [next_state] is a scratch cell written and read within one
      [step]; it is not part of the modelled state. *)
  Record movement := Mv {
    m_state : light_state;
    m_active : bool;
    m_since : num;
    m_amber : num;
    m_red : num;
    m_conflict : N          (* u64 bit mask *)
  }.

  (** light.rs:50-55 *)
  Record phase := Phase { p_mask : N; p_duration : num }.

  (** light.rs:6-15 *)
  Record light := Light {
    l_movements : list movement;
    l_mlinks : list (nat * key);
    l_phases : list phase;
    l_phase : nat
  }.

  (** light.rs:59-61 *)
  Definition light_new : light := Light [] [] [] 0.

  (** light.rs:70-88 ([len as u8] truncates) *)
  Definition add_movement (l : light) (conflict : N) (amber_time red_time : num) (links : list key) : light :=
    let idx := (length (l_movements l) mod 256)%nat in
    Light (l_movements l ++ [Mv Red false n0 amber_time red_time conflict])
          (l_mlinks l ++ map (fun k => (idx, k)) links)
          (l_phases l) (l_phase l).

  (** light.rs:91-93 *)
  Definition add_phase (l : light) (mask : N) (duration : num) : light :=
    Light (l_movements l) (l_mlinks l) (l_phases l ++ [Phase mask duration]) (l_phase l).

  (** light.rs:96-98 *)
  Definition light_states (l : light) : list light_state := map m_state (l_movements l).

  (** [mask & (1 << idx) != 0] and [(mask >> idx) & 1 != 0] on u64, for [idx < 64]. *)
  Definition bit (mask : N) (idx : nat) : bool := N.testbit mask (N.of_nat idx).

  (** light.rs:132-136 *)
  Definition phase_complete (ms : list movement) (p : phase) : bool :=
    forallb (fun im => ls_eqb (m_state (snd im)) Green && (m_since (snd im) >=? p_duration p))
            (filter (fun im => bit (p_mask p) (fst im)) (enumerate ms)).

  (** light.rs:125-141.  [phases[phase]] is in range ([phase_ok] in LightProofs.v); an
      out-of-range index is a panic. *)
  Definition update_phase (l : light) : res light :=
    match l_phases l with
    | [] => Ok l
    | ps => bind (of_option PIndex (nth_error ps (l_phase l))) (fun p =>
              if phase_complete (l_movements l) p
              then Ok (Light (l_movements l) (l_mlinks l) ps ((l_phase l + 1) mod length ps))
              else Ok l)
    end.

  (** light.rs:147 *)
  Definition set_active (m : movement) (a : bool) : movement :=
    Mv (m_state m) a (m_since m) (m_amber m) (m_red m) (m_conflict m).

  (** light.rs:144-149 *)
  Definition apply_phase (l : light) : res light :=
    bind (of_option PNoPhase (nth_error (l_phases l) (l_phase l))) (fun p =>
      Ok (Light (map (fun im => set_active (snd im) (bit (p_mask p) (fst im)))
                     (enumerate (l_movements l)))
                (l_mlinks l) (l_phases l) (l_phase l))).

  (** light.rs:164-170 *)
  Definition can_turn_green (ms : list movement) (idx : nat) : bool :=
    forallb (fun other => ls_eqb (m_state other) Red && (m_since other >? m_red other))
            (filter (fun other => bit (m_conflict other) idx) ms).

  (** light.rs:108-114 *)
  Definition next_state (ms : list movement) (idx : nat) (m : movement) : light_state :=
    match m_active m, m_state m with
    | false, Green => Amber
    | false, Amber => if m_since m >=? m_amber m then Red else Amber
    | true, Amber => Green
    | true, Red => if can_turn_green ms idx then Green else Red
    | _, s => s
    end.

  (** light.rs:174-181 *)
  Definition movement_step (dt : num) (next : light_state) (m : movement) : movement :=
    if ls_eqb next (m_state m)
    then Mv (m_state m) (m_active m) (m_since m + dt) (m_amber m) (m_red m) (m_conflict m)
    else Mv next (m_active m) dt (m_amber m) (m_red m) (m_conflict m).

  (** light.rs:106-121 *)
  Definition step_movements (dt : num) (ms : list movement) : list movement :=
    map (fun im => movement_step dt (next_state ms (fst im) (snd im)) (snd im)) (enumerate ms).

  (** light.rs:101-122.  With more than 64 movements a shift in [apply_phase] (or already in
      [update_phase]) overflows; the check is made once here. *)
  Definition light_step (l : light) (dt : num) : res light :=
    match l_phases l with
    | [] => Panic PNoPhase
    | _ =>
      if Nat.ltb 64 (length (l_movements l)) then Panic PShift else
      bind (update_phase l) (fun l =>
      bind (apply_phase l) (fun l =>
      Ok (Light (step_movements dt (l_movements l)) (l_mlinks l) (l_phases l) (l_phase l))))
    end.

  (** light.rs:152-161 *)
  Definition control_of (s : light_state) : control :=
    match s with Red => CClosed | Amber => CClosed | Green => COpen end.
  Definition get_states (l : light) : res (list (key * control)) :=
    mapM (fun il => bind (of_option PIndex (nth_error (l_movements l) (fst il)))
                         (fun m => Ok (snd il, control_of (m_state m))))
         (l_mlinks l).

  (** ** The API of [TrafficLight] (light.rs:59-122) as a transition system *)
  (** A call of the public API of [TrafficLight]. *)
  Inductive lop :=
  | LMovement (conflict : N) (amber_time red_time : num) (links : list key)
  | LPhase (mask : N) (duration : num)
  | LStep (dt : num).

  Definition lexec (l : light) (o : lop) : res light :=
    match o with
    | LMovement c a r ks => Ok (add_movement l c a r ks)
    | LPhase m d => Ok (add_phase l m d)
    | LStep dt => light_step l dt
    end.

  (** The light after a history of calls on [TrafficLight::new()]; a panic ends the history. *)
  Definition lrun (ops : list lop) : res light := foldM lexec ops light_new.
End Light.
