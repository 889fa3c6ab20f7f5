(** * What the properties of vehicle motion talk about *)
From Coq Require Import List Bool ZArith NArith Arith.
From Verif Require Import Arith Base SlotMap Util Geom Light Accel Net Path Vehicle LinkOps Sim SpecSim.
Import ListNotations.

Section SpecMotion.
  Context {A : Arith}.

  (** The acceleration with which a step moves the vehicle, and the attributes of its driver. *)
  Definition acceleration (v : vehicle) : num := am_get (v_acc v).
  Definition max_acc (v : vehicle) : num := am_max (v_acc v).
  Definition comf_dec (v : vehicle) : num := am_comf (v_acc v).
  Definition headway (v : vehicle) : num := am_headway (v_acc v).
  Definition speed_factor (v : vehicle) : num := am_adj (v_acc v).
  (** The largest braking, in m/s^2. *)
  Definition full_braking : num := nofZ (-6).

  (** The last value passed to [set_vehicle_frozen(k, _)]. *)
  Definition last_set (k : key) (ops : list op) (init : bool) : bool :=
    fold_left (fun b o => match o with OSetFrozen k' f => if key_eqb k' k then f else b | _ => b end) ops init.
  (** No call unfreezes vehicle [k]. *)
  Definition never_unfrozen (k : key) (ops : list op) : Prop := ~ In (OSetFrozen k false) ops.

  (** The vehicle has these attributes. *)
  Definition has_attributes (v : vehicle) (a : attrs) : Prop :=
    v_width v = nmul n2 (nmul nhalf (a_width a)) /\ v_length v = nmul n2 (nmul nhalf (a_length a)) /\
    v_wheel_base v = a_wheel_base a /\ headway v = a_headway a /\ max_acc v = a_max_acc a /\ comf_dec v = a_comf_dec a.

  (** The acceleration of the intelligent driver model, for a gap of [gap] metres to something that
      moves at [lead]: [a (1 - (s/gap)^2)] with [s = 2 + v T + v (v - lead) / (2 sqrt (a b))], where
      [a] is the maximum acceleration, [b] the comfortable deceleration and [T] the headway; ten
      times the maximum acceleration backwards if the gap is at most 2 m. *)
  Definition driver_model (v : vehicle) (gap lead : num) : num :=
    if nleb gap n2 then nmul (nofZ (-10)) (max_acc v) else
    let s := nadd (nadd n2 (nmul (v_vel v) (headway v)))
                  (nmul (nmul (v_vel v) (nsub (v_vel v) lead)) (ndiv n1 (nmul n2 (nsqrt (nmul (max_acc v) (comf_dec v)))))) in
    nmul (max_acc v) (nsub n1 (nmul (ndiv s gap) (ndiv s gap))).
  (** The acceleration [a (1 - (v/limit)^4)]. *)
  Definition limit_model (v : vehicle) (limit : num) : num :=
    let u := ndiv (v_vel v) (nmul (speed_factor v) limit) in
    nmul (max_acc v) (nsub n1 (nmul (nmul u u) (nmul u u))).

  (** The speed after steps of the given lengths with full braking. *)
  Definition brake_for (dts : list num) (v : num) : num :=
    fold_left (fun v dt => nmax (nadd v (nmul dt full_braking)) n0) dts v.

  (** [k] is right behind [k2] on the link. *)
  Definition right_behind (l : link) (k k2 : key) : Prop := exists pre post, lk_vehicles l = pre ++ k :: k2 :: post.
End SpecMotion.
