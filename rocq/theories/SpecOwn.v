(** * Specification: what can be seen of the motion of a vehicle *)
From Coq Require Import List Bool ZArith NArith Arith.
From Verif Require Import Arith Base SlotMap Util Geom Light Accel Net Path Vehicle LinkOps Sim SpecSim SpecMotion.
Import ListNotations.

Section SpecOwn.
  Context {A : Arith}.

  (** The vehicles have the same size, are at the same place, drive equally fast in the same direction, and have the same route, destination and plans.
      Their accelerations, whether they wait or have been let in, and how long they have stood may differ. *)
  Record same_motion (v w : vehicle) : Prop := {
    so_id : v_id v = v_id w;
    so_wid : v_half_wid v = v_half_wid w;
    so_len : v_half_len v = v_half_len w;
    so_base : v_wheel_base v = v_wheel_base w;
    so_plan : v_pathfind v = v_pathfind w;
    so_pos : v_pos v = v_pos w;
    so_vel : v_vel v = v_vel w;
    so_route : v_route v = v_route w;
    so_change : v_lane_change v = v_lane_change w;
    so_place : v_world_pos v = v_world_pos w;
    so_dir : v_world_dir v = v_world_dir w }.

  (** A call that neither lets time pass nor changes the map nor is about the vehicle [k]. *)
  Definition aside (k : key) (o : op) : Prop :=
    match o with
    | OStep _ | OAddLink _ _ | OAddGroup _ _ | OAddConnection _ _ => False
    | ORemoveVehicle x | OSetDestination x _ | OLaneChange x _ _ => x <> k
    | _ => True
    end.
  (** Steps, with any such calls before, between and after them.  The list tells the length of each step and the acceleration of the vehicle [k] in it. *)
  Inductive driven (e : env) (k : key) : sim -> list (num * num) -> sim -> Prop :=
  | dr_done s : driven e k s [] s
  | dr_call s o s1 l s' : aside k o -> exec e s o = Ok s1 -> driven e k s1 l s' -> driven e k s l s'
  | dr_step s dt s1 v l s' : step e s dt = Ok s1 -> vehicle_at s1 k = Some v -> driven e k s1 l s' -> driven e k s ((dt, acceleration v) :: l) s'.
End SpecOwn.
