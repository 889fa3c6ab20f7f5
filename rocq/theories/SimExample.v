(** * A concrete simulation in binary64, used to show that the theorems are not vacuous *)
From Coq Require Import List Bool ZArith NArith Arith.
From Verif Require Import Arith F64 Base SlotMap Util Geom Light Accel Net Path Vehicle LinkOps Sim SpecSim.
Import ListNotations.

Definition fz (z : Z) : @num F64 := @nofZ F64 z.
(** The straight line from [(x1,y1)] to [(x2,y2)]. *)
Definition ex_line (x1 y1 x2 y2 : Z) : @curve F64 :=
  ls_curve (ls_from_ends (Pt (fz x1) (fz y1)) (Pt (fz x2) (fz y2))).
Definition ex_env : @env F64 := Env 200 (fun _ _ _ _ => 0).
(** A car 2 m wide and 4 m long. *)
Definition ex_car : @attrs F64 := Attrs (fz 2) (fz 4) (fz 3) (fz 2) (fz 2) (fz 2).
(** The ids of the links and vehicles created first, second, ... *)
Definition nth_id (i : nat) : key := Key (S i) 1.
Notation lane1 := (nth_id 0).
Notation lane2 := (nth_id 1).
Notation exit1 := (nth_id 2).
Notation side := (nth_id 3).
Notation exit2 := (nth_id 4).
Notation car1 := (nth_id 0).
Notation car2 := (nth_id 1).
Notation car3 := (nth_id 2).

(** Two parallel lanes, of which the first leads to an exit that a side road, with an exit of its own, crosses; a traffic
    light for the exit; two cars on the second lane on their way to the exit, one on the side road. *)
Definition ex_setup : list (@op F64) :=
  [ OAddLink (ex_line 0 0 20 0) (fz 15); OAddLink (ex_line 0 3 20 3) (fz 15);
    OAddLink (ex_line 20 0 40 0) (fz 15); OAddLink (ex_line 30 (-10) 30 10) (fz 10);
    OAddLink (ex_line 30 10 30 30) (fz 10);
    OAddGroup [lane1; lane2] 15;
    OAddConnection lane1 exit1; OAddConnection side exit2;
    OAddConvergence exit1 side;
    OAddLight [LMovement 0 (fz 3) (fz 1) [exit1]; LPhase 1 (fz 10)];
    OAddVehicle ex_car lane2; OSetDestination car1 exit1;
    OAddVehicle ex_car lane1; OSetDestination car2 exit1;
    OAddVehicle ex_car side; OSetDestination car3 exit2 ].
Definition okb {X} (r : res X) (f : X -> bool) : bool := match r with Ok x => f x | _ => false end.
Definition ex_steps (n : nat) : list (@op F64) := repeat (OStep (fz 1)) n.
Definition is_on (s : @sim F64) (k lid : key) : bool :=
  match sm_get (s_vehicles s) k with
  | Some v => match v_link v with Some l => key_eqb l lid | None => false end
  | None => false
  end.
Definition is_gone (s : @sim F64) (k : key) : bool := negb (sm_mem (s_vehicles s) k).

(** The first car changes lane in the second step, is on the exit in the sixth, and all cars have
    left after the twelfth. *)
Lemma ex_story_ok :
  okb (run ex_env sim_new ex_setup) (fun s0 => is_on s0 car1 lane2 && is_on s0 car2 lane1 && is_on s0 car3 side &&
  okb (run ex_env s0 (ex_steps 1)) (fun s1 => is_on s1 car1 lane2 &&
  okb (run ex_env s1 (ex_steps 1)) (fun s2 => is_on s2 car1 lane1 &&
  okb (run ex_env s2 (ex_steps 4)) (fun s6 => is_on s6 car1 exit1 && is_on s6 car3 exit2 &&
  okb (run ex_env s6 (ex_steps 6)) (fun s12 => is_gone s12 car1 && is_gone s12 car2 && is_gone s12 car3))))) = true.
Proof. vm_compute. reflexivity. Qed.

Lemma okb_ok {X} (r : res X) f : okb r f = true -> exists x, r = Ok x /\ f x = true.
Proof. destruct r; simpl; intros; try discriminate. eauto. Qed.

(** Two roads lead to a third, which is marked to give way.  A car waits at its line after the
    second step; a car on the other road after the third, in which the first car goes ahead. *)
Notation road1 := (nth_id 0).
Notation road2 := (nth_id 1).
Notation give_way := (nth_id 2).
Definition ex_yield : list (@op F64) :=
  [ OAddLink (ex_line 0 0 20 0) (fz 15); OAddLink (ex_line 0 20 20 0) (fz 15); OAddLink (ex_line 20 0 40 0) (fz 15);
    OAddConnection road1 give_way; OAddConnection road2 give_way;
    OSetControl give_way (CYield (fz 100) false 0);
    OAddVehicle ex_car road1; OSetDestination car1 give_way;
    OStep (fz 1); OStep (fz 1) ].
Definition ex_yield2 : list (@op F64) :=
  [ OAddVehicle ex_car road2; OSetDestination car2 give_way; OStep (fz 1) ].
Definition has_number (s : @sim F64) (k : key) (q : nat) : bool :=
  match sm_get (s_vehicles s) k with
  | Some v => match v_queued v with Some n => Nat.eqb n q | None => false end
  | None => false
  end.
Lemma ex_yield_ok :
  okb (run ex_env sim_new ex_yield) (fun s => has_number s car1 1 && negb (has_number s car2 2) &&
  okb (run ex_env s ex_yield2) (fun s' => has_number s' car2 2 && negb (has_number s' car1 1))) = true.
Proof. vm_compute. reflexivity. Qed.
