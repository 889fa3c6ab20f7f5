(** * The traffic ahead on the next links: what property C57 talks about *)
From Coq Require Import List Bool ZArith NArith Arith.
From Verif Require Import Arith Base SlotMap Util Geom Light Accel Net Path Vehicle LinkOps Sim SpecSim SpecMotion SpecEnter.
Import ListNotations.

Section SpecAhead.
  Context {A : Arith}.

  (** Some vehicle has entered link [x]: it is on it, or may drive onto it without stopping. *)
  Definition in_use (s : sim) (x : key) : Prop := exists k v, vehicle_at s k = Some v /\ In x (entered_links v).
  (** At most five seconds, at the speed limit of [l], before position [pos]. *)
  Definition within (l : link) (pos : num) (v : vehicle) : Prop :=
    nltb (pos_front v) (nsub pos (nmul (nofZ 5) (lk_limit l))) = false.
  (** The vehicles [ks] of link [l], [idx] links before [x], are all that near and none of them is
      headed for [x]. *)
  Definition not_headed (s : sim) (x : key) (idx : nat) (l : link) (pos : num) (ks : list key) : Prop :=
    forall k, In k ks -> exists w, vehicle_at s k = Some w /\ within l pos w /\ ~ heads_to w idx x.

  (** Going back from link [a], [idx] links before [x] and starting [pos] metres before it, vehicle
      [k] is the first one that is headed for [x]; the link it is on starts [d] metres before [x].
      If it is more than one link away, it has entered [x] already. *)
  Inductive first_headed (s : sim) (x : key) : nat -> key -> num -> key -> vehicle -> num -> Prop :=
  | first_here idx a la pos behind k ahead v :
      link_at s a = Some la -> in_use s a -> lk_vehicles la = behind ++ k :: ahead -> not_headed s x idx la pos ahead ->
      vehicle_at s k = Some v -> within la pos v -> heads_to v idx x -> idx < v_entered v \/ nltb (lk_length la) pos = false ->
      first_headed s x idx a pos k v pos
  | first_further idx a la pos b lb k v d :
      link_at s a = Some la -> in_use s a -> not_headed s x idx la pos (lk_vehicles la) ->
      nleb n0 (nsub pos (nmul (nofZ 5) (lk_limit la))) = false ->
      In b (lk_in la) -> link_at s b = Some lb -> first_headed s x (S idx) b (nadd pos (lk_length lb)) k v d ->
      first_headed s x idx a pos k v d.

  (** [v] is the first vehicle on its way to link [x] on one of the ways to it, and is on a link that
      starts [d] metres before [x]. *)
  Definition next_to_enter (s : sim) (x : key) (lx : link) (k : key) (v : vehicle) (d : num) : Prop :=
    link_at s x = Some lx /\ in_use s x /\ nleb n0 (nsub n0 (nmul (nofZ 5) (lk_limit lx))) = false /\
    exists b lb, In b (lk_in lx) /\ link_at s b = Some lb /\ first_headed s x 1 b (nadd n0 (lk_length lb)) k v d.

  (** The last vehicle on the link: the first one that followers meet. *)
  Definition last_on (l : link) (k : key) : Prop := exists ahead, lk_vehicles l = k :: ahead.

  (** The constant acceleration from the speed of [v] to its own version of the limit, within [dist] metres. *)
  Definition slowing (v : vehicle) (limit dist : num) : num :=
    let u := nmul (speed_factor v) limit in
    ndiv (nsub (nmul u u) (nmul (v_vel v) (v_vel v))) (nmul n2 dist).
End SpecAhead.
