(** * What the properties about the progress of a simulation talk about

    [positive_roads] is about exact arithmetic. *)
From Coq Require Import List Bool ZArith NArith Arith Reals.
From Verif Require Import Arith RealArith Base SlotMap Util Geom Light Accel Net Path Vehicle LinkOps Sim SpecSim.
Import ListNotations.
Local Open Scope R_scope.

(** All links have a positive length and a positive speed limit. *)
Definition positive_roads (s : @sim RA) : Prop :=
  forall k l, link_at s k = Some l -> 0 < lk_length l /\ 0 < lk_limit l.
(** No link allows lane changes, no link occurs twice in a group, and the tables of the groups are not empty. *)
Definition plain_groups {A : Arith} (s : sim) : Prop :=
  forall k l, link_at s k = Some l -> lk_changes l = [] /\
    forall g, lk_group l = Some g -> NoDup (g_links g) /\ forall p, In p (g_projs g) -> pj_samples p <> [].
(** All traffic lights have a phase, at most 64 movements, and control existing links. *)
Definition good_lights {A : Arith} (s : sim) : Prop :=
  forall k l, sm_get (s_lights s) k = Some l -> l_phases l <> [] /\ (length (l_movements l) <= 64)%nat /\
    forall lid, In lid (map snd (l_mlinks l)) -> link_at s lid <> None.
(** No route through the network costs more than [usize] can hold. *)
Definition small_costs {A : Arith} (s : sim) : Prop :=
  forall k l, link_at s k = Some l -> (Z.of_nat (length (sm_keys (s_links s))) * lk_cost l <= usize_max)%Z.
