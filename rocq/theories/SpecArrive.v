(** * What the properties about arriving talk about *)
From Coq Require Import List Bool ZArith NArith Arith Reals Relation_Operators.
From Verif Require Import Arith RealArith Base SlotMap Util Geom Light Accel Net Path Vehicle LinkOps Sim SpecSim SpecMotion SpecReason SpecRoute.
Import ListNotations.

Section SpecArrive.
  Context {A : Arith}.
  (** No way along [links_out()] leads back to where it started. *)
  Definition no_way_back (links : linkset) : Prop := forall a, ~ clos_trans key (succ_of links) a a.
  (** All links are open, and have neither conflicts nor lanes beside them. *)
  Definition open_roads (s : sim) : Prop :=
    forall x l, link_at s x = Some l -> lk_control l = COpen /\ lk_conflicts l = [] /\ lk_group l = None /\ lk_changes l = [].
  (** No link has conflicts or lanes beside it; links may be open or closed. *)
  Definition plain_roads (s : sim) : Prop :=
    forall x l, link_at s x = Some l -> lk_conflicts l = [] /\ lk_group l = None /\ lk_changes l = [].
  (** No link has lanes beside it; links may be open or closed, and may cross or join others. *)
  Definition single_lanes (s : sim) : Prop :=
    forall x l, link_at s x = Some l -> lk_group l = None /\ lk_changes l = [].
  (** No link has a conflict with itself or with a link that comes after it on some way. *)
  Definition no_conflict_along (s : sim) : Prop :=
    forall x l c, link_at s x = Some l -> In c (lk_conflicts l) -> ~ clos_refl_trans key (succ_of (s_links s)) x (cf_link c) /\ ~ clos_refl_trans key (succ_of (s_links s)) (cf_link c) x.
  Definition no_lights (s : sim) : Prop := forall k, sm_get (s_lights s) k = None.
End SpecArrive.

Local Open Scope R_scope.
(** The time that steps of these lengths take. *)
Definition total (dts : list R) : R := fold_right Rplus 0 dts.
(** No link is shorter than [room], and none has a lower speed limit than [limit]. *)
Definition at_least (s : @sim RA) (room limit : R) : Prop :=
  forall x l, link_at s x = Some l -> room <= lk_length l /\ limit <= lk_limit l.
