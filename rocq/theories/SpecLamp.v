(** * Roads with traffic lights: what the property about waiting at them talks about (C75) *)
From Coq Require Import List Bool ZArith NArith Arith Reals Relation_Operators.
From Verif Require Import Arith RealArith Base SlotMap Util Geom Light Accel Net Path Vehicle LinkOps Sim SpecLight SpecSim SpecMotion SpecRoute.
Import ListNotations.
Local Open Scope R_scope.

(** The calls that made the lights what they are. *)
Definition made_by (l : @light RA) (calls : list (@lop RA)) : Prop := lrun calls = Ok l.
(** A light controls the link. *)
Definition controlled (s : @sim RA) (x : key) : Prop := exists kl l i, sm_get (s_lights s) kl = Some l /\ controls l i x.
(** No light has more than 64 movements, or a phase that lets two movements go of which one is said to conflict with the other. *)
Definition sound_lights (s : @sim RA) : Prop := forall kl l, sm_get (s_lights s) kl = Some l ->
  exists calls, made_by l calls /\ (length (movements_of calls) <= 64)%nat /\ exclusive_phases calls.
(** One movement of one light controls the link, and a phase that lasts at least a tenth of a second lets it go. *)
Definition gets_green (s : @sim RA) (x : key) : Prop := exists kl l i calls mask dur,
  sm_get (s_lights s) kl = Some l /\ controls l i x /\
  (forall kl2 l2 i2, sm_get (s_lights s) kl2 = Some l2 -> controls l2 i2 x -> kl2 = kl /\ i2 = i) /\
  made_by l calls /\ In (mask, dur) (phases_of calls) /\ has_bit mask i /\ 1 / 10 <= dur.
(** There is a give-way or stop sign at the link, at which one may wait more than three metres before the line. *)
Definition has_sign (s : @sim RA) (x : key) : Prop := exists l dist must_stop prio, link_at s x = Some l /\ lk_control l = CYield dist must_stop prio /\ 3 < dist.
(** The link is open or has a sign, and no light controls it, or it gets green from time to time. *)
Definition opens (s : @sim RA) (x : key) : Prop :=
  ((exists l, link_at s x = Some l /\ lk_control l = COpen) \/ has_sign s x) /\ ~ controlled s x \/ gets_green s x.
(** Before a link that a light controls, no other link is on a way to [d]. *)
Definition no_choice_at_lights (s : @sim RA) (d : key) : Prop := forall a b c,
  succ_of (s_links s) a b -> succ_of (s_links s) a c -> leads (s_links s) b d -> leads (s_links s) c d -> controlled s b -> c = b.
