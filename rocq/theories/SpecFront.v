(** * Specification: a vehicle with nobody in front of it *)
From Coq Require Import List Bool ZArith NArith Arith.
From Verif Require Import Arith Base SlotMap Util Geom Light Accel Net Path Vehicle LinkOps Sim SpecSim SpecMotion.
Import ListNotations.

Section SpecFront.
  Context {A : Arith}.

  (** [k] is the foremost vehicle on its link, the other links of its route are empty, and no link of the route lies beside others.
      There may be any number of vehicles behind it, on its link and before, and anywhere else. *)
  Record nobody_ahead (s : sim) (k : key) (v : vehicle) : Prop := {
    na_here : forall x l, nth_error (v_route v) 0 = Some x -> link_at s x = Some l -> exists behind, lk_vehicles l = behind ++ [k];
    na_on : forall i x l, nth_error (v_route v) (S i) = Some x -> link_at s x = Some l -> lk_vehicles l = [];
    na_beside : forall a la g p, link_at s a = Some la -> lk_group la = Some g -> In p (g_projs g) -> ~ In (pj_dst p) (v_route v) }.

  (** The drivers take the same acceleration, brake the same and drive the same fraction of the limit. *)
  Definition drives_alike (v w : vehicle) : Prop := max_acc v = max_acc w /\ comf_dec v = comf_dec w /\ speed_factor v = speed_factor w.
End SpecFront.
