(** * C44: the rear axle is moved sideways *)
From Coq Require Import List Bool ZArith NArith Arith Lia Reals Lra.
From Verif Require Import Arith F64 RealArith Base BaseProofs SlotMap SlotMapProofs Util Geom Light Accel Net Path Vehicle LinkOps Sim SpecLight SpecSim SpecMotion SpecRoute Safe NetInv SimInv AccSafe SimSafe StepSafe OpSafe Evo StepEvo SimProofs StepProofs NetEvo SpecConf ConfProofs CoordEvo RFacts LineProofs RaExample SimExample P_Geom P_Coord.
Import ListNotations.
Local Open Scope R_scope.

(** [calc_direction] turns a vehicle about its rear axle, which lies a wheel base behind the vehicle's place.  An axle does not move sideways, so that its
    way between two places should be along the old heading.  It is not: a vehicle with a wheel base of 4 m that moves 3 m to the left, turned to the left
    (0.8, 0.6) as it then is, has its rear axle 0.6 m further to the left than before. *)
Theorem C44_axle_refuted : exists (pos dir new_pos : @pt RA) (radius : R), unit dir /\ 0 < radius /\ 0 <= @dot RA (vsub new_pos pos) dir /\
  let axle (p d : @pt RA) := vsub p (@vscale RA radius d) in
  @perp_dot RA dir (vsub (axle new_pos (@calc_direction RA pos dir new_pos radius)) (axle pos dir)) <> 0.
Proof.
  exists (@Pt RA 0 0), (@Pt RA 1 0), (@Pt RA 0 3), 4. assert (unit (@Pt RA 1 0)) as U by (unfold unit; cbn [px py]; unR; ring).
  split; [exact U|]. split; [lra|]. split; [unfold dot; cbn [vsub px py]; unR; lra|]. cbv zeta. rewrite direction_exact by (exact U || lra).
  assert (@normalize RA (vsub (@Pt RA 0 3) (vsub (@Pt RA 0 0) (@vscale RA 4 (@Pt RA 1 0)))) = @Pt RA (4 / 5) (3 / 5)) as ->.
  { assert (@magnitude RA (vsub (@Pt RA 0 3) (vsub (@Pt RA 0 0) (@vscale RA 4 (@Pt RA 1 0)))) = 5) as E.
    { unfold magnitude, magnitude2, dot. cbn [vsub vscale px py]. unR. replace ((0 - (0 - 4 * 1)) * (0 - (0 - 4 * 1)) + (3 - (0 - 4 * 0)) * (3 - (0 - 4 * 0))) with (5 * 5) by ring. apply sqrt_square. lra. }
    unfold normalize, normalize_to. rewrite E. apply pt_ext; unfold n1; cbn [vsub vmul vscale px py]; unR; field. }
  unfold perp_dot. cbn [vsub vscale px py]. unR. lra.
Qed.
Print Assumptions C44_axle_refuted.
