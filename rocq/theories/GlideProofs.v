(** * Moving on between two decisions: one step *)
From Coq Require Import List Bool ZArith NArith Arith Lia.
From Verif Require Import Arith Base BaseProofs SlotMap Util Geom Light Accel Net Path Vehicle LinkOps Sim SpecSim SpecMotion SlotMapProofs Safe NetInv SimInv AccSafe SimSafe StepSafe OpSafe Evo StepEvo SimProofs StepProofs Motion.
Import ListNotations.

Section GlideProofs.
  Context {A : Arith}.

  (** What a step does to a vehicle once lanes and accelerations are chosen; these choices do not depend on the time step. *)
  Definition glide (links : linkset) (dt : num) (v v' : vehicle) : Prop :=
    v_acc v' = v_acc v /\ v_vel v' = nmax (nadd (v_vel v) (nmul dt (am_get (v_acc v)))) n0 /\
    exists lid l p, v_link v = Some lid /\ sm_get links lid = Some l /\ p = nadd (v_pos v) (nmul (nmul nhalf (nadd (v_vel v) (v_vel v'))) dt) /\
      (nltb (lk_length l) p = false /\ v_route v' = v_route v /\ v_pos v' = p \/
       nltb (lk_length l) p = true /\ v_route v' = tl (v_route v) /\ v_pos v' = nsub p (lk_length l)).
  Definition decided (e : env) (s s2 : sim) : Prop := exists s1, calculate_lane_changes e s = Ok s1 /\ sim_apply_accelerations e s1 = Ok s2.
  Lemma decided_fun e s s2 s2' : decided e s s2 -> decided e s s2' -> s2 = s2'.
  Proof. intros (s1 & H1 & H2) (t1 & K1 & K2). congruence. Qed.
  Lemma decided_kept e s s2 : decided e s s2 -> nltb (s_acc_update s) ACCELERATION_UPDATE_SEC = true -> nltb (s_lc_update s) LANE_CHANGE_UPDATE_SEC = true -> s2 = s.
  Proof. intros (s1 & H1 & H2) Ta Tl. rewrite (lc_kept _ _ _ Tl H1) in H2. exact (acc_kept _ _ _ Ta H2). Qed.

  Lemma step_glide e s dt s' k v' : Inv s -> step e s dt = Ok s' -> sm_get (s_vehicles s') k = Some v' ->
    exists s2 v v2, decided e s s2 /\ sm_get (s_vehicles s) k = Some v /\ sm_get (s_vehicles s2) k = Some v2 /\ v_vel v2 = v_vel v /\ glide (s_links s) dt v2 v'.
  Proof.
    intros I H G'. destruct (step_vehicle_parts _ _ _ _ _ _ I H G') as (s1 & s2 & s3 & s4 & s5 & v0 & v1 & v2 & v4 & v5 & q & q' & P & G0 & G1 & G2 & G4 & R1 & Kp & Hi & R5 & R6).
    exists s2, v0, v2. split; [exists s1; split; [exact (ph1 _ _ _ _ _ _ _ _ _ P)|exact (ph2 _ _ _ _ _ _ _ _ _ P)]|]. split; [exact G0|]. split; [exact G2|].
    split. { destruct R1 as (B1 & _). destruct Kp as (a & f & ->). unfold body in B1. cbn. congruence. }
    destruct (integrate_ok _ _ _ _ _ Hi) as (_ & _ & _ & _ & D0 & _ & D1 & _ & D2 & D3 & _).
    destruct R5 as (lid & l4 & Hl & Gl & R5). destruct R6 as (B6 & _ & P6 & Rt6 & _).
    assert (v_acc v5 = v_acc v4 /\ v_vel v5 = v_vel v4) as (Ea & Ev). { destruct R5 as [(_ & ->)|(_ & B5 & _)]; [auto|]. unfold body in B5. split; congruence. }
    assert (v_acc v' = v_acc v5 /\ v_vel v' = v_vel v5) as (Ea' & Ev') by (unfold body in B6; split; congruence).
    assert (same_net (s_links s) (s_links s4)) as Sn.
    { rewrite (pn4 _ _ _ _ _ _ _ _ _ P). eapply same_net_trans; [apply P|]. eapply same_net_trans; apply P. }
    destruct (same_net_get _ _ _ _ Sn Gl) as (l & G0' & Est).
    assert (lk_length l = lk_length l4) as El. { unfold lk_static in Est. unfold lk_length. inversion Est. congruence. }
    split; [congruence|]. split. { rewrite Ev', Ev, D2. reflexivity. }
    exists lid, l, (v_pos v4). split; [unfold v_link in *; congruence|]. split; [exact G0'|]. split. { rewrite D3. unfold new_pos. rewrite Ev', Ev, D2. reflexivity. }
    rewrite El. destruct R5 as [(Lt & E5)|(Lt & _ & E5 & P5 & _)].
    - left. split; [exact Lt|]. subst v5. split; congruence.
    - right. split; [exact Lt|]. split; congruence.
  Qed.
End GlideProofs.
