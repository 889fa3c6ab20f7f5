(** * Why a vehicle does not accelerate as fast as it can: what property C61 talks about *)
From Coq Require Import List Bool ZArith NArith Arith.
From Verif Require Import Arith Base SlotMap Util Geom Light Accel Net Path Vehicle LinkOps Sim SpecSim SpecMotion SpecEnter SpecAhead SpecConf SpecSide.
Import ListNotations.

Section SpecReason.
  Context {A : Arith}.

  (** Going back [i] links from position [pos] on link [x] one gets to link [a], which starts [d]
      metres before that position. *)
  Inductive way_back (s : sim) (x : key) (pos : num) : nat -> key -> num -> Prop :=
  | back_here : way_back s x pos 0 x pos
  | back_further i a la d b lb : way_back s x pos i a d -> link_at s a = Some la -> In b (lk_in la) -> link_at s b = Some lb ->
      way_back s x pos (S i) b (nadd d (lk_length lb)).
  (** Vehicle [v] is headed for link [x], on a link [i] links before it that starts [d] metres before
      position [pos] on it, and at most five seconds, at the speed limit there, away from it. *)
  Definition on_its_way (s : sim) (x : key) (pos : num) (k : key) (v : vehicle) (i : nat) (d : num) : Prop :=
    exists a la, way_back s x pos i a d /\ link_at s a = Some la /\ In k (lk_vehicles la) /\ heads_to v i x /\ within la d v.

  (** The acceleration for a limit [dist] metres ahead: none if comfortable braking can be put off. *)
  Definition for_limit (v : vehicle) (limit dist y : num) : Prop :=
    nleb dist n0 = true /\ y = limit_model v limit \/
    nleb dist n0 = false /\ nleb (slowing v limit dist) (nneg (comf_dec v)) = true /\ y = nmax (nmul n2 (nneg (comf_dec v))) (slowing v limit dist).

  (** The vehicle must stop at the end of link [lx], number [i] of its route, [d] metres from the
      start of the link it is on: its route ends there and it may not leave, or it has not entered the
      next link and that is closed, or is a yield link for which it does not wait yet, or for which it
      waits without sufficient gaps. *)
  Definition must_stop (s : sim) (v : vehicle) (i : nat) (lx : link) (d : num) : Prop :=
    nth_error (v_route v) (S i) = None /\ v_can_exit v = false \/
    exists y ly, nth_error (v_route v) (S i) = Some y /\ v_entered v <= S i /\ link_at s y = Some ly /\
      (lk_control ly = CClosed \/
       exists dist must prio, lk_control ly = CYield dist must prio /\
         (not_there_yet v (S i) \/
          exists since, waits_since v (S i) since /\ ~ Forall (sufficient_gap s v (nadd d (lk_length lx)) ly prio since) (lk_conflicts ly))).

  (** The vehicle, or one in front of it on the same link, is behind the position. *)
  Definition not_past (s : sim) (l : link) (pos : num) (k : key) : Prop :=
    exists k2 v2 pre post, lk_vehicles l = pre ++ k2 :: post /\ vehicle_at s k2 = Some v2 /\ is_behind v2 pos /\ (k = k2 \/ In k pre).

  (** [y] is an acceleration that vehicle [v], with ID [k], has a reason not to exceed. *)
  Inductive reason (s : sim) (k : key) (v : vehicle) : num -> Prop :=
  (** the speed limit of the link it is on *)
  | by_limit x lx : link_at s x = Some lx -> In k (lk_vehicles lx) -> reason s k v (limit_model v (lk_limit lx))
  (** the vehicle right in front of it on that link *)
  | by_leader x lx k2 v2 : link_at s x = Some lx -> right_behind lx k k2 -> vehicle_at s k2 = Some v2 ->
      reason s k v (driver_model v (nsub (pos_rear v2) (pos_front v)) (v_vel v2))
  (** the speed limit of a link ahead *)
  | by_limit_ahead x lx i d y : link_at s x = Some lx -> on_its_way s x n0 k v (S i) d -> for_limit v (lk_limit lx) (nsub (nadd d n0) (v_pos v)) y ->
      reason s k v y
  (** the last vehicle on a link ahead *)
  | by_last_ahead x lx i d k2 v2 : link_at s x = Some lx -> on_its_way s x n0 k v (S i) d -> last_on lx k2 -> vehicle_at s k2 = Some v2 ->
      reason s k v (driver_model v (nsub (nadd d (pos_rear v2)) (pos_front v)) (v_vel v2))
  (** the end of a link *)
  | by_line x lx i d : link_at s x = Some lx -> on_its_way s x (lk_length lx) k v i d -> must_stop s v i lx d ->
      reason s k v (driver_model v (nsub (nadd d n0) (pos_front v)) n0)
  (** a vehicle in another lane *)
  | by_other_lane a la g p b lb w0 w o o' i d : link_at s a = Some la -> lk_group la = Some g -> In p (g_projs g) -> (NoDup (g_links g) -> pj_src p = a) -> pj_dst p = b -> link_at s b = Some lb ->
      In w0 (lk_vehicles la) -> vehicle_at s w0 = Some w -> appears_as w p o -> on_its_way s b (o_pos o) k v i d -> in_the_way v o lb o' ->
      (i = 0 -> not_past s lb (o_pos o) k) ->
      reason s k v (driver_model v (nsub (nadd d (nsub (o_pos o') (o_pos o))) (pos_front v)) (v_vel w))
  (** a vehicle on a link that crosses or joins one it is on or headed for, and which is right before
      it in an order in which nobody is further than somebody earlier *)
  | by_conflict a b la lb c c' order p leader q follower : link_at s a = Some la -> link_at s b = Some lb -> a <> b ->
      In c (lk_conflicts la) -> cf_link c = b -> In c' (lk_conflicts lb) -> cf_link c' = a -> mirrored c c' ->
      (forall r, In r order <-> near_zone s a (cf_min c') (cf_max c') r \/ near_zone s b (cf_min c) (cf_max c) r) -> by_front order ->
      order = p ++ leader :: follower :: q -> ar_link leader <> ar_link follower -> ar_key follower = k -> ar_veh follower = v ->
      reason s k v (yield_to (same_direction la lb (cf_min c') (cf_max c') (cf_min c) (cf_max c)) leader follower).
End SpecReason.

Section SpecAlone.
  Context {A : Arith}.
  (** [k] is the only vehicle. *)
  Definition alone (s : sim) (k : key) : Prop := forall k2 v2, vehicle_at s k2 = Some v2 -> k2 = k.
  (** [v] may leave at the end of its route, which visits no link twice; the links of the route are
      open, have the limit [limit], and neither conflicts nor lanes beside them. *)
  Definition open_road (s : sim) (v : vehicle) (limit : num) : Prop :=
    NoDup (v_route v) /\ v_can_exit v = true /\
    forall x l, In x (v_route v) -> link_at s x = Some l -> lk_limit l = limit /\ lk_control l = COpen /\ lk_conflicts l = [] /\ lk_group l = None.
End SpecAlone.
