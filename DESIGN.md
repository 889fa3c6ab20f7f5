# Formal model of traffic-simple: design

## 1. What is modelled and how

The code under /repo/src is modelled function by function in Gallina (`rocq/theories`).
Every definition of the model cites the file and lines it models, and says where it simplifies.

| Code | Model |
|---|---|
| number operations (f64) | `Arith.v` (class of operations, no laws), `F64.v` (IEEE-754 binary64), `RealArith.v` (exact reals) |
| panics, loops, `usize` casts | `Base.v` (`res` = `Ok` / `Panic reason` / `OutOfFuel`) |
| crate slotmap | `SlotMap.v` |
| util.rs, math/lut.rs | `Util.v` |
| math/util.rs, math/cubic.rs, math/curve.rs, math/curve/*.rs, link/curve.rs, vehicle/dynamics.rs | `Geom.v`, `Accel.v` (calc_direction) |
| light.rs | `Light.v` |
| vehicle/acceleration.rs | `Accel.v` |
| group.rs, link.rs (data, lanes) | `Net.v` |
| vehicle/pathfinding.rs, crate pathfinding (dijkstra, depth-first reach) | `Path.v` |
| vehicle.rs | `Vehicle.v` |
| link.rs (scans, stop lines, gaps, following), conflict.rs | `LinkOps.v` |
| simulation.rs | `Sim.v`: all `&mut self` methods as the operations of a transition system; `run`/`reachable` are histories of calls |

* **Numbers.** The code computes with `f64`. The model is written once over the class `Arith`, and
  instantiated twice: `F64` is IEEE-754 binary64 (Flocq's `BinarySingleNaN`, round to nearest even, one
  NaN), i.e. what the program computes; `RA` is exact real arithmetic. Theorems are stated for *any*
  `Arith` (hence for f64) where only structure matters, for `F64` where rounding, infinities or NaN matter,
  and for `RA` where the English property is a mathematical statement about the formulas ("in exact
  arithmetic"). Each property says which.
* **State.** `&mut self` functions return the new value. `Cell`s written through shared references during
  the acceleration phase are modelled by a log of effects that is applied in order; the values read by the
  code during the phase (speeds, positions, routes) are not cells that the phase writes.
* **Panics** are explicit results (`Panic reason`): bad ids, index out of range, `unwrap` of `None`,
  subtraction below zero, a full `ArrayVec`, `partial_cmp` of NaN. Loops and recursions that need not end
  return `OutOfFuel` when the cut-off in `env` is reached; no theorem assumes anything about a run that was
  cut off, and C30, C31, C41, C50 prove that a sufficient cut-off exists.
* **User input** such as curves is arbitrary: a curve is any record of functions.

## 2. Trusted base

* Coq 8.16.1's kernel (and its `vm_compute`, used in some concrete examples and refutation witnesses).
  `coqchk` accepts the compiled files.
* The axioms listed by `Print Assumptions` (section 3). They are those of the standard library's reals and
  classical logic: `ClassicalDedekindReals.sig_forall_dec`, `ClassicalDedekindReals.sig_not_dec`,
  `FunctionalExtensionality.functional_extensionality_dep`, `Classical_Prop.classic`. Nothing else: no
  axiom, parameter or section-less variable is added, no proof is left open, no kernel check is off.
* That the model is a faithful reading of the Rust text. This was done by hand; the citations allow it to
  be checked. It was tested by editing the model as realistic bugs would (seeded/LOG.jsonl).
* That Flocq's `BinarySingleNaN` operations are those of the machine for `+ - * / sqrt`, comparisons,
  `min`, `max`, `abs`, `ceil`, and saturating casts. NaN payloads and signs are not modelled.
  `powi` is modelled by repeated multiplication in the order given in `Arith.v`; Rust leaves the
  precision of `powi` unspecified, so f64 theorems about `powi` results hold for that order.

Not modelled, or simplified:

* `debug.rs`, the `debug`/`serde` features, `Display`/`Debug` output, doc tests. (All calls of the `debug_*` functions in `vehicle.rs` are commented out, so `Simulation::debug` returns null before the first step and an empty array after it.)
* The crates slotmap, smallvec, arrayvec, cgmath, pathfinding and rand_distr are not in /repo; they are
  modelled by small executable definitions of the operations used, from their documented behaviour:
  `SlotMap.v` (free list, versions unbounded instead of 32 bits), `dijkstra` (an arbitrary choice
  function breaks ties; proved optimal in C30), `dfs_reach`, vectors as lists. Samples of the normal
  distribution are arbitrary numbers.
* The counters `frame` and `seq` (usize) are unbounded. Vector lengths never overflow.
* `usize` is 64 bits. A cost sum that exceeds it panics, as in a debug build; a release build wraps.
* Panics that only a debug build has (overflow, underflow) are panics in the model.
* `get_unchecked` out of range is an explicit panic value in the model (undefined behaviour in a release
  build); C38 proves where it cannot happen and refutes the rest.
* Memory, time, threads: the library is single threaded and has no I/O, so there are no schedules or crash
  points; the executions are the histories of API calls.


## 3. Properties: what is modelled, how it is proved, what was proved

After each theorem, in brackets, the result of `Print Assumptions`: `[-]` closed under the global
context; `[R]` the axioms of the standard library's real numbers (`ClassicalDedekindReals.sig_forall_dec`,
most also `ClassicalDedekindReals.sig_not_dec` and `FunctionalExtensionality.functional_extensionality_dep`);
`[F]` those three and `Classical_Prop.classic`, which Flocq's binary64 facts use. No theorem uses any other
axiom. `Print Assumptions` is also called beneath every theorem in the sources.

* **C01 Conflicting signals are never green or amber together** (proved). Light.v model of light.rs over any arithmetic; invariant over the list of steps; refutation witness for overlapping phases.
  Theorems: `P_Light.C01_conflicting_signals_exclusive` [-], `P_Light.C01_overlapping_phase_refuted` [F], `P_Light.C01_asymmetric_conflict_refuted` [F].
  Proved under symmetric conflicts and exclusive phases; the refutations show both are needed.
* **C02 Signal states change only Red->Green, Green->Amber, Amber->Red or Amber->Green** (proved). case analysis on one modelled step, any arithmetic.
  Theorems: `P_Light.C02_signal_transitions` [-].
* **C03 Amber is shown for at least the amber time and clearance is respected** (proved). ghost history: `since` equals the left fold of f64 addition over the steps since the last change; proved for any arithmetic.
  Theorems: `P_Light.C03_amber_time` [-], `P_Light.C03_clearance_time` [-], `P_Light.C03_stopwatch_total` [-].
* **C04 Phases advance cyclically and only after every green of the phase has lasted its duration** (proved). invariant `phase < number of phases`; totality of the modelled step; NoPhase panic is an explicit value.
  Theorems: `P_Light.C04_step_total` [-], `P_Light.C04_phase_valid` [-], `P_Light.C04_phase_advance` [-].
* **C05 Every signal phase is eventually served** (proved). exact (R) instance; ranking argument on amber/red timers, then on phase duration. For steps of any lengths: bounds on the time since the phase began, movement by movement, kept by every step (LightTime.v).
  Theorems: `P_Light.C05_every_phase_served` [F], `P_Light.C05_phase_moves_on` [F], `P_LightTime.C05_served_in_time` [R].
  Real arithmetic.
* **C06 Links obey their traffic light after each step** (proved). Sim.v model; effect of update_lights on link controls.
  Theorems: `P_Step.C06_links_obey_light` [-], `P_Step.C06_controls` [-], `P_Step.C06_light_history` [-], `P_Step.C06_light_step` [-], `P_Arrive.C06_others` [-].
* **C07 Applied acceleration always lies between the maximum braking and the vehicle's maximum acceleration** (proved). f64 (Flocq binary64) instance; the acceleration cell only ever takes min's after a reset.
  Theorems: `P_Motion.C07_bounds` [F], `P_Motion.C07_applied` [-].
* **C08 Vehicle velocity is never negative and never NaN** (proved). f64 instance; invariant over all API operations.
  Theorems: `P_Motion.C08_speed` [F], `P_Motion.C08_not_nan` [F], `P_Motion.C08_speed_exact` [R].
* **C09 Vehicles never roll backwards** (proved). f64 instance; monotonicity of rounding from Flocq.
  Theorems: `P_Motion.C09_forward` [F].
* **C10 Vehicles never exceed the speed limit of the road they are on** (proved). R instance; concavity argument for x |-> x + T*a*(1-(x/L)^4), lifted to all simulation histories by the occupancy invariant.
  Theorems: `P_Limit.C10_speed_limit` [R], `P_Limit.C10_factors` [R].
  Every history of calls with one limit, steps of at most d seconds and 4 max_acc (1/10 + d) <= f L; exact arithmetic, as the claim says.
* **C11 min_reach_time is exactly the kinematic travel time** (proved). R instance; closed form compared with an independent kinematic definition.
  Theorems: `P_Accel.C11_reach_time` [R], `P_Accel.C11_monotone` [R], `P_Accel.C11_over_estimate` [R].
  Exact arithmetic. min_reach_time is the exact time under constant maximal acceleration capped at the limit when the vehicle is not above the limit; C11_over_estimate shows that it over-estimates when the vehicle is faster than the limit.
* **C12 Comfortable stopping distance is sufficient** (proved). R instance.
  Theorems: `P_Accel.C12_can_stop` [R].
  Exact arithmetic, equivalence.
* **C13 Car-following brakes no less for a closer or slower leader, and brakes fully inside the minimum gap** (proved). R instance.
  Theorems: `P_Accel.C13_at_most_max` [R], `P_Accel.C13_gap` [R], `P_Accel.C13_leader` [R], `P_Accel.C13_leader_refuted` [R], `P_Accel.C13_minimum_gap` [R].
  Exact arithmetic. The claim about faster leaders holds up to the point where the wanted gap becomes negative; C13_leader_refuted is the counterexample beyond it.
* **C14 Each vehicle follows the one ahead on its link** (proved). effect log of Link::apply_accelerations; any arithmetic, order facts in R/f64.
  Theorems: `P_Motion.C14_follow` [F], `P_Motion.C14_limit` [F].
* **C15 Freezing a vehicle stops it and keeps it stopped** (proved). frozen list as a set (any arithmetic); f64 integration for the stopping part.
  Theorems: `P_Motion.C15_set` [-], `P_Motion.C15_get` [-], `P_Motion.C15_brakes` [-], `P_Motion.C15_keeps_braking` [-], `P_Motion.C15_speed` [-], `P_Motion.C15_speed_exact` [R], `P_Motion.C15_rest` [F], `P_Motion.C15_position` [F], `P_Refute.C15_removed_refuted` [F], `P_Refute.C15_lane_change_refuted` [F], `P_Refute.C15_first_step_refuted` [F].
  The refutations: a removed vehicle is still reported frozen; a frozen vehicle is moved by a lane change; a vehicle frozen before the first step starts nevertheless.
* **C16 Every vehicle is on exactly one link** (proved). main structural invariant of Sim.v over all API operations, any arithmetic.
  Theorems: `P_Sim.C16_occupancy` [-].
* **C17 Vehicles appear and disappear only when they should; IDs are never reused** (proved). slot map model + set-of-keys lemma per operation.
  Theorems: `P_Sim.C17_add_vehicle` [-], `P_Sim.C17_fresh_ids` [-], `P_Sim.C17_remove_vehicle` [-], `P_Sim.C17_step` [-], `P_Sim.C17_other_calls` [-], `P_Sim.C17_never_back` [-].
* **C18 Vehicles move only along connections and permitted lane changes** (proved). route/paths connectivity invariant.
  Theorems: `P_Sim.C18_step_moves` [-], `P_Sim.C18_routes` [-], `P_Sim.C18_other_calls` [-].
* **C19 API calls with IDs obtained from the simulation never fail on a lookup** (proved). result type of the model has explicit panics; theorem that only the listed panics occur.
  Theorems: `P_Sim.C19_panic_causes` [-], `P_Sim.C19_existing_ids_never_fail` [-], `P_Refute.C19_two_groups_refuted` [F].
  A lane change panics only if there is a point beside which no place on the target link is found; that never happens on straight links (C36, C65_lanes_go_on). C19_two_groups_refuted: a link in two groups makes a step panic, though all ids exist.
* **C20 frame() counts the steps** (proved). induction over operations.
  Theorems: `P_Sim.C20_frame` [-].
* **C21 IDs identify what they were returned for** (proved). slot map invariant.
  Theorems: `P_Sim.C21_ids` [-], `P_Sim.C21_fresh_links` [-], `P_Sim.C21_fresh_lights` [-].
* **C22 Yield queues are first come, first served** (proved). invariant relating queue numbers to the global counter.
  Theorems: `P_Step.C22_reported` [-], `P_Step.C22_numbers` [-], `P_Step.C22_order` [-], `P_Step.C22_keep` [-], `P_Step.C22_keep_other_calls` [-].
* **C23 No vehicle is allowed into a closed link** (proved). effect log of apply_stoplines.
  Theorems: `P_Enter.C23_entered` [-], `P_Enter.C23_queued` [-], `P_Enter.C23_count` [-], `P_Enter.C23_held` [F], `P_Enter.C23_let_in` [-], `P_Enter.C23_lengths` [F], `P_Enter.C23_lengths_exact` [R], `P_Enter.C23_lines_up` [-], `P_Refute.C23_overrun_refuted` [F].
  Every reachable state whose link lengths add up (any mix of lengths from 1 mm to a million km in binary64, any positive lengths in exact arithmetic). Crossing onto a link physically is a separate matter: advance does not look at the permission (C23_overrun_refuted).
* **C24 Acceleration and lane-change decisions are refreshed on schedule** (proved). unfolding of the two accumulators as folds over the history.
  Theorems: `P_Step.C24_accelerations_kept` [-], `P_Step.C24_accelerations_recomputed` [-], `P_Step.C24_lane_changes_kept` [-].
* **C25 Random velocity adjustment stays within 25 percent** (proved). f64 instance.
  Theorems: `P_Net.C25_range` [F], `P_Net.C25_samples` [-], `P_Net.C25_kept` [-].
  The clamped offsets and medians of every link, over whole histories.
* **C26 reachable_lanes is exactly reachability by permitted lane changes** (proved). Group.v; reflexive-transitive closure of the one-step relation; at most two changes by an invariant over histories.
  Theorems: `P_Lane.C26_reachable_lanes` [-], `P_Lane.C26_lane_changes` [-], `P_Lane.C26_two_at_most` [-].
  Every history of calls; groups of any size the API accepts.
* **C27 Planned paths are bounded, connected and start where the vehicle is or may change to** (proved). induction on make_paths_inner.
  Theorems: `P_Route.C27_planned` [-], `P_Route.C27_bounds` [-], `P_Route.C27_current` [-].
  Every history of calls. The paths are the planned ones over the roads at the time of planning; C27_current says the same of the present roads if none were added since the vehicle was sent to its destination. A path also ends where a link starts 200 m or more ahead.
* **C28 Routing only uses links that lead to the destination** (proved). invariant of the table construction.
  Theorems: `P_Route.C28_leads` [-], `P_Route.C28_unreachable_keeps_table` [-], `P_Route.C28_stale_table_refuted` [F].
  Every history whose groups do not overlap, including roads added afterwards. The other two theorems are about unsuccessful routing: the table of the previous destination is kept (finding).
* **C29 A reachable destination is always routed** (proved). Dijkstra completeness + backward propagation argument.
  Theorems: `P_Route.C29_routed` [-], `P_Route.C29_later` [-].
  Every history whose groups do not overlap; C29_later extends it to all later states while the roads stay the same.
* **C30 The shortest-path search is optimal and terminates** (proved). executable Dijkstra with an arbitrary tie-break oracle; standard label-setting invariant.
  Theorems: `P_Route.C30_least_cost` [-], `P_Route.C30_ends` [-], `P_Route.C30_roads` [-], `P_Route.C30_roads_end` [-].
  Every graph with non-negative costs and every order of ties; C30_roads for the road networks that histories build. The search function is a model of the crate pathfinding, not of code in /repo. A cost sum beyond usize::MAX panics.
* **C31 all_routes lists only real routes** (proved). DFS soundness, witness for incompleteness.
  Theorems: `P_Routes.C31_exact` [-], `P_Routes.C31_real` [-], `P_Routes.C31_ends` [-], `P_Routes.C31_complete_refuted` [F], `P_Routes.C31_once_refuted` [F].
  Exactly which pairs are listed, for every history in which no link is named twice in the groups; the enumeration ends; routes ending with a lane change are missed and a link on its own is listed twice.
* **C32 Lane projection lookup returns the projection that was asked for** (proved). index arithmetic on the projection table, witness for the failure.
  Theorems: `P_Proj.C32_left` [-], `P_Proj.C32_right_refuted` [-], `P_Proj.C32_from_link` [-].
  The projection returned is the one between the two links when the target comes before the source in the group; C32_right_refuted shows the table index is wrong when it comes after (finding).
* **C33 Lane distances form a saturating lattice; lane cost is positive only while distance remains** (proved). Z arithmetic; R for cost.
  Theorems: `P_Choice.C33_combine` [-], `P_Choice.C33_offset` [-], `P_Choice.C33_shift` [-], `P_Choice.C33_cost_exact` [R], `P_Choice.C33_cost_falls` [R], `P_Choice.C33_cost_strict` [R], `P_Choice.C33_no_distance_left_refuted` [F].
  Combining, extending and shifting lane distances for all distances (saturating at 32 bits); the cost in exact arithmetic; in f64 a lane that has already ended costs nothing, so it wins.
* **C34 Leaving the network at the destination** (proved). refutation: invariant `can_exit = false` for all later steps.
  Theorems: `P_Exit.C34_only_at_destination` [-], `P_Exit.C34_new_path` [-], `P_Exit.C34_needs_new_path` [-], `P_Exit.C34_own_link_refuted` [-], `P_Exit.C34_held_at_end` [F].
  The last claim of the property (leave at one's own link) is false of the code: C34_own_link_refuted shows that it fails for every history, under the stated conditions on the roads around the link. Concrete case: C34_example.
* **C35 Cubic fit hits both ends with the requested slopes** (proved). R instance, ring/field, derivable_pt_lim.
  Theorems: `P_Geom.C35_fit` [F], `P_Geom.C35_derivative` [F], `P_Geom.C35_translate` [R], `P_Geom.C35_constant` [R], `P_Geom.C35_only` [F].
  Exact arithmetic; C35_only adds that the fitted cubic is the only one with the given end values and slopes. Concrete case: C35_example.
* **C36 Lane changes are continuous across links and end on the centre line** (proved). R instance.
  Theorems: `P_Coord.C36_call` [F], `P_Coord.C36_straight` [R], `P_Coord.C36_no_jump` [R], `P_Coord.C36_no_corner` [F], `P_Coord.C36_step` [F].
  Exact arithmetic. C36_step covers one step of the whole simulation: the offset function is carried over unchanged, shifted by the length of the link left, and the position shown uses it. That the search for the place on the other link is exact is proved for straight links (C36_straight); in general it stops within its tolerance. Concrete case: C36_example.
* **C37 Line segments and Bezier curves interpolate their end points and report true derivatives** (proved). R instance. Binary64, degenerate segments: P_Line64.v.
  Theorems: `P_Geom.C37_line` [F], `P_Geom.C37_quadratic` [F], `P_Geom.C37_cubic` [F], `P_Geom.C37_quadratic_as_cubic` [R], `P_Geom.C37_line_as_cubic` [R], `P_Geom.C37_reverse` [R], `P_Geom.C37_subdivide` [R], `P_Line64.C37_point` [F], `P_Line64.C37_tiny_refuted` [F].
  Exact arithmetic; derivatives are those of the standard library (derivable_pt_lim). In binary64, C37_point: a line segment from a point to itself is that point, without NaN; C37_tiny_refuted: not so for two different points too close for their distance to be squared (finding 27). Concrete case: C37_example.
* **C38 Sampling a link curve never reads outside its segments** (proved). any arithmetic; witness computed in binary64.
  Theorems: `P_Curve.C38_curve` [-], `P_Curve.C38_links` [-], `P_Curve.C38_projection` [-], `P_Curve.C38_projection_table_refuted` [F].
  The unchecked access of every curve is in range for every number; the claim about projection tables is refuted by a reachable state whose table is empty
* **C39 Link curves pass through the sampled points and are continuous** (proved). R instance.
  Theorems: `P_Smooth.C39_points` [R], `P_Smooth.C39_links_made` [R], `P_Smooth.C39_continuous` [F], `P_Smooth.C39_tangent` [F], `P_Smooth.C39_derivative` [F].
  Exact arithmetic; curves of at most 2^32 segments (positions are cast to 32 bits)
* **C40 Equidistant points are evenly spaced and the length is their sum** (proved). any arithmetic (partial correctness of the loop).
  Theorems: `P_Curve.C40_points` [-], `P_Curve.C40_f64` [F], `P_Curve.C40_exact` [R].
  C40_points over any arithmetic; with a positive step the rest is the distance to the end of the curve, in binary64 and exactly
* **C41 Curve subdivision respects the maximum length and keeps order** (proved). any arithmetic + R for order.
  Theorems: `P_Curve.C41_samples` [-], `P_Curve.C41_exact` [R], `P_Subdiv.C41_ends` [R].
  C41_samples over any arithmetic; C41_ends: a curve of bounded speed is subdivided in finitely many steps (exact arithmetic)
* **C42 Curve projection and intersection results meet their tolerance** (proved). any arithmetic + R for lines.
  Theorems: `P_Curve.C42_projection` [-], `P_Curve.C42_line` [R], `P_Curve.C42_intersection` [-], `P_Curve.C42_lines` [R], `P_Curve.C42_second_in_bounds_refuted` [F].
  Tolerances over any arithmetic; on lines exact arithmetic; crossing lines are found; the position on the second curve may be outside it
* **C43 Vector helpers are correct** (proved). R.
  Theorems: `P_Geom.C43_rot90` [R], `P_Geom.C43_project_local` [R], `P_Geom.C43_normalize` [F], `P_Geom.C43_clockwise_refuted` [R].
  Exact arithmetic. The documentation of rot90 says clockwise; the code turns counter-clockwise (C43_clockwise_refuted). Concrete case: C43_example.
* **C44 Vehicle heading stays a unit vector and turns towards the motion** (proved). R + f64 witness.
  Theorems: `P_Coord.C44_direction` [R], `P_Coord.C44_standing` [R], `P_Coord.C44_step` [R], `P_Coord.C44_new` [R], `P_Coord.C44_no_wheel_base_refuted` [F], `P_Axle.C44_axle_refuted` [R].
  Exact arithmetic; with a wheel base of 0 the claim is false in f64 (C44_no_wheel_base_refuted). C44_axle_refuted: the heading is taken from where the rear axle was, so that the axle it implies moves sideways. Concrete case: C36_example.
* **C45 Interval operations satisfy their contracts** (proved). R.
  Theorems: `P_Util.C45_contains` [R], `P_Util.C45_overlaps` [R], `P_Util.C45_clearance` [R], `P_Util.C45_distance` [R], `P_Util.C45_lerp` [R], `P_Util.C45_disc` [R], `P_Util.C45_shift` [R].
* **C46 Conflict checks visit every conflict exactly once** (proved). list permutation; invariant of last_conflict.
  Theorems: `P_Util.C46_rotated_range` [-], `P_Util.C46_start_in_range` [-], `P_Util.C46_order_irrelevant` [-].
* **C47 Lookup tables clamp** (proved). any arithmetic.
  Theorems: `P_Util.C47_safe` [-], `P_Util.C47_size` [R], `P_Util.C47_cell` [R].
* **C48 Conflict points are registered symmetrically** (proved). any arithmetic + R.
  Theorems: `P_Conf.C48_call` [-], `P_Conf.C48_symmetric` [-], `P_Conf.C48_range` [R].
  C48_call describes a call completely (any number type): one record on each link naming the other link and the zone on it, iff each link passes close to the other, and nothing otherwise. C48_symmetric: in every reachable state the records of two links about each other are paired. C48_range is over the reals.
* **C49 Give-way decisions honour priority and gaps** (proved). any arithmetic; inductive specification of `gap` independent of the code's recursion.
  Theorems: `P_Give.C49_only_with_gaps` [-], `P_Give.C49_sufficient` [-], `P_Give.C49_precedence` [-], `P_Give.C49_cannot_arrive` [R], `P_Give.C49_too_far` [R], `P_Give.C49_conservative` [R], `P_Give.C49_every_gap_taken_refuted` [F].
  The decision is characterised exactly; the last theorem shows that a sufficient gap is refused because the approach is counted twice. Both times are measured at the centres of the vehicles.
* **C50 Upstream scans end on every network** (proved). R; fuel bound. f64: intervals for every number of the update (FBound.v, FEnds.v), each link adds at least 1/256 to the distance looked back; counterexample without bounds (P_Stall.v).
  Theorems: `P_Ends.C50_update_ends` [R], `P_Ends.C50_scan_depth` [R], `P_Ends.C50_gap_depth` [R], `P_Ends64.C50_update_ends_binary64` [F], `P_Stall.C50_update_ends_refuted` [F].
  C50_update_ends: for every reachable state with positive lengths and limits (lane changes of the step applied first), a number of rounds exists after which every loop and recursion of the update has ended, the result being independent of a later cut-off; the depth theorems give the explicit bounds. Exact arithmetic (RA). C50_example is a road that leads back to its own start. C50_update_ends_binary64 is the same in f64, for lengths, limits, accelerations, speeds and places of a moderate size (SpecModerate.v) and links without lanes beside them. Without such bounds it fails in f64: C50_update_ends_refuted is a history with a vehicle whose maximum acceleration is 0, after which no step ends (the time in check_gap is NaN).
* **C51 Vehicles are inserted in order along a link** (proved). R / f64 ordering.
  Theorems: `P_Order.C51_insert` [R], `P_Order.C51_remove` [-], `P_Order.C51_calls` [R], `P_Order.C51_lane_changes` [R], `P_Order.C51_step` [R], `P_Order.C51_step_refuted` [F], `P_Order.C51_can_insert` [R].
  Insertion and removal keep the order of the others, and insertion keeps a list that is in order so, for every arithmetic with an order (binary64 and reals). Every call but step keeps the vehicles of all links in order, and so do the lane changes of a step; a step keeps the order if no vehicle that stays on its link overtakes another that stays. C51_step_refuted: with a large time step a vehicle drives through another and the list is out of order, after which can_insert_vehicle accepts a place that is taken. C51_can_insert (reals): on a link whose vehicles are in order and do not overlap, can_insert_vehicle accepts exactly the places where the new vehicle overlaps none.
* **C52 Passing and merging conflicts brake the follower** (proved). effect log.
  Theorems: `P_Conf.C52_gives_way` [F], `P_Conf.C52_gives_way_exact` [R].
  binary64 and the reals. The bound holds up to the model's full braking of -6 m/s^2, like C13.
* **C53 Link cost is the travel time in tenths of a second** (proved). R.
  Theorems: `P_Accel.C53_cost` [R], `P_Accel.C53_monotone` [R], `P_Net.C53_every_link` [-], `P_Refute.C53_no_limit_refuted` [F].
  C53_no_limit_refuted: speed limits of 0 make routing overflow. Exact arithmetic for the cost; every link of every history carries the cost computed when it was built.
* **C54 The attributes of a vehicle never change** (proved). simulation relation over each phase of a step (Evo.v, StepEvo.v): a phase only changes the fields it is allowed to change; any arithmetic.
  Theorems: `P_Motion.C54_added` [-], `P_Motion.C54_kept` [-].
* **C55 The road network is the one the user built** (proved). specification of the network as a fold over the history of calls (SpecNet.v); induction over histories; any arithmetic.
  Theorems: `P_Net.C55_connections` [-], `P_Net.C55_roads_stay` [-], `P_Net.C55_new_link` [-].
  Every number system, every history.
* **C56 A routed vehicle does not get lost** (proved). invariant "the planned paths lead to the destination" over all steps, from the table invariant of C28/C29.
  Theorems: `P_Route.C56_never_lost` [-].
  Every history whose groups do not overlap; the vehicle's route must be its link alone when it is sent off, as it is after add_vehicle.
* **C57 Vehicles look ahead onto the next links** (proved). the scan of preceding links is specified relationally (SpecAhead.v) and the effect log is shown to contain the entry; kinematic meaning over R.
  Theorems: `P_Ahead.C57_follow` [F], `P_Ahead.C57_slow` [F], `P_Ahead.C57_slow_exact` [R].
  C57_follow and C57_slow are about binary64; C57_slow_exact is the kinematics in exact arithmetic. Example: C57_example.
* **C58 Lane-change decisions take the cheapest candidate path** (proved). characterisation of the minimum with its tie break; effect of the lane-change phase on every vehicle; any arithmetic.
  Theorems: `P_Choice.C58_cheapest` [-], `P_Choice.C58_otherwise` [-].
  For every history and arithmetic. The cost itself is characterised under C33.
* **C59 A vehicle is shown at its place on its link** (proved). invariant on the shown position over all operations; any arithmetic.
  Theorems: `P_Coord.C59_after_step` [-], `P_Coord.C59_shown` [-].
  For every arithmetic, so in particular binary64. Concrete case: C59_example.
* **C60 Vehicles follow what is in their way in the other lanes** (proved). relational specification of "goes back from the obstacle" (SpecSide.v) independent of the scan; effect log.
  Theorems: `P_Side.C60_follow` [F], `P_Side.C60_follow_exact` [R].
  The vehicle is on the same lane as the obstacle appears on. Vehicles on the links before that lane are reached by the same search but not covered by the statement. The projection itself is C32, C38 and C42. Concrete case: C60_example.
* **C61 Every acceleration below the maximum has a reason** (proved). inductive specification of the admissible reasons (SpecReason.v); every entry of the effect log is shown to have one, so the minimum has one.
  Theorems: `P_Reason.C61_reason` [F], `P_Reason.C61_reason_exact` [R].
  The converse of the theorems that bound the acceleration (C14, C49, C52, C57, C60): the assigned acceleration is the maximum or one of the listed ones.
* **C62 A vehicle alone on an open road is held back by the limit only** (proved). corollary of C61 by elimination of every reason but the limit; binary64 inequality and exact value; refutation witness by computation.
  Theorems: `P_Alone.C62_alone` [F], `P_Alone.C62_alone_exact` [R], `P_Alone.C62_own_conflict_refuted` [F].
  C62_own_conflict_refuted shows why the links must not conflict with each other: a lone vehicle gives way to itself.
* **C63 A following vehicle never drives into the one in front of it** (proved). R; kinematic invariant "can still stop, even after accelerating until the next refresh" (GapKin.v), preserved by every call (GapProofs.v).
  Theorems: `P_Gap.C63_no_rear_end_collision` [R], `P_Refute.C63_added_inside_refuted` [F], `P_Refute.C63_lane_change_refuted` [F].
  C63_added_inside_refuted: add_vehicle may put a vehicle into another; C63_lane_change_refuted: so does a lane change. Exact arithmetic (RA). The condition on the headway is `careful` in SpecGap.v. Covers a pair on one link; for leaders on other links see C73 and C76. Concrete case: C63_C64_example.
* **C64 A vehicle that has to wait stops before the end of its link** (proved). R; the invariant of C63 with a standing obstacle at the end of the link (StopProofs.v).
  Theorems: `P_Gap.C64_stops_at_the_line` [R], `P_Refute.C63_added_inside_refuted` [F], `P_Refute.C63_lane_change_refuted` [F].
  C63_added_inside_refuted: add_vehicle may put a vehicle into another; C63_lane_change_refuted: so does a lane change. Exact arithmetic (RA). Concrete case: C63_C64_example.
* **C65 A simulation on a sound network always goes on** (proved). R; fuel bound for every loop of a step (ProgProofs.v), absence of panics from C19, both conditions kept by steps. Lanes (P_Lanes.v): on a straight link Newton's method finds every place (C36), so the tables are not empty and no lane change panics. f64: as C50; no place that is compared is NaN (P_Return64.v).
  Theorems: `P_Prog.C65_step_ends` [R], `P_Prog.C65_step_returns` [R], `P_Prog.C65_goes_on` [R], `P_Lanes.C65_lanes_go_on` [R], `P_Prog.C65_destination_returns` [R], `P_TrafficEx.C65_add_returns` [-], `P_SignEx.C65_convergence_returns` [R], `P_Ends64.C65_step_ends_binary64` [F], `P_Return64.C65_step_returns_binary64` [F], `P_Return64.C65_goes_on_binary64` [F].
  Exact arithmetic (RA), and f64 for numbers of a moderate size (SpecModerate.v) and links without lanes beside them; C50_C65_binary64_example. Networks with lane changes: C65_lanes_go_on where the links in a group are straight and no link is in two groups; on curved lanes the place beside the vehicle may not be found (C19), which leaves C65_step_ends. Concrete case: C65_example.
* **C66 Vehicles queue at a closed end without touching each other** (proved). R; C63 and C64 for all pairs of the queue at once, the list of vehicles being kept because nobody passes the end (QueueProofs.v).
  Theorems: `P_Queue.C66_queue` [R], `P_Queue.C66_dead_end` [R].
  Exact arithmetic (RA). Only time steps, no other calls, after the queue has formed. Concrete case: C66_example.
* **C67 A vehicle is seen from the neighbouring lane where it is** (proved). Group.v, Vehicle.v; the samples a projection is built from, read back through the interpolation (P_Table.v); the two-lane parallel case in R.
  Theorems: `P_Table.C67_table` [-], `P_Table.C67_parallel` [R], `P_Table.C67_obstacle` [R].
  The table: any arithmetic. The position of a vehicle seen from the other lane: exact arithmetic (RA), parallel lanes. Concrete case: C67_example.
* **C68 The lane distances a vehicle chooses by are distances it can drive** (proved). Path.v; invariant over histories: every entry of a routing table is a distance of the inductive relation `gets` (SpecDist.v).
  Theorems: `P_Dist.C68_table` [-], `P_Dist.C68_paths` [-], `P_Dist.C68_destination` [-].
  Soundness: every distance is one that can be driven. That no longer one exists is not claimed. Concrete case: C68_example.
* **C69 A vehicle alone on open roads gets to its destination** (proved). R; one vehicle's invariant over steps (its table, routes within it, timers), the lower bound of its acceleration from C60's list of reasons, kinematics over refresh intervals (ArriveKin.v), then induction over the acyclic network (ArriveProofs.v); where it leaves by an invariant that it keeps room for the next choice of paths (WhereProofs.v).
  Theorems: `P_Arrive.C69_arrives` [R], `P_Arrive.C69_where` [R], `P_ArriveEx.C69_case` [R].
  Exact arithmetic (RA). C69_case is a concrete network and car that meets the hypotheses; there the runs exist too.
* **C70 On roads without lanes beside each other and without ways back, a vehicle takes a cheapest way** (proved). Path.v; the table without lane groups has entries only for the links of one cheapest way (CheapProofs.v), vehicles stay on entries of their table, and on acyclic roads a following link on a cheapest way is next on one.
  Theorems: `P_Cheap.C70_route` [-], `P_Cheap.C70_cheapest_way` [-], `P_Cheap.C70_case` [F].
  Any arithmetic whose casts are in range (both instances). The cost is the sum of the links' costs as the code computes them. Roads without lanes beside each other and without ways back; C71_circles_refuted shows why ways back are excluded.
* **C71 Where several links lead on, the one connected first is taken; a way back that comes first keeps the vehicle circling** (proved). Path.v, Vehicle.v; without lane groups all entries saturate, so all candidate paths cost the same and the first is chosen (FirstProofs.v); the first candidate of the depth-first search goes on along first links; invariant over histories.
  Theorems: `P_First.C71_first_way` [-], `P_First.C71_circles` [-], `P_First.C71_circles_refuted` [F].
  Any arithmetic whose casts are in range. C71_circles_refuted: a concrete network in which a vehicle never reaches a reachable destination.
* **C72 A vehicle whose destination is taken away keeps what is left of its route and nothing else** (proved). Path.v, Vehicle.v; invariant over histories: null destination, empty table, no candidates, route a suffix of the old one.
  Theorems: `P_Null.C72_no_destination` [-].
  Any arithmetic. Concrete case: C72_example.
* **C73 Vehicles on a road of several links neither collide nor overtake** (proved). Vehicle.v, LinkOps.v, Sim.v over real arithmetic; invariant over histories: all vehicles of the road sorted by position, each with room to react to all in front of it, and every driver knows the next link unless it is at the beginning of its link (RoadProofs.v, RoadKnow.v); adjacent vehicles on one link, on neighbouring links and further apart are the three cases of a step.
  Theorems: `P_Road.C73_no_collisions` [R], `P_Road.C73_no_overtaking` [R], `P_Refute.C73_fork_refuted` [F], `P_Merge.C73_merge_refuted` [F].
  Exact arithmetic. A road without junctions whose vehicles are on their way to its end; nothing is assumed about the number of links or vehicles, about the controls of the links, or about what vehicles elsewhere do. Headway, room to react and link lengths are explicit inequalities (SpecRoad.drives_well, SpecRoad.good_traffic); C73_example is a concrete road of three links. C73_merge_refuted: where two links lead to a third and no convergence is added, two cars end up in the same place; with the convergence one of them waits (C73_merge_registered). Concrete case: C73_example.
* **C74 All vehicles on an open road of several links get to its end and leave** (proved). Vehicle.v, LinkOps.v, Sim.v over real arithmetic; on a road as in C73 the vehicle in front has nobody ahead of it, so that C69's argument applies to it (ArriveProofs.v states it for a vehicle with nobody ahead); C73 keeps the order, so that induction over the number of vehicles adds up their times (RoadClear.v).
  Theorems: `P_Clear.C74_road_clears` [R], `P_ClearEx.C74_case` [R].
  Exact arithmetic. The bound on the time is an existential; it depends on the state from which the vehicles go on, but not on the lengths of the steps. C74_case is a concrete road of three links with two cars, where the runs exist too.
* **C75 Nobody waits for ever at a traffic light** (proved). Light.v, Vehicle.v, LinkOps.v, Sim.v over real arithmetic; C69's argument with a clock for the time a vehicle has waited for an acceleration update at which the next link is open (ArriveProofs.v); that clock is bounded by the time the light takes for one round, from the bounds of C05 and the relation between the time since the movement turned green and the time since the last acceleration update (LampProofs.v).
  Theorems: `P_Arrive.C75_alone_arrives` [R], `P_Clear.C75_road_clears` [R], `P_LampEx.C75_case` [R].
  Exact arithmetic. C69_arrives and C74_road_clears are derived from these theorems. C75_case is the road of C74_case with a light with two conflicting movements before its last link, where the runs exist too.
* **C76 Vehicles let onto a road one after the other never collide, and the road becomes empty again** (proved). Vehicle.v, LinkOps.v, Path.v, Sim.v over real arithmetic; the invariant of C73 (room to react between any two vehicles on the road, what the drivers know of it) is shown to survive add_vehicle followed by set_vehicle_destination if the new vehicle fits in (RoadEnter.v), induction over the history (P_Traffic.v); then the argument of C75 from any state with the invariant.
  Theorems: `P_Traffic.C76_no_collisions` [R], `P_Traffic.C76_road_clears` [R], `P_TrafficEx.C65_add_returns` [-].
  Exact arithmetic. Extends C73 and C75 to open systems that start with an empty road (SpecTraffic.traffic); C76_example lets two cars onto a road of three links and runs any steps. Concrete case: C76_example.
* **C77 A vehicle on its own gets past give-way and stop signs, crossings and traffic lights** (proved). Vehicle.v, LinkOps.v, Sim.v over real arithmetic; C75's argument, where the time before a link with a sign is divided into coming up to the line, lining up there (C23_lines_up) and being let in at the next acceleration update, because the only vehicle the conflicting links could show is the one itself and no way leads from one to the other (CrossProofs.v, LampProofs.v).
  Theorems: `P_Arrive.C77_alone_arrives` [R], `P_SignEx.C77_case` [R], `P_Enter.C23_lines_up` [-].
  Exact arithmetic. C75_alone_arrives and C69_arrives are derived from this theorem, and C75_road_clears and C76_road_clears cover signs on the road too (SpecLamp.opens). C77_case is a road of three links with a stop sign before the second, which another link crosses; the conflict is made by add_link_convergance, and the runs exist.
* **C78 Parts of the network that are not connected do not influence each other** (proved). all of the model over any arithmetic; two simulations side by side: every scan, path search and update reads only links of the same part (closed under touching, LocPath.v, LocScan.v), so the six phases of a step keep the two related (LocSim.v, LocStep.v), calls about the rest do not touch the part (LocElse.v), calls about the part act the same on both (LocCall.v), and induction over both runs. The numbers drawn by waiting vehicles differ between the two, only their order is the same.
  Theorems: `P_Local.C78_call` [-], `P_Local.C78_elsewhere` [-], `P_Local.C78_separate` [-], `P_Local.C78_goes_on` [-], `P_Local.C78_vehicles` [-].
  Any arithmetic, so binary64 too. C78_call covers steps, set_frozen, set_vehicle_destination, remove_vehicle, set_link_control, randomise with the same samples and do_lane_change; calls that create links, groups, conflicts, lights or vehicles are covered when they concern the rest (C78_elsewhere). C78_separate shows that the hypothesis of being separate is kept by both kinds. Ties between equally cheap routes must be broken the same way on the part (same_ties): the code breaks them by hash order. Both runs must return (C65 is about that). Example: two roads, one with and one without traffic.
* **C79 A vehicle stays out of a crossing until it is its turn** (proved). `SpecCross.v` says what a crossing is (a registered conflict of two links that do not run in the same direction), which vehicle of a link is next at it, and that it is taken or not that vehicle's turn. At every refresh the vehicle's predecessor in the order by front is then on the other link (`next_after`), so C52's bound makes it brake for the start of the zone; the distance to that start is kept by the same potential as in C63 and C64 (`turn_step`). `P_TurnEx.v` computes the zones of two straight links in exact arithmetic and shows that the hypotheses hold for ever for a car that waits for one that stands in the crossing. `C79_merging` says the same of links that come together, as long as no vehicle of the other link has got its rear past the start of the zone (after that the code follows it instead); `P_MergeEx.v` gives its concrete case.
  Theorems: `P_Turn.C79_waits_its_turn` [R], `P_Turn.C79_taken_crossing` [R], `P_TurnEx.C79_case` [R], `P_Turn.C79_merging` [R], `P_MergeEx.C79_merging_case` [R].
  exact arithmetic; the vehicle is the first of its link, careful (as in C63) and starts with room to react; C79_case and C79_merging_case are concrete cases in which the hypotheses hold for every sequence of steps
* **C80 Junctions with signs do not lock up** (proved). any arithmetic. `SpecJunction.v` says what a junction, a waiting vehicle and the cause of further waiting are. A search for a gap that ends with a refusal has found a vehicle that does not give way (`check_gap_who`), so a vehicle that is not let in has such a cause (C80_reason_to_wait). Of the waiting vehicles the one with the highest priority and, among those, the smallest number has none: every other one gives way to it (`somebody_goes`), and the numbers differ by C22.
  Theorems: `P_Junction.C80_reason_to_wait` [-], `P_Junction.C80_no_lock_up` [-].
  Any arithmetic, so binary64 too. The statement is about the simulation after the lane changes at the start of the step, as in C23. Vehicles that wait must be first at their line (a vehicle that lane-changes in front of a waiting one can block a junction) and vehicles that do not wait must not be on their way to links of a higher priority. C80_example is a crossing with two stop signs in binary64. Concrete case: C80_example.
* **C81 Two vehicles at conflicting signs are let in together only if one is gone before the other arrives** (proved). any arithmetic, from C49_only_with_gaps: the vehicle of the pair that would have to give way was let in with a sufficient gap, and the first vehicle the search meets on the other road is the other one (`in_time`).
  Theorems: `P_Together.C81_one_at_a_time` [-].
  Any arithmetic, so binary64 too. Nobody is on the two links before the end of the conflict, and the two vehicles are the next to reach it. C81_example is a case in which both are let in in one step. Concrete case: C81_example.
* **C82 A sign whose waiting distance is zero or less is never passed** (proved). the invariant of C66 (`queue_step`, stated for an end that is closed or has such a sign and nobody registered) together with: nobody is registered as waiting. To be registered the front has to be beyond the line by more than minus the distance of the sign (C23_queued), and the invariant keeps every front before the line (`shut_step`). `P_ShutEx.v` runs it on two links with a stop sign between them.
  Theorems: `P_Shut.C82_sign_at_the_line` [R], `P_Shut.C82_for_ever` [R], `P_ShutEx.C82_case` [R].
  Exact arithmetic; same hypotheses as C66 (careful vehicles on a link without a way in from outside, enough room at the start). C82_case is a car sent past a stop sign with distance 0: it never gets there, for any number and lengths of steps. C77 is the opposite case, distances of more than 3 m.
* **C83 Where the network lies on the map does not matter** (proved). SpecPlace.v says what a motion of the plane is, and what the moved curve, call, link, vehicle and simulation are. PlaceGeom.v, PlaceNet.v and PlaceSim.v show for every function of the model that it commutes with the motion (vector operations, projections onto curves, sampling, link construction, group tables, crossing zones; routes, scans, stop lines, car following, crossings; all phases of a step and all calls); the theorem is an induction over the calls.
  Theorems: `P_Place.C83_place` [R], `P_Place.C83_vehicles` [R], `P_Place.C83_routes` [R], `P_Place.C83_curves` [R].
  Exact arithmetic. Ties between routes of equal cost are broken the same way on both maps (choices_exist shows that this can always be arranged); C83_vehicles has no such hypothesis. Motions may include a reflection (C85 states that case by itself). C83_example: a quarter turn with a shift of two lanes, a group and a vehicle. In floating point the claim cannot hold exactly, because rounding depends on the place.
* **C84 The rear of a vehicle as others see it covers its body** (proved). Update of the coordinates modelled in Vehicle.v. Equation for the corners over any arithmetic (rear_exact), then plane geometry over the reals with the unit tangent of the centre line.
  Theorems: `P_Rear.C84_rear` [R], `P_Rear.C84_added` [R], `P_Rear.C84_covers` [R].
  Exact arithmetic. C84_added: of a vehicle just added. C84_rear: after each step the two corners lie on the line across the road half a length behind the vehicle and reach half a width beyond the outermost of the centre line and the middle of the rear. C84_covers: the whole rear of the body lies between them. Non-vacuity: C84_example, a car crossing over between two straight lanes.
* **C85 Driving on the left and driving on the right are the same** (proved). SpecMirror.v says what the mirror image of a point, a curve and a call is. The mirror is a motion with reflection in the sense of SpecPlace.v (the proofs of C83 carry the sign of lateral offsets through group tables, lane-change cubics and rear corners); the theorems follow from the step-by-step correspondence of C83.
  Theorems: `P_Mirror.C85_mirror` [R], `P_Mirror.C85_panics` [R].
  Exact arithmetic. C85_example: two lanes and a vehicle; the lane on the left becomes a lane on the right.
* **C86 The same calls give the same results** (proved). FuelProofs.v: 'cut off, or equal' is a congruence for bind and all loop combinators; every function of the model with a bound is monotone for it, by induction on the bound; route searches depend on the choices only when a destination is set, and only OSetDestination sets one (PlanProofs.v, Evo.v). P_Same.v: induction over the calls; a computed binary64 network with two ways of equal cost for the refutation.
  Theorems: `P_Same.C86_bound` [-], `P_Same.C86_repeatable` [-], `P_Same.C86_no_destination` [-], `P_Same.C86_routes` [-], `P_Same.C86_ties_refuted` [F].
  Any arithmetic. The model's bound on loop rounds (fuel) is an artefact: C86_bound shows that a result, once reached, is the same for every larger bound. C86_ties_refuted: the condition on ties is needed. C86_example: three cars, a light and a lane group, for every tie-breaking and every larger bound.
* **C87 What is taken back leaves no trace** (proved). Inserting a new id into a link's list and removing its last occurrence gives the list back (fresh ids by the slot map's invariant). The later calls: the locality theorems of C78 with the whole network as the part, plus calls about vehicles that are gone. P_Undo.v.
  Theorems: `P_Undo.C87_now` [-], `P_Undo.C87_later` [-].
  For every arithmetic. looks_same compares links, vehicles up to the numbers drawn in queues, frozen vehicles, lights that control links, and the number of steps. Later additions are left out because the ids given out afterwards differ; both runs are assumed to return. Concrete case: C87_example.
* **C88 Routes depend on the road map only** (proved). Every function of the route search (successors, Dijkstra, lane distances, paths) gives equal results on link sets that agree on the map, by induction over its loops (RoadMap.v); every call but three keeps the map.
  Theorems: `P_Map.C88_destination` [-], `P_Map.C88_map_stays` [-], `P_Map.C88_traffic` [-].
  For every arithmetic. same_map compares curves, travel times, connections out, groups and lane changes; same_way the whole routing state of the vehicle (destination, lane distances, paths to choose from). Concrete case: C88_example.
* **C89 The order of calls that have nothing to do with each other does not matter** (proved). Each call between steps described by its effect on each link, vehicle and frozen flag; effects of independent calls commute (P_Swap.v); routes by C88; the later calls as for C87.
  Theorems: `P_Swap.C89_now` [-], `P_Swap.C89_later` [-].
  For every arithmetic. Which pairs of calls are independent is spelled out in SpecSwap.v; both orders are assumed to return. Concrete case: C89_example.
* **C90 How time is cut into steps does not matter between two decisions** (proved). What a step does to a vehicle after the decisions (GlideProofs.v), which are a function of the state alone; constant-acceleration motions for d and for t compose to the one for d + t; induction over the steps.
  Theorems: `P_Glide.C90_motion` [R], `P_Glide.C90_cuts` [R], `P_Glide.C90_place` [R], `P_Glide.C90_stop` [R], `P_Glide.C90_case` [R].
  In real arithmetic. The route is counted in links passed: a step crosses at most one link end, so that after a step longer than a whole link the vehicle may still be listed on an earlier link (C90_place says when both are at the same place).
* **C91 Traffic acts on a vehicle through its acceleration only** (proved). A step is taken apart into the choice of lanes, the accelerations, the motion, the passage to the next link and the place in the plane (OwnProofs.v). Each part is shown to be a function of the map, the motion of the vehicle and, for the third part, its acceleration. Lane changes of several vehicles in one step are separated by an induction over the list of changes. SpecOwn.v says what the motion of a vehicle is and what steps with calls in between are.
  Theorems: `P_Own.C91_drive` [-], `P_Own.C91_step` [-].
  For every arithmetic. C91_drive allows other calls before, between and after the steps (adding and removing other vehicles, controls, freezing, randomising, lights, merges). Nothing is said here about when the accelerations agree: that is the subject of C24, C62 and C78. Example: C91_example runs the same car alone and with a closed, occupied road beside it.
* **C92 Who drives in front is not held back by those behind** (proved). The list of reasons of C61 is gone through: with nobody ahead on an open road only the speed limit is left. The lower bound is the entry for the limit in the list of accelerations. C91_step turns equal accelerations into equal motion (P_Front.v).
  Theorems: `P_Front.C92_front` [F], `P_Front.C92_front_exact` [R], `P_Front.C92_behind` [F], `P_Front.C92_behind_exact` [R].
  C92_front and C92_behind are about binary64, the others about exact arithmetic. C92_behind is about a step in which accelerations are computed; in between the acceleration stays (C24) and C91 applies. In binary64 it assumes that the acceleration for the limit is less than the maximum acceleration or equal to it. Example: C92_example puts a second car behind the one of C62.
* **C93 Only the last setting counts** (proved). The search and the table it yields are functions of the links, the origin and the destination, and the paths are rebuilt from the table alone (P_Again.v); completeness of the search (RouteProofs.v, search_ok) excludes the case that keeps the old table. A computed witness shows that the case matters.
  Theorems: `P_Again.C93_again` [-], `P_Again.C93_last` [-], `P_Again.C93_kept` [-], `P_Again.C93_control` [-], `P_Again.C93_frozen` [-], `P_Again.C93_unreachable_refuted` [F].
  C93_again holds for every arithmetic and every state. C93_last is the equality of the two outcomes, panics included, if the destination can be reached (leads, SpecRoute.v) or is the null key. C93_unreachable_refuted: with an unreachable second destination the outcome depends on the first (pathfinding.rs keeps the old table when the search finds nothing). Concrete case: C93_example.
* **C94 Traffic lights run by the clock alone** (proved). Induction over the history: a step applies the step of the light to every light once (LampProofs.v), no other call touches the lights there are (P_Clock.v). The links follow with C06.
  Theorems: `P_Clock.C94_clock` [-], `P_Clock.C94_same` [-], `P_Clock.C94_links` [-].
  The light after the history equals the result of its building calls followed by TrafficLight::step with the durations of the steps (lrun, durations in SpecClock.v), as an equality of states. Concrete case: C94_example.
* **C95 While no time passes nothing moves** (proved). The speed and the position after a step (step_motion, step_position) with a duration of 0; induction over the number of steps (P_Pause.v).
  Theorems: `P_Pause.C95_step` [R], `P_Pause.C95_pause` [R].
  Exact arithmetic. C95_case is the car of C82 on its way to the stop sign. Concrete case: C95_case.
* **C96 The links together carry every vehicle once** (proved). From C16 and C21: two duplicate-free lists with the same members (P_Iter.v). The slot map of the links never has a free slot, since no call removes a link, so a new link goes to the end.
  Theorems: `P_Iter.C96_once` [-], `P_Iter.C96_count` [-], `P_Iter.C96_order` [-], `P_Iter.C96_lights` [-].
  Holds in every arithmetic. Concrete case: C96_example.
* **C97 Nobody gets anywhere faster than the speed limit allows** (proved). Induction over the steps: the new position (step_position) with both speeds within the limit (C10); the network is the same after every step (P_Way.v, specification SpecWay.v).
  Theorems: `P_Way.C97_distance` [R], `P_Way.C97_time` [R].
  Exact arithmetic; one speed limit for all links and no individual speed factors, as in C10; links without lanes beside them, since a lane change sets the position by a search along the other lane. Concrete case: C97_case.

## 4. Findings (properties the code violates, each proved with a witness)

1. `LinkGroup::projection(src, dst)` returns the wrong projection when `dst` comes after `src`
   (`C32_right_refuted`), so lane-change costs to the right are computed at a wrong position.
2. A vehicle whose destination is its own link never gets leave to exit there (`C34_own_link_refuted`).
3. `all_routes` misses routes whose last move is a lane change and lists some twice (`C31_complete_refuted`,
   `C31_once_refuted`).
4. The gap check counts the approach twice and refuses sufficient gaps (`C49_every_gap_taken_refuted`).
5. `min_reach_time` over-estimates for a vehicle above the limit (`C11_over_estimate`).
6. The table of a lane projection can be empty; the next step panics, or reads out of range in a release
   build (`C38_projection_table_refuted`).
7. A lane with no distance left gets cost 0 or less and is preferred (`C33_no_distance_left_refuted`).
8. Traffic lights: conflicting movements in one phase, or a conflict declared on one side only, are
   both shown green (`C01_overlapping_phase_refuted`, `C01_asymmetric_conflict_refuted`).
9. A wheel base of 0 makes the heading NaN (`C44_no_wheel_base_refuted`).
10. When routing fails, the table of the previous destination is kept (`C28_stale_table_refuted`).
11. `rot90` turns counter-clockwise, its documentation says clockwise (`C43_clockwise_refuted`).
12. The following model brakes for a leader that is much faster (`C13_leader_refuted`).
13. A large time step drives a vehicle through the one in front (`C51_step_refuted`).
14. `intersect_curves` may return a position outside the second curve (`C42_second_in_bounds_refuted`).
15. A lone vehicle whose route contains two links in conflict with each other gives way to itself and stops
    for ever (`C62_own_conflict_refuted`).
16. Without lane groups all entries of a routing table are equal, so the candidate path listed first is taken; if a way
    back was connected before the way on, the vehicle goes round for ever (`C71_circles_refuted`).

17. A vehicle that cannot stop in time drives onto a closed link: `advance` does not look at the permission to
    enter (`C23_overrun_refuted`).
18. A removed vehicle is still reported frozen until the next update of accelerations (`C15_removed_refuted`), and a
    frozen vehicle is moved by a lane change (`C15_lane_change_refuted`).
19. `add_vehicle` does not check for overlaps (`C63_added_inside_refuted`).
20. A link in two groups makes a step panic (`C19_two_groups_refuted`).
21. Speed limits of 0 make the cost of a route overflow (`C53_no_limit_refuted`).
22. A vehicle whose maximum acceleration is 0 and that waits to cross a road in a loop makes a step never end (in the program: recursion until the
    stack overflows), since the time it needs is NaN (`C50_update_ends_refuted`).
23. A lane change is made without a look at the vehicles on the new lane; a car sent to the other lane drives into one that
    stands there (`C63_lane_change_refuted`).
24. The first step does not update accelerations: a vehicle that is frozen before it starts nevertheless
    (`C15_first_step_refuted`).
25. Where a road divides, a vehicle standing at the beginning of the other branch is not seen: a car on its way to one branch
    drives into it (`C73_fork_refuted`).
26. A give-way or stop sign with a waiting distance of 0 is never passed by a careful vehicle, even on an empty road: drivers
    stop before the line, and are registered as waiting only beyond it (`C82_for_ever`, `C82_case`).
27. A line segment between two different points whose distance is too small to be squared (below about
    1e-162) has an infinite direction, and its points are NaN (`C37_tiny_refuted`).
28. In the step in which a vehicle comes to a stop it covers half its speed times the length of the step, more than its braking
    distance if the step is longer than the braking takes (`C90_stop`).
29. `add_link_connection` does not make vehicles look out for each other where two links lead to the same one: without a
    call of `add_link_convergance` two cars drive onto the third link at the same place (`C73_merge_refuted`).
30. `calc_direction` measures the motion of the rear axle from the old position of the vehicle, so that motion is always 0: the
    new heading points from where the rear axle was, and the axle it implies has moved sideways (`C44_axle_refuted`).

## 5. Files

`Spec*.v` hold the specifications that theorem statements use beyond the API; `P_*.v` hold the property
theorems (`Cnn_...`) with an `Example` beside them and `Print Assumptions` beneath; `*Proofs.v`, `*Inv.v`,
`*Evo.v`, `*Safe.v` and the others hold lemmas. Names ending in `_refuted` are counterexamples to the
English claim, proved of the faithful model.
