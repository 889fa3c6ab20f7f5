{"id": "C01", "title": "Conflicting signals are never green or amber together", "statement": "If the conflict masks passed to add_movement are symmetric and no mask passed to add_phase contains two conflicting movements, then after any number of TrafficLight::step calls, with any time steps whatsoever, state() never reports two conflicting movements that are both non-red. Without the condition on the phase masks the claim is false.", "quantifier": "every configuration of movements and phases, every finite sequence of step(dt) calls, every f64 dt including NaN and infinities", "why_tests_cant": "a test runs finitely many configurations and schedules; the claim is an invariant of all of them", "anchors": ["src/light.rs: TrafficLight::step, can_turn_green, update_phase, apply_phase, Movement::step, add_movement, add_phase, state"]}
{"id": "C02", "title": "Signal states change only Red->Green, Green->Amber, Amber->Red or Amber->Green", "statement": "Across one TrafficLight::step, the state reported for each movement either stays the same or makes one of the transitions Red->Green, Green->Amber, Amber->Red, Amber->Green. A green signal never turns red without showing amber, and a red signal never shows amber.", "quantifier": "every reachable light, every dt, every movement", "why_tests_cant": "all configurations and histories, not samples", "anchors": ["src/light.rs: TrafficLight::step"]}
{"id": "C03", "title": "Amber is shown for at least the amber time and clearance is respected", "statement": "Whenever a movement goes from amber to red, the durations of the steps since (and including) the one in which it turned amber add up, in f64 arithmetic, to at least its amber_time. Whenever a movement goes from red to green, every other movement whose conflict mask names it is red and has been so for accumulated step time strictly greater than that movement's red_time.", "quantifier": "every configuration, every finite sequence of step(dt) calls", "why_tests_cant": "relates an event to the whole preceding history", "anchors": ["src/light.rs: TrafficLight::step, can_turn_green, Movement::step"]}
{"id": "C04", "title": "Phases advance cyclically and only after every green of the phase has lasted its duration", "statement": "A light with at least one phase and at most 64 movements can be stepped forever without panicking; its current phase always is a valid phase; a step either keeps the phase or moves to the cyclically next one, and it moves only if every movement of the current phase was green and had been green for at least the phase duration. A light with no phases panics on its first step.", "quantifier": "every configuration, every sequence of steps", "why_tests_cant": "invariant over unbounded histories and total absence of panics", "anchors": ["src/light.rs: TrafficLight::update_phase, apply_phase"]}
{"id": "C05", "title": "Every signal phase is eventually served", "statement": "In exact arithmetic, with the mask conditions of C01, starting from any reachable state of the light: with a constant positive time step, after finitely many further steps every movement of the current phase is green, and after finitely many more the light has moved to the next phase; hence every phase is served infinitely often. Moreover, for every bound on the lengths of the time steps there is a time T such that in every period of T seconds, whatever the lengths of the steps in it, each phase is served: all its movements show green together and have done so for the phase's duration.", "quantifier": "every well-formed configuration, every reachable state, every positive dt; for the second part every sequence of step lengths up to a bound", "why_tests_cant": "liveness: no finite run can show it", "anchors": ["src/light.rs: TrafficLight::step, update_phase, can_turn_green"]}
{"id": "C06", "title": "Links obey their traffic light after each step", "statement": "After Simulation::step returns, every link controlled by exactly one traffic light movement is open if that movement reports green and closed otherwise, whatever set_link_control calls came before.", "quantifier": "every reachable simulation, every dt", "why_tests_cant": "all histories", "anchors": ["src/simulation.rs: Simulation::update_lights, step, set_link_control", "src/light.rs: TrafficLight::get_states"]}
{"id": "C07", "title": "Applied acceleration always lies between the maximum braking and the vehicle's maximum acceleration", "statement": "Whatever the positions, velocities, headways and limits (NaN and infinities included), the acceleration that a step integrates for a vehicle is a number no smaller than -6 m/s^2, and no larger than the vehicle's max_acc when max_acc is a number not below -6.", "quantifier": "every sequence of acceleration-model calls with arbitrary f64 arguments", "why_tests_cant": "f64 NaN and overflow corner cases cannot be enumerated", "anchors": ["src/vehicle/acceleration.rs: AccelerationModel::acc, reset, idm, follow_vehicle, stop_at_line, apply_speed_limit, apply_current_speed_limit, emergency_stop"]}
{"id": "C08", "title": "Vehicle velocity is never negative and never NaN", "statement": "In every reachable simulation state, for every vehicle, Vehicle::vel() is an f64 that is >= 0 (in particular not NaN), no matter which f64 values were passed as attributes, speed limits or time steps.", "quantifier": "every sequence of API calls with arbitrary f64 arguments", "why_tests_cant": "all histories and all f64 values", "anchors": ["src/vehicle.rs: Vehicle::integrate, new, vel", "src/simulation.rs: step"]}
{"id": "C09", "title": "Vehicles never roll backwards", "statement": "With a non-negative dt, the integration part of Simulation::step never decreases the longitudinal position of a vehicle; while the vehicle stays on the link, pos_mid() is non-decreasing from step to step unless a lane change re-projects it.", "quantifier": "every vehicle state, every f64 dt >= 0", "why_tests_cant": "f64 rounding for all inputs", "anchors": ["src/vehicle.rs: Vehicle::integrate, pos_mid"]}
{"id": "C10", "title": "Vehicles never exceed the speed limit of the road they are on", "statement": "In exact arithmetic, if every link has the same positive speed limit L, all vehicles have velocity-adjust factor f > 0 and max_acc > 0 and the time between acceleration updates T satisfies 4*max_acc*T <= f*L, then a vehicle whose speed is at most f*L keeps a speed of at most f*L for ever.", "quantifier": "every network with that limit, every history of steps", "why_tests_cant": "inductive invariant of a numerical iteration", "anchors": ["src/vehicle/acceleration.rs: apply_current_speed_limit", "src/link.rs: Link::apply_accelerations", "src/vehicle.rs: Vehicle::integrate", "src/simulation.rs: step"]}
{"id": "C11", "title": "min_reach_time is exactly the kinematic travel time", "statement": "In exact arithmetic, for 0 <= vel <= max_vel, max_acc > 0, max_vel > 0 and dist >= 0, Vehicle::min_reach_time returns the unique t >= 0 at which a vehicle accelerating at max_acc up to max_vel and then cruising has covered dist; it is monotone in dist. If vel > max_vel the returned value over-estimates the time a vehicle that merely keeps its speed needs.", "quantifier": "all real parameters in range", "why_tests_cant": "continuous domain", "anchors": ["src/vehicle/acceleration.rs: AccelerationModel::min_reach_time", "src/vehicle.rs: Vehicle::min_reach_time"]}
{"id": "C12", "title": "Comfortable stopping distance is sufficient", "statement": "In exact arithmetic, if a vehicle can_stop before a position then braking at its comfortable deceleration brings it to rest with its front at least 2.5 m before that position, at every instant of the braking.", "quantifier": "all real parameters with comf_dec > 0", "why_tests_cant": "continuous domain", "anchors": ["src/vehicle/acceleration.rs: stopping_distance", "src/vehicle.rs: can_stop, stopping_distance"]}
{"id": "C13", "title": "Car-following brakes no less for a closer or slower leader, and brakes fully inside the minimum gap", "statement": "In exact arithmetic with positive max_acc, comf_dec and headway, the car-following acceleration never exceeds max_acc, is non-decreasing in the gap to the leader and in the leader's velocity over the physically meaningful range, and for any gap of at most 2 m the braking applied is the maximum (for max_acc >= 0.6).", "quantifier": "all real gaps and speeds", "why_tests_cant": "continuous domain", "anchors": ["src/vehicle/acceleration.rs: AccelerationModel::idm, follow_vehicle"]}
{"id": "C14", "title": "Each vehicle follows the one ahead on its link", "statement": "After an acceleration update, each vehicle that has another vehicle ahead of it on its link has an acceleration no larger than the car-following acceleration for that leader, and every vehicle on a link has an acceleration no larger than the one for that link's speed limit; later updates in the same frame only lower it.", "quantifier": "every simulation state and every link", "why_tests_cant": "all network states", "anchors": ["src/link.rs: Link::apply_accelerations", "src/simulation.rs: apply_link_accelerations"]}
{"id": "C15", "title": "Freezing a vehicle stops it and keeps it stopped", "statement": "set_vehicle_frozen/get_vehicle_frozen behave as a set of vehicle IDs: get returns exactly the last value set, for every sequence of calls on any IDs, as long as the vehicle exists. From the first acceleration update after freezing, the vehicle's acceleration is exactly the maximum deceleration; its speed drops by 6*dt per step until it is exactly 0, and from then on its speed stays 0 and its position unchanged until it is unfrozen, except that a step may still change its lane or carry it over the end of its link when it already was beyond that end.", "quantifier": "every history of set/get calls and steps", "why_tests_cant": "unbounded histories", "anchors": ["src/simulation.rs: set_vehicle_frozen, get_vehicle_frozen, apply_frozen_vehicles", "src/vehicle.rs: emergency_stop, integrate"]}
{"id": "C16", "title": "Every vehicle is on exactly one link", "statement": "In every state reachable by API calls that return normally, every vehicle in the simulation has a current link, that link exists, the link lists the vehicle exactly once, no other link lists it, and no link lists a vehicle that is not in the simulation.", "quantifier": "every finite sequence of API calls", "why_tests_cant": "inductive invariant over all histories", "anchors": ["src/simulation.rs: add_vehicle, remove_vehicle, advance_vehicles, do_lane_change, calculate_lane_changes", "src/link.rs: insert_vehicle, remove_vehicle", "src/vehicle.rs: advance, set_location, set_path"]}
{"id": "C17", "title": "Vehicles appear and disappear only when they should; IDs are never reused", "statement": "add_vehicle creates exactly one vehicle with an ID never returned before; remove_vehicle(id) removes exactly that vehicle; step creates none and removes a vehicle only if its centre has passed the end of the last link on its route; no other call changes the set of vehicles.", "quantifier": "every finite sequence of API calls", "why_tests_cant": "all histories", "anchors": ["src/simulation.rs: add_vehicle, remove_vehicle, step, advance_vehicles"]}
{"id": "C18", "title": "Vehicles move only along connections and permitted lane changes", "statement": "Between consecutive steps a vehicle's link_id either is unchanged, or is a lane permitted by lane_changes() of its link, or is a successor (links_out()) of its link or of such a lane. Planned routes are chains of links each of which is in links_out() of the previous one.", "quantifier": "every reachable state", "why_tests_cant": "all histories and networks", "anchors": ["src/vehicle.rs: advance, set_path, choose_path", "src/vehicle/pathfinding.rs: make_paths", "src/simulation.rs: calculate_lane_changes, do_lane_change"]}
{"id": "C19", "title": "API calls with IDs obtained from the simulation never fail on a lookup", "statement": "If all link IDs passed to the API came from add_link of the same simulation and vehicle IDs passed to set_vehicle_destination/do_lane_change are live, no call panics because of an unknown link or vehicle, an empty route, a counter underflow or an out-of-range element in the bookkeeping of vehicles; the remaining causes of a panic are exactly those listed per call: a light without phases or with more than 64 movements, a link group of fewer than 2 or more than 16 links or with duplicates, more than two lane changes out of one link, a link used by lane changes but re-assigned to another group, a degenerate curve, an empty projection table, a lane change to a link on whose curve no place beside some point is found, an overflow of route costs (only if some route can cost more than usize holds), and NaN geometry (never in exact arithmetic).", "quantifier": "every finite sequence of API calls", "why_tests_cant": "absence of panics over all histories", "anchors": ["src/simulation.rs: Simulation (all methods)"]}
{"id": "C20", "title": "frame() counts the steps", "statement": "frame() returns 0 for a new simulation and increases by exactly one with each step and by no other call.", "quantifier": "every finite sequence of API calls", "why_tests_cant": "all histories", "anchors": ["src/simulation.rs: step, frame"]}
{"id": "C21", "title": "IDs identify what they were returned for", "statement": "The ID returned by add_link, add_vehicle or add_traffic_light has never been returned before; get_link(id).id() == id and get_vehicle(id).id() == id for as long as the object exists; iter_links/iter_vehicles yield each live object exactly once.", "quantifier": "every finite sequence of API calls", "why_tests_cant": "all histories", "anchors": ["src/simulation.rs: add_link, add_vehicle, get_link, get_vehicle, iter_links, iter_vehicles"]}
{"id": "C22", "title": "Yield queues are first come, first served", "statement": "The order numbers vehicles get when they start to wait at a yield line are positive, never repeated, and increase with time: at any moment, of two waiting vehicles the one that started to wait in an earlier step has the smaller number, and a waiting vehicle keeps its number until it enters.", "quantifier": "every finite history of steps", "why_tests_cant": "all histories", "anchors": ["src/vehicle.rs: integrate, queue_link, get_route", "src/simulation.rs: step"]}
{"id": "C23", "title": "No vehicle is allowed into a closed link", "statement": "During an acceleration update, a vehicle is marked as having entered the next link of its route only if that link is open, or is a yield link that the vehicle was queued for and whose conflicts all have a sufficient gap; a vehicle whose next link is closed is instead held to the stop-line braking. The number of entered links is always between one and the length of the route.", "quantifier": "every reachable state", "why_tests_cant": "all network states", "anchors": ["src/link.rs: Link::apply_stoplines, process_vehicles, can_enter", "src/vehicle.rs: enter_link, integrate, get_route"]}
{"id": "C24", "title": "Acceleration and lane-change decisions are refreshed on schedule", "statement": "A step recomputes accelerations exactly if the f64 sum of the time steps since the last recomputation (or since creation) is at least 0.1 s (0.3 s for lane changes); otherwise it keeps the accelerations of all vehicles unchanged.", "quantifier": "every sequence of steps", "why_tests_cant": "all histories", "anchors": ["src/simulation.rs: step, apply_accelerations, calculate_lane_changes"]}
{"id": "C25", "title": "Random velocity adjustment stays within 25 percent", "statement": "Whatever the standard deviation and random samples, randomise_velocity_adjusts gives every vehicle a factor between 0.75 and 1.25 (unless the sample is NaN).", "quantifier": "every sample value", "why_tests_cant": "all f64 values", "anchors": ["src/simulation.rs: randomise_velocity_adjusts"]}
{"id": "C26", "title": "reachable_lanes is exactly reachability by permitted lane changes", "statement": "For a link in a group of at most 16 distinct links, reachable_lanes() contains a lane iff it can be reached by a (possibly empty) sequence of lane changes permitted by lc_mask, and reachable_from_lanes() is the converse relation. A link's lane_changes() are exactly the one-step permitted changes. No link has more than two lane_changes().", "quantifier": "every mask, group size and lane", "why_tests_cant": "all masks and sizes", "anchors": ["src/group.rs: LinkGroup::reachable_lanes, reachable_from_lanes, lane_changes, lc_bit", "src/link.rs: reachable_lanes, reachable_from_lanes"]}
{"id": "C27", "title": "Planned paths are bounded, connected and start where the vehicle is or may change to", "statement": "Every candidate path considered for a vehicle has between 1 and 8 links, starts on the vehicle's link or a lane it may change to, follows links_out() at each hop, stays within links from which the routing says the destination can be reached, is allowed to exit iff its last link is the destination, and only stops early where no such successor exists or the next link would start 200 m or more ahead.", "quantifier": "every network, origin and destination", "why_tests_cant": "all graphs", "anchors": ["src/vehicle/pathfinding.rs: make_paths, make_paths_inner"]}
{"id": "C28", "title": "Routing only uses links that lead to the destination", "statement": "After a successful (re)routing, the destination can be reached, via links_out() and permitted lane changes, from every link the vehicle's routing table contains.", "quantifier": "every network", "why_tests_cant": "all graphs", "anchors": ["src/vehicle/pathfinding.rs: calc_lane_matrix, reroute"]}
{"id": "C29", "title": "A reachable destination is always routed", "statement": "If the destination can be reached from the vehicle's link via connections and permitted lane changes, then after set_vehicle_destination the routing table contains the vehicle's link, and there is at least one candidate path from it.", "quantifier": "every network", "why_tests_cant": "all graphs", "anchors": ["src/vehicle/pathfinding.rs: set_destination, reroute, calc_lane_matrix, make_paths"]}
{"id": "C30", "title": "The shortest-path search is optimal and terminates", "statement": "The route found between two links has the least total cost among all routes through the network; a route is found iff one exists; the search ends on every finite network, whichever way equal costs are ordered.", "quantifier": "every finite weighted network", "why_tests_cant": "all graphs", "anchors": ["src/vehicle/pathfinding.rs: reroute, successors", "pathfinding::directed::dijkstra"]}
{"id": "C31", "title": "all_routes lists only real routes", "statement": "all_routes lists exactly the pairs (src, dst) of existing links such that nothing leads into src, nothing leads out of dst, and dst is reached from src by permitted lane changes alone or by a drive that may change lanes on every road but the last. So every pair is a real route, and the enumeration ends on every network. The converse fails: destinations reached by a lane change on the last road are missed. A pair may be listed twice.", "quantifier": "every network", "why_tests_cant": "all graphs", "anchors": ["src/simulation.rs: all_routes"]}
{"id": "C32", "title": "Lane projection lookup returns the projection that was asked for", "statement": "Projecting a position from one lane of a group to another uses the projection between those two lanes. This holds when the target lane is to the left and is false when it is to the right.", "quantifier": "every group and pair of lanes", "why_tests_cant": "all group sizes and pairs", "anchors": ["src/group.rs: LinkGroup::projection, new, projections_from_link", "src/link.rs: project_approx", "src/vehicle.rs: evaluate_path"]}
{"id": "C33", "title": "Lane distances form a saturating lattice; lane cost is positive only while distance remains", "statement": "Combining lane distances is commutative, associative and idempotent; offsetting never wraps, is monotone and distributes over combining. In exact arithmetic the cost of a lane decreases with its distances as long as all remaining distances are positive; it is false that a lane with no distance left has a high cost.", "quantifier": "all u32 values and positions", "why_tests_cant": "whole numeric domain", "anchors": ["src/vehicle/pathfinding.rs: LaneDists"]}
{"id": "C34", "title": "Leaving the network at the destination", "statement": "A vehicle has leave to exit at the end of its route only if the route ends in its destination; a vehicle that takes up another path gets that leave exactly if the path ends in the destination, and never gets it otherwise; a vehicle without leave that is first at the end of its last link brakes for that end. One would expect that a vehicle sent to the very link it is on may exit at its end. This is false: the call takes the leave away, and as no other path is ever chosen, it is not given again whatever calls follow, until the vehicle is sent elsewhere or moved by hand.", "quantifier": "every history", "why_tests_cant": "depends on the whole later history", "anchors": ["src/vehicle.rs: set_destination, choose_path, set_path", "src/simulation.rs: set_vehicle_destination, calculate_lane_changes"]}
{"id": "C35", "title": "Cubic fit hits both ends with the requested slopes", "statement": "In exact arithmetic, for x1 <> x2, CubicFn::fit(x1,y1,d1,x2,y2,d2) has values y1, y2 and derivatives d1, d2 at x1, x2; dy is the derivative of y; translate_x(a).y(x) = y(x+a).", "quantifier": "all real arguments", "why_tests_cant": "continuous domain", "anchors": ["src/math/cubic.rs: CubicFn"]}
{"id": "C36", "title": "Lane changes are continuous across links and end on the centre line", "statement": "In exact arithmetic, a lane change starts at the vehicle's offset and slope, ends with offset 0 and slope 0, and when the vehicle passes from one link to the next during a lane change its lateral offset at the crossing does not jump; when the lane change completes the remaining offset function is dropped only at or after its end position.", "quantifier": "all real parameters", "why_tests_cant": "continuous domain", "anchors": ["src/simulation.rs: do_lane_change", "src/vehicle.rs: advance, integrate, offset_at", "src/math/cubic.rs"]}
{"id": "C37", "title": "Line segments and Bezier curves interpolate their end points and report true derivatives", "statement": "In exact arithmetic, LineSegment2d::from_ends(a,b) samples to a at 0 and to b at its length, with unit tangent; quadratic and cubic Bezier curves sample to their first and last control points; sample_dt and sample_dt2 are the derivatives of sample; CubicBezier2d::quadratic traces the same curve as the quadratic, line is the straight line, reverse traverses it backwards, and the two halves of subdivide(t) re-parametrise the original.", "quantifier": "all real control points and parameters", "why_tests_cant": "continuous domain", "anchors": ["src/math/curve/bezier.rs: LineSegment2d, QuadraticBezier2d, CubicBezier2d"]}
{"id": "C38", "title": "Sampling a link curve never reads outside its segments", "statement": "For every f64 position, including negative, huge, infinite and NaN ones, the segment index used by the unchecked access of LinkCurve is within bounds. The corresponding claim for the unchecked access of link projections is false: the table can be empty.", "quantifier": "every curve accepted by LinkCurve::with_step and every f64", "why_tests_cant": "all f64 values; a memory-safety claim", "anchors": ["src/link/curve.rs: LinkCurve::sample_internal, with_step", "src/group.rs: LinkProjection::sample, LinkGroup::new"]}
{"id": "C39", "title": "Link curves pass through the sampled points and are continuous", "statement": "In exact arithmetic, the curve built by LinkCurve::with_step passes through every computed equidistant point at multiples of the step, so it is continuous, and sample_centre returns a unit tangent wherever the derivative does not vanish.", "quantifier": "all point sequences", "why_tests_cant": "continuous domain", "anchors": ["src/link/curve.rs: with_step, sample_centre, sample_internal"]}
{"id": "C40", "title": "Equidistant points are evenly spaced and the length is their sum", "statement": "Whenever equidistant_points_along_curve returns, its first point is the curve start, consecutive computed points are apart by a distance whose f64 ratio to the step is within [0.99, 1.01], and the reported length is (number of full steps)*step plus the remaining distance. With a positive step, the remaining distance is the one to the end of the curve and at most one step.", "quantifier": "every parametric curve and step for which it returns", "why_tests_cant": "arbitrary user-supplied curve functions", "anchors": ["src/math/curve/algorithms.rs: equidistant_points_along_curve"]}
{"id": "C41", "title": "Curve subdivision respects the maximum length and keeps order", "statement": "Whenever subdivided_samples_along_curve finishes, its first and last samples are the ends of the curve, each sample is the curve's value at its parameter, consecutive samples are at most max_length apart, and (exact arithmetic) parameters strictly increase. It finishes for every curve of bounded speed and positive max_length (exact arithmetic).", "quantifier": "every parametric curve for which it returns", "why_tests_cant": "arbitrary user-supplied curve functions", "anchors": ["src/math/curve/algorithms.rs: SubdividedSamples, subdivided_points_along_curve"]}
{"id": "C42", "title": "Curve projection and intersection results meet their tolerance", "statement": "If project_point_onto_curve returns a parameter inside the curve's bounds, the last Newton correction was smaller than max_error; on a straight line (exact arithmetic) the result is the foot of the perpendicular. If intersect_curves returns a pair, the two curve points are less than 0.01 apart and the first is within its curve; crossing straight lines are found. The parameter on the second curve need not be within its bounds.", "quantifier": "every curve, point and start value", "why_tests_cant": "arbitrary user-supplied curve functions", "anchors": ["src/math/curve/algorithms.rs: project_point_onto_curve, intersect_curves"]}
{"id": "C43", "title": "Vector helpers are correct", "statement": "In exact arithmetic, rot90 turns by a quarter turn, project_local is the inverse of placing local coordinates for any orthonormal frame, and normalize_with_derivative returns a unit vector and its true derivative for any differentiable non-vanishing vector function.", "quantifier": "all real vectors", "why_tests_cant": "continuous domain", "anchors": ["src/math/util.rs: rot90, project_local, normalize_with_derivative"]}
{"id": "C44", "title": "Vehicle heading stays a unit vector and turns towards the motion", "statement": "In exact arithmetic with a positive wheel_base, if the heading was a unit vector and the vehicle moves forward (non-negative dot product with its heading), the new heading is a unit vector that makes an angle below 90 degrees with the old one. With wheel_base = 0 the claim is false in f64 (the heading becomes NaN).", "quantifier": "all real positions", "why_tests_cant": "continuous domain", "anchors": ["src/vehicle/dynamics.rs: calc_direction", "src/vehicle.rs: update_coords"]}
{"id": "C45", "title": "Interval operations satisfy their contracts", "statement": "In exact arithmetic: contains/overlaps/clearance_with/distance agree with set-theoretic membership, intersection and gap; inv_lerp inverts lerp for non-degenerate intervals; disc, midpoint, length and shifting are consistent.", "quantifier": "all intervals and values", "why_tests_cant": "whole numeric domain", "anchors": ["src/util.rs: Interval"]}
{"id": "C46", "title": "Conflict checks visit every conflict exactly once", "statement": "rotated_range(count, start) with start < count (or count = 0) yields each index below count exactly once, beginning with start; the remembered starting index always is in range, so starting elsewhere never changes the outcome of a give-way decision.", "quantifier": "all counts and starts, every reachable state", "why_tests_cant": "all sizes", "anchors": ["src/util.rs: rotated_range", "src/link.rs: can_enter"]}
{"id": "C47", "title": "Lookup tables clamp", "statement": "LookupTable::sample(x) returns for every f64 x the table entry of the cell containing x, clamped to the first and last cells; it panics exactly if the table is empty.", "quantifier": "every table and every f64", "why_tests_cant": "all f64 values", "anchors": ["src/math/lut.rs: LookupTable"]}
{"id": "C48", "title": "Conflict points are registered symmetrically", "statement": "add_link_convergance(a,b) with distinct valid links either changes nothing or adds one conflict to each of the two links, each naming the other link with that link's conflicting range; with equal or unknown IDs it does nothing. Recorded ranges satisfy min_pos < max_pos in exact arithmetic and start at most one step before the link.", "quantifier": "every network", "why_tests_cant": "all curves", "anchors": ["src/conflict.rs: ConflictPoint::new, link_conflicts, ConflictPointLink::new", "src/simulation.rs: add_link_convergance"]}
{"id": "C49", "title": "Give-way decisions honour priority and gaps", "statement": "A waiting vehicle that is first at the line is let into a yield link exactly if every conflict has a sufficient gap: going back from the conflict zone along the conflicting link and the links before it, the first vehicle met that is on its way there (and not past the zone) either gives way (it has not entered, and its link has lower priority, or equal priority and it does not wait or waits with a later number), or needs more than the waiting vehicle's clearing time plus 0.5 s to bring its centre to the zone; or the search gets so far back that nothing can arrive in time. The clearing time the code uses counts the approach link's length twice, so it is conservative but refuses some sufficient gaps.", "quantifier": "every network state", "why_tests_cant": "all network states", "anchors": ["src/link.rs: can_enter, check_gap, apply_stoplines, RelativeVehicle::offset"]}
{"id": "C50", "title": "Upstream scans end on every network", "statement": "In exact arithmetic, if all link lengths and speed limits are positive, the acceleration update of a step (car following, stop lines, gap checks, passing obstacles, conflict zones) ends on every network, cyclic ones included, in every state that can be reached. The recursion along the links upstream is bounded: a scan goes back at most (look-ahead distance - position) / (least length) + 1 links, a gap check at most (time * highest limit - position) / (least length) + 1.", "quantifier": "every network and every reachable state", "why_tests_cant": "termination on all graphs", "anchors": ["src/link.rs: process_vehicles, check_gap", "src/vehicle.rs: can_pass", "src/simulation.rs: apply_accelerations"]}
{"id": "C51", "title": "Vehicles are inserted in order along a link", "statement": "Inserting a vehicle into a link whose vehicles are ordered by position keeps them ordered and keeps the order of the others; removing a vehicle keeps the order of the others. Hence every call except step leaves the vehicles of every link in order, and a step does so as long as no vehicle overtakes another on its link (which a large time step does not prevent). can_insert_vehicle, on a link with ordered vehicles that do not overlap, accepts a position exactly if the new vehicle would overlap no other.", "quantifier": "every reachable state and call; every link state", "why_tests_cant": "all sizes", "anchors": ["src/link.rs: insert_vehicle, remove_vehicle, can_insert_vehicle"]}
{"id": "C52", "title": "Passing and merging conflicts brake the follower", "statement": "When vehicles of two conflicting links are both near the conflict point, each vehicle whose predecessor in the merged order is on the other link gets an acceleration no larger than either following that predecessor or stopping at the conflict point.", "quantifier": "every network state", "why_tests_cant": "all network states", "anchors": ["src/conflict.rs: ConflictPoint::apply_accelerations, find_vehicles"]}
{"id": "C53", "title": "Link cost is the travel time in tenths of a second", "statement": "cost() is the floor of 10*length/speed_limit for a positive speed limit (exact arithmetic), saturating at the usize range; it is monotone in length and antitone in speed limit.", "quantifier": "all lengths and limits", "why_tests_cant": "whole numeric domain", "anchors": ["src/link.rs: Link::new, cost"]}
{"id": "C54", "title": "The attributes of a vehicle never change", "statement": "A vehicle added with add_vehicle(attributes, link) has exactly those attributes (dimensions, wheel base, headway, maximum acceleration, comfortable deceleration) and speed 0, and keeps the attributes over every later history of API calls as long as it exists.", "quantifier": "every history of API calls", "why_tests_cant": "unbounded histories", "anchors": ["src/vehicle.rs: Vehicle::new, integrate, advance", "src/simulation.rs: add_vehicle, step"]}
{"id": "C55", "title": "The road network is the one the user built", "statement": "The outgoing and incoming connections of a link are exactly those added with add_link_connection (in call order), no link ever disappears, and its curve, length, speed limit and cost never change after add_link, whatever else is called and however much time is simulated. add_link always returns an id that was never used before.", "quantifier": "every history of API calls, every link and every connection", "why_tests_cant": "a test follows one history; the claim is about every interleaving of building, editing and stepping calls, several of which rewrite link records", "anchors": ["src/simulation.rs: add_link, add_link_connection, step", "src/link.rs: Link, links_out, links_in"]}
{"id": "C56", "title": "A routed vehicle does not get lost", "statement": "If a vehicle that was just put on a link is sent to a destination that can be reached from there, then until it leaves the network, is sent elsewhere or is made to change lane by the user, the destination can be reached (via links_out() and permitted lane changes) from the link it is on and from every link of its planned route, however many steps are made and even if roads are added meanwhile.", "quantifier": "every network, every history of calls", "why_tests_cant": "It is an invariant over unbounded histories of steps, lane changes and replanning on arbitrary networks.", "anchors": ["src/vehicle/pathfinding.rs: Pathfinding::set_origin, make_paths, calc_lane_matrix", "src/vehicle.rs: Vehicle::choose_path, set_path, advance, set_location", "src/simulation.rs: Simulation::calculate_lane_changes, advance_vehicles"]}
{"id": "C57", "title": "Vehicles look ahead onto the next links", "statement": "Whenever step() refreshes accelerations, the first vehicle on its way to a link (going back along the preceding links in use, as far as five seconds of driving at their limits) is held to the car-following acceleration behind the last vehicle on that link, at their distance across the links, and slows down for the limit of that link: in exact arithmetic it either could still reach its version of that limit with comfortable braking before the link starts, or brakes so that it reaches it in time, or brakes twice as hard as is comfortable (or with full braking).", "quantifier": "every history of API calls, every step that refreshes accelerations, every link in use and every way to it", "why_tests_cant": "it ranges over all networks, positions and speeds of the vehicles before the link, and over every state a history can lead to", "anchors": ["src/link.rs: apply_accelerations, process_vehicles", "src/vehicle/acceleration.rs: speed_limit, follow_vehicle", "src/simulation.rs: step"]}
{"id": "C58", "title": "Lane-change decisions take the cheapest candidate path", "statement": "Whenever lane changes are due (every 0.3 s of simulated time), each vehicle that is not changing lanes and has candidate paths ends up on the cheapest of its candidate paths, the first one if there are several of the same cost; its leave to exit is then that of the path. A vehicle that is changing lanes, one without candidates, and any vehicle when lane changes are not due keeps exactly the state it has.", "quantifier": "all histories of calls, all vehicles and all arithmetics", "why_tests_cant": "all networks, candidate lists and timings", "anchors": ["src/vehicle.rs: choose_path, evaluate_path, set_path", "src/simulation.rs: calculate_lane_changes"]}
{"id": "C59", "title": "A vehicle is shown at its place on its link", "statement": "After every call of a history in which a vehicle is not moved with do_lane_change, the vehicle's position() is the point of its link's curve at pos_mid(), and during a lane change that point moved sideways by the current offset of the lane change (LinkCurve::sample(pos, offset)); after every step this holds for every vehicle. It holds in f64, not only in exact arithmetic.", "quantifier": "all histories of API calls, all vehicles, all arithmetic", "why_tests_cant": "ranges over all histories, networks and lane changes", "anchors": ["src/vehicle.rs: update_coords, advance, set_location", "src/simulation.rs: step, add_vehicle", "src/link/curve.rs: sample, sample_centre, lat_offset"]}
{"id": "C60", "title": "Vehicles follow what is in their way in the other lanes", "statement": "When the accelerations are updated, every vehicle on a lane of a group is seen from each other lane of the group as an obstacle, with the position, the sideways extent and the corners of its rear on that lane. Going back from the obstacle, vehicles that have more than 0.5 m of room beside it when they drive past do not stop the search; the first one that has not gets an acceleration that is at most what the driver model gives for the gap between its front and the nearest corner of the obstacle along the lane and for the speed of the other vehicle (or full braking).", "quantifier": "every history of API calls, every step, every group of different lanes with any curves, and all vehicles on them", "why_tests_cant": "It depends on the shapes of the lanes, the sideways offset of vehicles that are changing lane and the order of the vehicles; a test covers single scenes.", "anchors": ["src/link.rs: Link::follow_obstacles, Link::apply_accelerations", "src/vehicle.rs: Vehicle::can_pass, Vehicle::project", "src/group.rs: LinkProjection::project"]}
{"id": "C61", "title": "Every acceleration below the maximum has a reason", "statement": "When a step recomputes accelerations, a vehicle that is not frozen gets either its maximum acceleration or an acceleration for which there is one of these reasons: the speed limit of its link; the vehicle right in front of it; the limit of, or the last vehicle on, a link ahead on its route within the lookahead; the end of a link where it must stop (it may not leave there, or the next link is closed, or must be given way to and there is no sufficient gap); a vehicle of another lane of the group that is in its way; or a vehicle right before it in a conflict of two links.", "quantifier": "every sequence of API calls and every step in which accelerations are recomputed, every vehicle, in binary64 and in exact arithmetic", "why_tests_cant": "A test sees that a vehicle brakes for the situations it sets up; that it brakes for nothing else is a statement about all networks and states.", "anchors": ["src/link.rs: apply_stoplines, apply_accelerations, follow_obstacles, process_vehicles", "src/conflict.rs: apply_accelerations", "src/vehicle.rs", "src/vehicle/acceleration.rs", "src/simulation.rs: apply_accelerations"]}
{"id": "C62", "title": "A vehicle alone on an open road is held back by the limit only", "statement": "If a vehicle is the only one, is not frozen, may leave at the end of its route, its route visits no link twice, and the links of the route are open, have the same limit and neither conflicts nor lanes beside them, then whenever accelerations are recomputed it gets its maximum acceleration or that for the limit; in exact arithmetic that is a (1 - (v/limit)^4), so it speeds up until it drives at its version of the limit. (With a conflict between two links of its own route this is false: the vehicle gives way to itself and stops for good.)", "quantifier": "every sequence of API calls that leads to such a state, every vehicle at or below the limit, every step in which accelerations are recomputed", "why_tests_cant": "That nothing in the code can stop a lone vehicle is a claim over all roads, positions and speeds; a test drives down a few.", "anchors": ["src/link.rs: apply_stoplines, apply_accelerations", "src/conflict.rs: apply_accelerations", "src/vehicle/acceleration.rs: apply_speed_limit, apply_current_speed_limit"]}
{"id": "C63", "title": "A following vehicle never drives into the one in front of it", "statement": "In exact arithmetic: a vehicle stays right behind another one on a link without lane changes, time steps take at most d seconds, its headway is long enough for its speed (an explicit inequality between maximum acceleration, comfortable deceleration, headway, d and the highest speed V), and at the beginning it has room to react (it could accelerate until the next refresh of accelerations and then still stop behind the other one with 6 m/s^2). Then the distance between the two never becomes negative, and at every moment the vehicle can still stop in time, whatever the other vehicle does.", "quantifier": "every history of API calls before and during the following, every behaviour of the vehicle in front, every sequence of step lengths between 0 and d", "why_tests_cant": "Absence of collisions over all manoeuvres of the leader and all step patterns is an invariant; accelerations are refreshed only every 0.1 s, so the worst case is not the one a test hits.", "anchors": ["src/vehicle/acceleration.rs: follow_vehicle, idm", "src/simulation.rs: step, apply_accelerations, integrate", "src/link.rs: apply_accelerations"]}
{"id": "C64", "title": "A vehicle that has to wait stops before the end of its link", "statement": "In exact arithmetic: as long as the first vehicle of a link may not enter the next link of its route (or has no next link and no leave to exit), with the same conditions on headway, step length and room as in C63, its front never passes the end of the link, and at every moment it can still stop before it.", "quantifier": "every history before, every sequence of calls and of step lengths between 0 and d during which the vehicle has to wait", "why_tests_cant": "Whether a vehicle overruns a stop line depends on speed, position, refresh phase and step lengths together; only an invariant covers all of them.", "anchors": ["src/link.rs: apply_stoplines", "src/vehicle/acceleration.rs: stop_at_line", "src/simulation.rs: step"]}
{"id": "C65", "title": "A simulation on a sound network always goes on", "statement": "In exact arithmetic: if all links have positive length and speed limit, lights have a phase, at most 64 movements and existing links, no route costs more than usize can hold, and either no link allows lane changes and no link is in its group twice, or all links in groups are straight and no link is in two groups or twice in one, then every sequence of time steps of any lengths returns: no step panics and no step runs for ever.", "quantifier": "every reachable state of such a network, every finite list of step lengths, every choice among equally short routes", "why_tests_cant": "Termination and absence of panics for ever after is a claim about all future states of all networks.", "anchors": ["src/simulation.rs: Simulation::step", "src/link.rs", "src/vehicle.rs", "src/vehicle/pathfinding.rs"]}
{"id": "C66", "title": "Vehicles queue at a closed end without touching each other", "statement": "In exact arithmetic: on a link whose end is closed (all following links closed, or none), that no other link leads to and no lane change enters or leaves, vehicles with sufficient headway and room to react stay on the link, in the same order, for any number of time steps up to d: no front passes the end, and no two vehicles of the queue overlap. On a road that ends, all these steps also return.", "quantifier": "every number of vehicles, every history of API calls that leads to such a state, every finite list of step lengths between 0 and d", "why_tests_cant": "The queue may have any length and every vehicle in it reacts to the one in front; an induction over the queue and over time is needed.", "anchors": ["src/link.rs: apply_stoplines, apply_accelerations", "src/vehicle/acceleration.rs", "src/simulation.rs: step"]}
{"id": "C67", "title": "A vehicle is seen from the neighbouring lane where it is", "statement": "For two lanes of a group, the table by which positions on one are translated to the other lists, every two metres, the position on the other lane found beside that point of the first and the lateral offset there, up to the first link's end or up to the last point that could be found. In exact arithmetic, on parallel straight lanes, the obstacle a vehicle casts on the other lane is at the vehicle's rear end, at most two metres behind, with the vehicle's lateral extent shifted by exactly the distance between the lanes, its rear corners and its velocity.", "quantifier": "every reachable network and group; every pair of parallel lanes, every position of the vehicle", "why_tests_cant": "All geometries and positions; a table shifted by one entry or a wrong sign shows only for some.", "anchors": ["src/group.rs: LinkProjection::new, project, sample", "src/vehicle.rs: Vehicle::project"]}
{"id": "C68", "title": "The lane distances a vehicle chooses by are distances it can drive", "statement": "Every distance a vehicle keeps for how far it can get with at most i lane changes, in its routing table and in its candidate paths, is the length of a real drive with at most i lane changes through the network, in tenths of a metre and saturated: until the destination it was sent to (then unlimited) or until the end of a link from which it would need a lane change. After set_vehicle_destination with a destination that can be reached, and until it is redirected, that destination is the one meant.", "quantifier": "every history of API calls, vehicle, table entry and number of lane changes up to 3; any arithmetic", "why_tests_cant": "The distances are propagated backwards through arbitrary networks and depend on all earlier calls.", "anchors": ["src/vehicle/pathfinding.rs: PathfindingModel, LaneDists", "src/simulation.rs: set_vehicle_destination"]}
{"id": "C69", "title": "A vehicle alone on open roads gets to its destination", "statement": "On roads that are open, have no lanes beside each other and no conflicts, are long enough for the vehicle, are controlled by no light and on which no way leads back to where it started, a vehicle that is alone in the simulation, not frozen, and is sent with set_vehicle_destination to another link that its link leads to, leaves the simulation within a bounded simulated time, whatever the lengths of the time steps (up to a maximum). If moreover links have one speed limit and are long enough for the vehicle to choose its way before it reaches their ends, it leaves from its destination link and from no other, also if some links are closed or have lights.", "quantifier": "all such networks and histories that build them, all vehicles with positive parameters, all sequences of time steps between 0 and the maximum, real arithmetic", "why_tests_cant": "A liveness property: a test sees one run on one network with one step length; that the vehicle never stalls needs every network, start state and schedule of steps.", "anchors": ["src/simulation.rs: Simulation::set_vehicle_destination, Simulation::step", "src/vehicle.rs: Vehicle::choose_path, Vehicle::advance, Vehicle::integrate", "src/vehicle/pathfinding.rs: Pathfinding", "src/vehicle/acceleration.rs: AccelerationModel"]}
{"id": "C70", "title": "On roads without lanes beside each other and without ways back, a vehicle takes a cheapest way", "statement": "After a vehicle is sent to a destination that can be reached, and until it is sent elsewhere, its route is at all times the beginning of a cheapest way from its link to the destination (the cost of a way being the sum of the costs of the links it leaves), and whenever it goes from one link to another, the new link is the next one of a cheapest way from the old link. This holds whatever the traffic, the lights and the other calls, on networks without link groups and in which no link leads back to itself, as long as no roads are built and the user does not make the vehicle change lane.", "quantifier": "all such networks, histories of calls and steps, time steps, destinations and tie-breaking of the search", "why_tests_cant": "The way depends on the network, on ties in the search and on when the choices fall; a test sees one network and one trip.", "anchors": ["src/vehicle/pathfinding.rs: reroute", "src/vehicle/pathfinding.rs: calc_lane_matrix", "src/vehicle/pathfinding.rs: make_paths", "src/vehicle.rs: choose_path", "src/simulation.rs: set_vehicle_destination"]}
{"id": "C71", "title": "Where several links lead on, the one connected first is taken; a way back that comes first keeps the vehicle circling", "statement": "On roads without link groups, whenever a vehicle that was sent to a reachable destination goes from one link to another, the new link is the first, in the order in which the links were connected, for which the vehicle has a routing entry. It follows that a vehicle on a link whose only following link leads first back to it never arrives (refutation of: a vehicle that is sent to a reachable destination gets there).", "quantifier": "all networks without link groups, histories of calls and steps, and time steps", "why_tests_cant": "That a vehicle never arrives is a statement about all continuations; that the first link is taken at every junction is one about all networks.", "anchors": ["src/vehicle/pathfinding.rs: make_paths_inner", "src/vehicle/pathfinding.rs: LaneDists", "src/vehicle.rs: choose_path", "src/vehicle.rs: evaluate_path"]}
{"id": "C72", "title": "A vehicle whose destination is taken away keeps what is left of its route and nothing else", "statement": "After the destination of a vehicle is set to the null link id, and until it is given another (or the user makes it change lane), it has no routing entries and no candidate paths, its route is what is left of the route it had at the call, and it has no leave to exit at the end of it.", "quantifier": "all reachable simulations, vehicles, and later calls and steps", "why_tests_cant": "It speaks of all later histories; a stale routing table shows only in those in which the vehicle comes to a junction.", "anchors": ["src/vehicle/pathfinding.rs: reroute", "src/vehicle/pathfinding.rs: make_paths", "src/vehicle.rs: set_destination", "src/simulation.rs: set_vehicle_destination"]}
{"id": "C73", "title": "Vehicles on a road of several links neither collide nor overtake", "statement": "In exact arithmetic: on a road made of any number of links one after the other, without junctions and without lanes beside each other, let all vehicles be on their way to the end of the road, with sufficient headway and with room to react to the vehicles in front of them, on links that are long enough for that (all explicit inequalities; the speed limit is the same everywhere and time steps take at most d seconds). Then no two vehicles on the road ever overlap and none overtakes another, over the joints between links as well, whatever the step lengths, whichever links are opened or closed, whichever vehicles are frozen or removed and whatever happens elsewhere.", "quantifier": "every number of links and vehicles, every history of API calls that leads to such a state, and every further history of time steps up to d seconds, changes of link controls, freezing, removals, and additions and redirections of other vehicles", "why_tests_cant": "The vehicle in front may be on the same link, on the next link or further ahead, is looked for anew every 0.1 s only, and drivers learn how to go on only every 0.3 s; only an invariant over all vehicles and all step patterns excludes the one collision at a joint that no test scenario contains.", "anchors": ["src/link.rs: apply_accelerations", "src/vehicle/acceleration.rs: follow_vehicle, idm", "src/vehicle.rs: enter_link, advance", "src/simulation.rs: step, apply_accelerations, integrate, advance_vehicles", "src/vehicle/pathfinding.rs"]}
{"id": "C74", "title": "All vehicles on an open road of several links get to its end and leave", "statement": "In exact arithmetic: on a road as in C73, where moreover all links are open, without conflicts and without traffic lights, no link leads back to where one has been, no vehicle is frozen and all vehicles on the road were sent to its end, there is a time after which all of these vehicles have left the simulation, whatever the lengths of the time steps (up to d seconds each). No vehicle blocks another for ever, however many there are and however the road is divided into links.", "quantifier": "every number of links and vehicles, every history of API calls that leads to such a state, and every sequence of further time steps of at most d seconds", "why_tests_cant": "That nobody is stuck behind somebody else is a statement about all numbers of vehicles and all patterns of step lengths, over an unbounded time; a test sees one pattern and one deadline.", "anchors": ["src/link.rs: apply_accelerations", "src/vehicle/acceleration.rs: follow_vehicle, stop_at_line, idm", "src/vehicle.rs: advance, enter_link", "src/simulation.rs: step, advance_vehicles", "src/vehicle/pathfinding.rs"]}
{"id": "C75", "title": "Nobody waits for ever at a traffic light", "statement": "In exact arithmetic: the conclusions of C69 (a vehicle alone gets to its destination) and C74 (all vehicles on a road of several links get to its end and leave) hold also if links are controlled by traffic lights. It suffices that each link on the way is open and controlled by no light, or is controlled by one movement of one light that some phase of at least 0.1 seconds lets go; that no light has a phase for two movements of which one names the other as conflicting; and that where a light stands there is no choice of the way. There is then a time within which the vehicles have left the simulation, whatever the state the lights are in at the start and whatever the lengths of the time steps (up to d seconds each). So a vehicle that stops at a red light sees the green in time to go, though drivers look at the lights only at the acceleration updates.", "quantifier": "every such network, every history of API calls that builds it, lights with any number of movements and phases in any state, any number of links and vehicles, and every sequence of further time steps of at most d seconds", "why_tests_cant": "A liveness property over unbounded time that involves three clocks which run independently of each other (acceleration updates, lane-change updates, light phases) and arbitrary step lengths; a test sees one interleaving of them.", "anchors": ["src/light.rs: TrafficLight::step, update_phase, can_turn_green", "src/simulation.rs: step, update_lights, apply_accelerations", "src/link.rs: apply_accelerations, apply_stoplines", "src/vehicle/acceleration.rs: stop_at_line, follow_vehicle", "src/vehicle.rs: advance"]}
{"id": "C76", "title": "Vehicles let onto a road one after the other never collide, and the road becomes empty again", "statement": "In exact arithmetic: on a road without junctions (any number of links of at least m metres, one speed limit L) that is empty at first, vehicles are added from time to time with add_vehicle, at the beginning of any of its links but the last, and sent to the last link with set_vehicle_destination. At the moment a vehicle is added it has room to react to the vehicles in front of it and those behind it have room to react to it. Then no two vehicles on the road ever overlap, whatever the number of vehicles, the moments they are added, the lengths of the time steps (up to d seconds) and the other calls between (freezing, removing vehicles, changing the controls of links, adding traffic lights, vehicles elsewhere). And from any such state on, once no more vehicles are added, none is frozen and the links are open or have lights that show green from time to time, there is a time within which all vehicles have left. Adding a vehicle to a link that exists always returns.", "quantifier": "every such network, every history of API calls that builds it, every number of vehicles added at any moments at which they fit in, and every interleaving with time steps of at most d seconds and the other calls named", "why_tests_cant": "The traffic is an open system: vehicles keep coming, and the state each of them is added to depends on the whole history before; the invariant must survive any number of additions at any phase of the update clocks.", "anchors": ["src/simulation.rs: add_vehicle, set_vehicle_destination, step, apply_accelerations, advance_vehicles", "src/link.rs: insert_vehicle, apply_accelerations", "src/vehicle.rs: set_location, advance, choose_path", "src/vehicle/acceleration.rs: follow_vehicle"]}
{"id": "C77", "title": "A vehicle on its own gets past give-way and stop signs, crossings and traffic lights", "statement": "In exact arithmetic: a vehicle that is the only one in the simulation, on single-lane roads that may cross or join each other, and that is sent with set_vehicle_destination to a link its own link leads to, has left the simulation within a bounded time, whatever the lengths of the time steps (up to d seconds each). Each link on a way there may be open, may have a give-way or stop sign (CYield whose waiting distance is over three metres), or may be controlled by a traffic light that some phase of at least 0.1 seconds lets go. It is required that no way leads back to where it started, that no link has a conflict with itself or with a link before or after it on some way, that there is no choice of the way where a light stands, and that links are longer than half the vehicle plus three metres. So the vehicle stops where it has to, is not made to give way to itself, and moves on.", "quantifier": "every history of calls that leads to such a state, every network of that kind, every vehicle, destination and finite list of step lengths", "why_tests_cant": "Liveness: the bound must hold for every network and every list of step lengths.", "anchors": ["src/link.rs: Link::apply_stoplines, can_enter, check_gap", "src/vehicle.rs: enter_link, stop_at_line, queue_link", "src/simulation.rs: Simulation::step, add_link_convergance, set_link_control", "src/conflict.rs: ConflictPoint::new"]}
{"id": "C78", "title": "Parts of the network that are not connected do not influence each other", "statement": "Let a part of the links be separate: no connection, lane group, crossing or traffic light joins one of its links with another link, and no vehicle on it is sent elsewhere. Then two simulations that agree on the part (links, vehicles on it, crossings, lights, frozen flags, update timers) and get the same calls about it (steps, frozen flags, destinations, removals, lane changes, link controls) agree on it for ever, whatever is added, removed or changed in the rest of the network in between: every vehicle on the part has the same link, position, velocity, coordinates and route.", "quantifier": "every arithmetic, every set of links, every pair of reachable simulations that agree on it, every pair of call sequences that differ only in calls about the rest", "why_tests_cant": "it compares two histories of any length over any network, and depends on no scan, search or shared counter ever reading across the boundary", "anchors": ["src/simulation.rs: step, apply_accelerations, calculate_lane_changes, advance_vehicles", "src/link.rs: apply_stoplines, apply_accelerations", "src/conflict.rs: apply_accelerations", "src/vehicle/pathfinding.rs"]}
{"id": "C79", "title": "A vehicle stays out of a crossing until it is its turn", "statement": "Where two links cross (and add_link_convergance has been called for them), as long as some vehicle of one link is in the crossing, or is further ahead and has not left it, the first vehicle of the other link does not enter the crossing: its front stays before the start of the zone and it stays able to stop there, provided its driver is careful and it had room to react at first. Where two links come together, the same holds as long as a vehicle of the other link is on its way in, with its front past the start of the zone and its rear not.", "quantifier": "all networks with a registered crossing, all positions and speeds of the vehicles, all sequences of calls and of step lengths up to a bound, and any duration, in exact arithmetic", "why_tests_cant": "It must hold at every moment of every run, whatever the lengths of the steps are and however the other vehicles move; a test follows a few runs.", "anchors": ["src/conflict.rs: ConflictPoint::apply_accelerations, ConflictPointLink::find_vehicles", "src/link.rs: process_vehicles", "src/simulation.rs: Simulation::add_link_convergance, Simulation::step", "src/vehicle.rs: Vehicle::stop_at_line"]}
{"id": "C80", "title": "Junctions with signs do not lock up", "statement": "A vehicle that waits at a give-way or stop sign, first at its line, goes on waiting at an acceleration update only if some other vehicle that does not have to give way to it may reach a conflict too soon. Hence, if vehicles wait at a junction all of whose links have signs and nobody is in it, one of them is let in at the next update: at the signs of the highest priority, the one that has waited longest.", "quantifier": "all junctions, numbers of waiting vehicles, priorities, arrival orders and states, in any arithmetic", "why_tests_cant": "Deadlock shows only in particular combinations of waiting vehicles, priorities and arrival orders; there are infinitely many, and a test sees a few.", "anchors": ["src/link.rs: Link::apply_stoplines, Link::can_enter, Link::check_gap", "src/vehicle.rs: Vehicle::queue_link, Vehicle::enter_link, Vehicle::get_route, Vehicle::integrate", "src/simulation.rs: Simulation::set_link_control, Simulation::step"]}
{"id": "C81", "title": "Two vehicles at conflicting signs are let in together only if one is gone before the other arrives", "statement": "If two vehicles wait at the signs of two links that conflict with each other, nobody is before them in the conflict, and both are let in in the same step, then the one that has to give way (lower priority or, at the same priority, a later number) needs less time to leave the conflict, plus half a second, than the other needs to reach it.", "quantifier": "all networks, positions, speeds, priorities and arrival orders, in any arithmetic", "why_tests_cant": "Both decisions are taken within one update from the same state, before either takes effect; a race of this kind depends on positions, speeds and order, which tests sample only.", "anchors": ["src/link.rs: Link::apply_stoplines, Link::can_enter, Link::check_gap", "src/vehicle.rs: Vehicle::min_reach_time, Vehicle::integrate"]}
{"id": "C82", "title": "A sign whose waiting distance is zero or less is never passed", "statement": "If every link that follows a road is closed or has a give-way or stop sign with a waiting distance of zero (or less), then no careful vehicle on that road ever passes the sign: it stops before the line, never gets near enough to it to be registered as waiting, and stays for ever, even if nobody else is in sight.", "quantifier": "all networks, vehicles and numbers of vehicles on the road, and all sequences of time steps of at most a given length, in exact arithmetic", "why_tests_cant": "That nothing ever happens cannot be seen in a finite test; the model shows that no state from which the vehicle could go on is reachable.", "anchors": ["src/link.rs: Link::apply_stoplines, Link::can_enter, TrafficControl", "src/vehicle.rs: Vehicle::stop_at_line, Vehicle::queue_link", "src/simulation.rs: Simulation::set_link_control, Simulation::step"]}
{"id": "C83", "title": "Where the network lies on the map does not matter", "statement": "Take any sequence of API calls and apply to the curves of all links the same change of the plane that keeps distances (a turn, a shift, a reflection, or any combination). Then, apart from rounding, every call has the same outcome (the same panic or a normal return), the same ids and the same routes are returned, and after every call every vehicle is on the same link at the same position with the same speed, acceleration, route and destination; only its world position and its direction are changed accordingly.", "quantifier": "all changes of the plane that keep distances, all sequences of API calls (all curves, networks, vehicles, lights, steps), all vehicles and links", "why_tests_cant": "a test moves one network by one motion; a formula that depends on the axes or on the origin (a swapped component, a direction compared with zero, a missing difference) shows only in particular places", "anchors": ["src/simulation.rs: Simulation", "src/link/curve.rs: LinkCurve", "src/math/curve/algorithms.rs: project_point_onto_curve", "src/vehicle.rs: Vehicle::update_coords"]}
{"id": "C84", "title": "The rear of a vehicle as others see it covers its body", "statement": "After every step, the two points reported by rear_coords() of a vehicle lie on the line that crosses the road half a vehicle length behind the vehicle's position, at right angles to the centre line there. Sideways they reach half a vehicle width beyond the outermost of the centre line and the middle of the rear of the body. So seen along the road the whole rear bumper, in the direction reported by direction(), lies between the two points and the middle of the rear is not behind them, also while the vehicle turns or changes lanes.", "quantifier": "every reachable simulation, every step of any length, every vehicle, in exact arithmetic, wherever the centre line has a unit direction", "why_tests_cant": "The claim is about every position, heading and lane offset a vehicle can reach, which no finite set of scenarios covers.", "anchors": ["src/vehicle.rs: Vehicle::rear_coords", "src/vehicle.rs: Vehicle::update_coords", "src/vehicle.rs: Vehicle::direction"]}
{"id": "C85", "title": "Driving on the left and driving on the right are the same", "statement": "Take any sequence of API calls and mirror the curves of all links in the x axis. Then, apart from rounding, every call that returned also returns, every call that panicked panics in the same way, and after every call every vehicle is on the same link at the same position with the same speed, acceleration and route and is changing lanes exactly when it was before; its world position, its direction and the corners of its rear as others see them are the mirror images, with left and right exchanged.", "quantifier": "all sequences of API calls (all curves, networks, vehicles, lane changes, lights, steps), all vehicles and links", "why_tests_cant": "a test mirrors one network; a sign error in a lateral offset, in the choice of the left or right corner or in an overlap test shows only for particular arrangements of lanes and vehicles", "anchors": ["src/vehicle.rs: Vehicle::update_coords", "src/group.rs: LinkGroup", "src/link/curve.rs: LinkCurve", "src/math/curve/algorithms.rs: project_point_onto_curve", "src/simulation.rs: Simulation"]}
{"id": "C86", "title": "The same calls give the same results", "statement": "Two simulations that are given the same calls with the same arguments (and, for randomise_velocity_adjusts, draw the same factors) and break ties between routes of equal cost the same way either both panic in the same way or are in the same state afterwards. As long as no destination is set, the way ties are broken does not matter. The list of all routes does not depend on anything but the network. Where ties are broken differently, vehicles may take different routes.", "quantifier": "all sequences of API calls, all networks, vehicles, lights and numbers, all ways to break ties, all bounds on the number of loop rounds", "why_tests_cant": "a test repeats one scenario; a dependence on chance, on the order of a hash table or on a limit of a loop shows only in some scenarios", "anchors": ["src/simulation.rs: Simulation::step", "src/simulation.rs: Simulation::all_routes", "src/vehicle/pathfinding.rs: PathfindingModel", "src/link.rs: Link::process_vehicles"]}
{"id": "C87", "title": "What is taken back leaves no trace", "statement": "Adding a vehicle and removing it again at once, freezing and releasing a vehicle, or changing the control of a link and setting it back leaves every link (with the order of its vehicles), vehicle, frozen flag, traffic light and the frame count as they were; and any further calls that add nothing, steps included, lead to the same as they would have led to without the calls that were taken back.", "quantifier": "all reachable states, all vehicle attributes, links and controls, all later calls that add nothing to the simulation, for every arithmetic", "why_tests_cant": "ranges over all states and all later histories; a stale entry shows up only many steps later", "anchors": ["src/simulation.rs: Simulation::add_vehicle, remove_vehicle, set_vehicle_frozen, set_link_control", "src/link.rs: Link::insert_vehicle, remove_vehicle, set_control"]}
{"id": "C88", "title": "Routes depend on the road map only", "statement": "What a vehicle learns when its destination is set (the distances it can drive in each lane and the paths it chooses among), or how the call fails, is determined by the road map (curves, travel times, connections, groups and permitted lane changes) and by what the vehicle knew before; other vehicles, traffic controls, traffic lights, crossings and frozen vehicles have no influence. Only adding links, groups and connections changes the map.", "quantifier": "all pairs of simulations with the same road map, all vehicles and destinations, all histories in between, for every arithmetic", "why_tests_cant": "ranges over all traffic situations and all networks", "anchors": ["src/vehicle/pathfinding.rs: PathfindingModel", "src/simulation.rs: Simulation::set_vehicle_destination", "src/vehicle.rs: Vehicle::set_destination"]}
{"id": "C89", "title": "The order of calls that have nothing to do with each other does not matter", "statement": "Two calls made between steps (setting a control, freezing or releasing, setting a destination, removing or adding a vehicle) that do not concern the same thing lead to the same links, vehicles, frozen flags, lights and frame count in either order, and every later call that adds nothing, steps included, then leads to the same.", "quantifier": "all reachable states, all pairs of independent calls, all later calls that add nothing, for every arithmetic", "why_tests_cant": "ranges over all states and all later histories; a hidden dependency on the order shows only in particular states", "anchors": ["src/simulation.rs: Simulation::add_vehicle, remove_vehicle, set_vehicle_frozen, set_vehicle_destination, set_link_control", "src/link.rs: Link::insert_vehicle, remove_vehicle"]}
{"id": "C90", "title": "How time is cut into steps does not matter between two decisions", "statement": "Until accelerations and lanes are chosen anew, a vehicle moves with constant acceleration exactly: after the time T its speed is its old speed plus T times the acceleration (never below zero), and unless it has come to a stop it has come as far along its route as constant acceleration takes it. Decisions are made at the start of a step and do not depend on its length. So two ways of cutting the same time into steps, with no decisions after the first step, give all vehicles the same accelerations, the same speeds and the same places. The exception is the step in which a vehicle comes to a stop: it covers half its old speed times the length of the step, which is at least the braking distance and depends on the cut.", "quantifier": "all networks, all histories, all lists of time steps of any lengths from zero, all vehicles", "why_tests_cant": "Tests compare a few step lengths; the claim is about every way to cut every span of time, with vehicles anywhere, crossing from link to link.", "anchors": ["src/vehicle.rs: Vehicle::integrate", "src/vehicle.rs: Vehicle::advance", "src/simulation.rs: Simulation::step", "src/simulation.rs: Simulation::calculate_lane_changes", "src/simulation.rs: Simulation::apply_accelerations"]}
{"id": "C91", "title": "Traffic acts on a vehicle through its acceleration only", "statement": "Take two simulations with the same road map in which a vehicle is in the same motion: same size, place, direction, speed, route, destination and plans. Everything else may differ: the other vehicles, controls, lights, registered crossings and merges, whether the vehicle waits or has been let in, its driver's parameters. Both are stepped, with any calls in between that are not about this vehicle and do not change the map. If in each step the vehicle gets the same acceleration in both, it is in the same motion in both at the end: same place on the road and in the plane, same speed, same direction, same route, same lane change under way.", "quantifier": "all pairs of histories with the same map and the same lane change clock, all vehicles, all sequences of steps of any length and calls in between, every arithmetic", "why_tests_cant": "The claim compares every possible traffic around a vehicle; a test fixes one.", "anchors": ["src/simulation.rs: Simulation::step, calculate_lane_changes, advance_vehicles, update_vehicle_coords", "src/vehicle.rs: Vehicle::choose_path, set_path, set_location, integrate, advance, update_coords"]}
{"id": "C92", "title": "Who drives in front is not held back by those behind", "statement": "A vehicle is the foremost on its link, the other links of its route are empty, open, without crossings or lanes beside them, and it may leave at the end. Whatever vehicles follow it or drive elsewhere, when accelerations are computed it gets the acceleration for the speed limit and nothing less. Hence in two simulations with the same map in which it is in the same motion with nobody ahead, it has the same acceleration and is in the same motion after a step, however different the vehicles behind it, the controls and the traffic elsewhere.", "quantifier": "all pairs of histories with the same map, all vehicles with nobody ahead, all vehicles behind and elsewhere, binary64 and exact arithmetic", "why_tests_cant": "It must hold for every number and arrangement of followers and for all other traffic.", "anchors": ["src/link.rs: Link::apply_accelerations", "src/simulation.rs: Simulation::step, apply_link_accelerations", "src/vehicle.rs: Vehicle::follow_vehicle"]}
{"id": "C93", "title": "Only the last setting counts", "statement": "Setting the destination of a vehicle a second time succeeds and leaves the whole simulation exactly as it is; the same holds for freezing a frozen vehicle or releasing one that is not frozen. If the destination of a vehicle is set twice and the second can be reached from its link, or is no link, the second call ends (in the same state, or with the same failure) as it would have without the first; for the control of a link the last one set counts in every case. A destination that cannot be reached is the exception: the vehicle keeps the plan made for the earlier one.", "quantifier": "all reachable states, vehicles, links, destinations and controls, all tie-breaks of the search, for every arithmetic with casts in range", "why_tests_cant": "ranges over all road maps and all earlier destinations; a plan left over from an earlier call shows only on particular maps", "anchors": ["src/simulation.rs: Simulation::set_vehicle_destination, set_vehicle_frozen, set_link_control", "src/vehicle.rs: Vehicle::set_destination", "src/vehicle/pathfinding.rs: PathfindingModel::set_destination, reroute, make_paths"]}
{"id": "C94", "title": "Traffic lights run by the clock alone", "statement": "A traffic light that was built by some calls and added to a simulation is, after any further calls, in exactly the state of the same light used on its own and stepped with the durations of the simulation steps made since; roads, vehicles and all other calls have no influence on it. The same light in two simulations whose steps last the same shows the same signals, and a link controlled by this light only is, after a step, open exactly if the light on its own shows green.", "quantifier": "all reachable states, all ways to build a light, all later histories of calls, all step durations, for every arithmetic", "why_tests_cant": "ranges over all histories and all traffic; a test sees a few steps of one simulation", "anchors": ["src/simulation.rs: Simulation::add_traffic_light, update_lights, step", "src/light.rs: TrafficLight::step, get_states"]}
{"id": "C95", "title": "While no time passes nothing moves", "statement": "Steps of no duration, however many, change the speed of no vehicle, and a vehicle that is not past the end of its link and has no other lane to change to stays on its link at the same position, whatever is decided in these steps.", "quantifier": "all reachable states, all vehicles, any number of steps of no duration, exact arithmetic", "why_tests_cant": "ranges over all states and any number of steps; decisions, lights and permissions are still brought up to date in such a step, and any of them could move a vehicle in a state no test visits", "anchors": ["src/simulation.rs: Simulation::step, integrate, advance_vehicles", "src/vehicle.rs: Vehicle::integrate, advance"]}
{"id": "C96", "title": "The links together carry every vehicle once", "statement": "Every vehicle of iter_vehicles is met exactly once, and nothing else is, when the traffic rules go over the links of iter_links and over the vehicles each has on it (the order in which they follow one another); so the numbers of vehicles on the links add up to the number of vehicles of the simulation. iter_links yields the links in the order in which they were added: a new link comes last, and no other call changes the list of IDs. iter_lights likewise yields every traffic light once, with its ID, in the order of adding.", "quantifier": "every state reachable by a finite sequence of API calls, and every next call", "why_tests_cant": "all histories, with lane changes, removals and vehicles leaving in any order", "anchors": ["src/simulation.rs: iter_links, iter_vehicles, iter_lights, add_link, add_traffic_light, add_vehicle, remove_vehicle, do_lane_change, step", "src/link.rs: Link::insert_vehicle, Link::remove_vehicle"]}
{"id": "C97", "title": "Nobody gets anywhere faster than the speed limit allows", "statement": "On a network with one speed limit and without lanes side by side: a vehicle that is still there after some steps has driven along connected links; the distance from where it was to where it is, measured along those links, is not negative and at most the speed limit times the time that has passed. So getting from the start of a link to another link takes at least the length of the shortest way divided by the limit.", "quantifier": "every network of that kind and every history that built it and its traffic, every vehicle, every sequence of steps of any lengths up to the bound of C10", "why_tests_cant": "all networks, traffic and step lengths; the sum over any number of steps and links", "anchors": ["src/simulation.rs: step, integrate, advance_vehicles", "src/vehicle.rs: Vehicle::integrate, Vehicle::advance"]}
