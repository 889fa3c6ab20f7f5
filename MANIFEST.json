{"claims": [
 {"property": "C01", "status": "proved", "theorems": ["C01_conflicting_signals_exclusive", "C01_overlapping_phase_refuted", "C01_asymmetric_conflict_refuted"], "note": "Proved under symmetric conflicts and exclusive phases; the refutations show both are needed."},
 {"property": "C02", "status": "proved", "theorems": ["C02_signal_transitions"], "note": ""},
 {"property": "C03", "status": "proved", "theorems": ["C03_amber_time", "C03_clearance_time", "C03_stopwatch_total"], "note": ""},
 {"property": "C04", "status": "proved", "theorems": ["C04_step_total", "C04_phase_valid", "C04_phase_advance"], "note": ""},
 {"property": "C05", "status": "proved", "theorems": ["C05_every_phase_served", "C05_phase_moves_on", "C05_served_in_time"], "note": "Real arithmetic."},
 {"property": "C06", "status": "proved", "theorems": ["C06_links_obey_light", "C06_controls", "C06_light_history", "C06_light_step", "C06_others"], "note": ""},
 {"property": "C07", "status": "proved", "theorems": ["C07_bounds", "C07_applied"], "note": ""},
 {"property": "C08", "status": "proved", "theorems": ["C08_speed", "C08_not_nan", "C08_speed_exact"], "note": ""},
 {"property": "C09", "status": "proved", "theorems": ["C09_forward"], "note": ""},
 {"property": "C10", "status": "proved", "theorems": ["C10_speed_limit", "C10_factors"], "note": "Every history of calls with one limit, steps of at most d seconds and 4 max_acc (1/10 + d) <= f L; exact arithmetic, as the claim says."},
 {"property": "C11", "status": "proved", "theorems": ["C11_reach_time", "C11_monotone", "C11_over_estimate"], "note": "Exact arithmetic. min_reach_time is the exact time under constant maximal acceleration capped at the limit when the vehicle is not above the limit; C11_over_estimate shows that it over-estimates when the vehicle is faster than the limit."},
 {"property": "C12", "status": "proved", "theorems": ["C12_can_stop"], "note": "Exact arithmetic, equivalence."},
 {"property": "C13", "status": "proved", "theorems": ["C13_at_most_max", "C13_gap", "C13_leader", "C13_leader_refuted", "C13_minimum_gap"], "note": "Exact arithmetic. The claim about faster leaders holds up to the point where the wanted gap becomes negative; C13_leader_refuted is the counterexample beyond it."},
 {"property": "C14", "status": "proved", "theorems": ["C14_follow", "C14_limit"], "note": ""},
 {"property": "C15", "status": "proved", "theorems": ["C15_set", "C15_get", "C15_brakes", "C15_keeps_braking", "C15_speed", "C15_speed_exact", "C15_rest", "C15_position", "C15_removed_refuted", "C15_lane_change_refuted", "C15_first_step_refuted"], "note": "The refutations: a removed vehicle is still reported frozen; a frozen vehicle is moved by a lane change; a vehicle frozen before the first step starts nevertheless."},
 {"property": "C16", "status": "proved", "theorems": ["C16_occupancy"], "note": ""},
 {"property": "C17", "status": "proved", "theorems": ["C17_add_vehicle", "C17_fresh_ids", "C17_remove_vehicle", "C17_step", "C17_other_calls", "C17_never_back"], "note": ""},
 {"property": "C18", "status": "proved", "theorems": ["C18_step_moves", "C18_routes", "C18_other_calls"], "note": ""},
 {"property": "C19", "status": "proved", "theorems": ["C19_panic_causes", "C19_existing_ids_never_fail", "C19_two_groups_refuted"], "note": "A lane change panics only if there is a point beside which no place on the target link is found; that never happens on straight links (C36, C65_lanes_go_on). C19_two_groups_refuted: a link in two groups makes a step panic, though all ids exist."},
 {"property": "C20", "status": "proved", "theorems": ["C20_frame"], "note": ""},
 {"property": "C21", "status": "proved", "theorems": ["C21_ids", "C21_fresh_links", "C21_fresh_lights"], "note": ""},
 {"property": "C22", "status": "proved", "theorems": ["C22_reported", "C22_numbers", "C22_order", "C22_keep", "C22_keep_other_calls"], "note": ""},
 {"property": "C23", "status": "proved", "theorems": ["C23_entered", "C23_queued", "C23_count", "C23_held", "C23_let_in", "C23_lengths", "C23_lengths_exact", "C23_lines_up", "C23_overrun_refuted"], "note": "Every reachable state whose link lengths add up (any mix of lengths from 1 mm to a million km in binary64, any positive lengths in exact arithmetic). Crossing onto a link physically is a separate matter: advance does not look at the permission (C23_overrun_refuted)."},
 {"property": "C24", "status": "proved", "theorems": ["C24_accelerations_kept", "C24_accelerations_recomputed", "C24_lane_changes_kept"], "note": ""},
 {"property": "C25", "status": "proved", "theorems": ["C25_range", "C25_samples", "C25_kept"], "note": "The clamped offsets and medians of every link, over whole histories."},
 {"property": "C26", "status": "proved", "theorems": ["C26_reachable_lanes", "C26_lane_changes", "C26_two_at_most"], "note": "Every history of calls; groups of any size the API accepts."},
 {"property": "C27", "status": "proved", "theorems": ["C27_planned", "C27_bounds", "C27_current"], "note": "Every history of calls. The paths are the planned ones over the roads at the time of planning; C27_current says the same of the present roads if none were added since the vehicle was sent to its destination. A path also ends where a link starts 200 m or more ahead."},
 {"property": "C28", "status": "proved", "theorems": ["C28_leads", "C28_unreachable_keeps_table", "C28_stale_table_refuted"], "note": "Every history whose groups do not overlap, including roads added afterwards. The other two theorems are about unsuccessful routing: the table of the previous destination is kept (finding)."},
 {"property": "C29", "status": "proved", "theorems": ["C29_routed", "C29_later"], "note": "Every history whose groups do not overlap; C29_later extends it to all later states while the roads stay the same."},
 {"property": "C30", "status": "proved", "theorems": ["C30_least_cost", "C30_ends", "C30_roads", "C30_roads_end"], "note": "Every graph with non-negative costs and every order of ties; C30_roads for the road networks that histories build. The search function is a model of the crate pathfinding, not of code in /repo. A cost sum beyond usize::MAX panics."},
 {"property": "C31", "status": "proved", "theorems": ["C31_exact", "C31_real", "C31_ends", "C31_complete_refuted", "C31_once_refuted"], "note": "Exactly which pairs are listed, for every history in which no link is named twice in the groups; the enumeration ends; routes ending with a lane change are missed and a link on its own is listed twice."},
 {"property": "C32", "status": "proved", "theorems": ["C32_left", "C32_right_refuted", "C32_from_link"], "note": "The projection returned is the one between the two links when the target comes before the source in the group; C32_right_refuted shows the table index is wrong when it comes after (finding)."},
 {"property": "C33", "status": "proved", "theorems": ["C33_combine", "C33_offset", "C33_shift", "C33_cost_exact", "C33_cost_falls", "C33_cost_strict", "C33_no_distance_left_refuted"], "note": "Combining, extending and shifting lane distances for all distances (saturating at 32 bits); the cost in exact arithmetic; in f64 a lane that has already ended costs nothing, so it wins."},
 {"property": "C34", "status": "proved", "theorems": ["C34_only_at_destination", "C34_new_path", "C34_needs_new_path", "C34_own_link_refuted", "C34_held_at_end"], "note": "The last claim of the property (leave at one's own link) is false of the code: C34_own_link_refuted shows that it fails for every history, under the stated conditions on the roads around the link. Concrete case: C34_example."},
 {"property": "C35", "status": "proved", "theorems": ["C35_fit", "C35_derivative", "C35_translate", "C35_constant", "C35_only"], "note": "Exact arithmetic; C35_only adds that the fitted cubic is the only one with the given end values and slopes. Concrete case: C35_example."},
 {"property": "C36", "status": "proved", "theorems": ["C36_call", "C36_straight", "C36_no_jump", "C36_no_corner", "C36_step"], "note": "Exact arithmetic. C36_step covers one step of the whole simulation: the offset function is carried over unchanged, shifted by the length of the link left, and the position shown uses it. That the search for the place on the other link is exact is proved for straight links (C36_straight); in general it stops within its tolerance. Concrete case: C36_example."},
 {"property": "C37", "status": "proved", "theorems": ["C37_line", "C37_quadratic", "C37_cubic", "C37_quadratic_as_cubic", "C37_line_as_cubic", "C37_reverse", "C37_subdivide", "C37_point", "C37_tiny_refuted"], "note": "Exact arithmetic; derivatives are those of the standard library (derivable_pt_lim). In binary64, C37_point: a line segment from a point to itself is that point, without NaN; C37_tiny_refuted: not so for two different points too close for their distance to be squared (finding 27). Concrete case: C37_example."},
 {"property": "C38", "status": "proved", "theorems": ["C38_curve", "C38_links", "C38_projection", "C38_projection_table_refuted"], "note": "The unchecked access of every curve is in range for every number; the claim about projection tables is refuted by a reachable state whose table is empty"},
 {"property": "C39", "status": "proved", "theorems": ["C39_points", "C39_links_made", "C39_continuous", "C39_tangent", "C39_derivative"], "note": "Exact arithmetic; curves of at most 2^32 segments (positions are cast to 32 bits)"},
 {"property": "C40", "status": "proved", "theorems": ["C40_points", "C40_f64", "C40_exact"], "note": "C40_points over any arithmetic; with a positive step the rest is the distance to the end of the curve, in binary64 and exactly"},
 {"property": "C41", "status": "proved", "theorems": ["C41_samples", "C41_exact", "C41_ends"], "note": "C41_samples over any arithmetic; C41_ends: a curve of bounded speed is subdivided in finitely many steps (exact arithmetic)"},
 {"property": "C42", "status": "proved", "theorems": ["C42_projection", "C42_line", "C42_intersection", "C42_lines", "C42_second_in_bounds_refuted"], "note": "Tolerances over any arithmetic; on lines exact arithmetic; crossing lines are found; the position on the second curve may be outside it"},
 {"property": "C43", "status": "proved", "theorems": ["C43_rot90", "C43_project_local", "C43_normalize", "C43_clockwise_refuted"], "note": "Exact arithmetic. The documentation of rot90 says clockwise; the code turns counter-clockwise (C43_clockwise_refuted). Concrete case: C43_example."},
 {"property": "C44", "status": "proved", "theorems": ["C44_direction", "C44_standing", "C44_step", "C44_new", "C44_no_wheel_base_refuted", "C44_axle_refuted"], "note": "Exact arithmetic; with a wheel base of 0 the claim is false in f64 (C44_no_wheel_base_refuted). C44_axle_refuted: the heading is taken from where the rear axle was, so that the axle it implies moves sideways. Concrete case: C36_example."},
 {"property": "C45", "status": "proved", "theorems": ["C45_contains", "C45_overlaps", "C45_clearance", "C45_distance", "C45_lerp", "C45_disc", "C45_shift"], "note": ""},
 {"property": "C46", "status": "proved", "theorems": ["C46_rotated_range", "C46_start_in_range", "C46_order_irrelevant"], "note": ""},
 {"property": "C47", "status": "proved", "theorems": ["C47_safe", "C47_size", "C47_cell"], "note": ""},
 {"property": "C48", "status": "proved", "theorems": ["C48_call", "C48_symmetric", "C48_range"], "note": "C48_call describes a call completely (any number type): one record on each link naming the other link and the zone on it, iff each link passes close to the other, and nothing otherwise. C48_symmetric: in every reachable state the records of two links about each other are paired. C48_range is over the reals."},
 {"property": "C49", "status": "proved", "theorems": ["C49_only_with_gaps", "C49_sufficient", "C49_precedence", "C49_cannot_arrive", "C49_too_far", "C49_conservative", "C49_every_gap_taken_refuted"], "note": "The decision is characterised exactly; the last theorem shows that a sufficient gap is refused because the approach is counted twice. Both times are measured at the centres of the vehicles."},
 {"property": "C50", "status": "proved", "theorems": ["C50_update_ends", "C50_scan_depth", "C50_gap_depth", "C50_update_ends_binary64", "C50_update_ends_refuted"], "note": "C50_update_ends: for every reachable state with positive lengths and limits (lane changes of the step applied first), a number of rounds exists after which every loop and recursion of the update has ended, the result being independent of a later cut-off; the depth theorems give the explicit bounds. Exact arithmetic (RA). C50_example is a road that leads back to its own start. C50_update_ends_binary64 is the same in f64, for lengths, limits, accelerations, speeds and places of a moderate size (SpecModerate.v) and links without lanes beside them. Without such bounds it fails in f64: C50_update_ends_refuted is a history with a vehicle whose maximum acceleration is 0, after which no step ends (the time in check_gap is NaN)."},
 {"property": "C51", "status": "proved", "theorems": ["C51_insert", "C51_remove", "C51_calls", "C51_lane_changes", "C51_step", "C51_step_refuted", "C51_can_insert"], "note": "Insertion and removal keep the order of the others, and insertion keeps a list that is in order so, for every arithmetic with an order (binary64 and reals). Every call but step keeps the vehicles of all links in order, and so do the lane changes of a step; a step keeps the order if no vehicle that stays on its link overtakes another that stays. C51_step_refuted: with a large time step a vehicle drives through another and the list is out of order, after which can_insert_vehicle accepts a place that is taken. C51_can_insert (reals): on a link whose vehicles are in order and do not overlap, can_insert_vehicle accepts exactly the places where the new vehicle overlaps none."},
 {"property": "C52", "status": "proved", "theorems": ["C52_gives_way", "C52_gives_way_exact"], "note": "binary64 and the reals. The bound holds up to the model's full braking of -6 m/s^2, like C13."},
 {"property": "C53", "status": "proved", "theorems": ["C53_cost", "C53_monotone", "C53_every_link", "C53_no_limit_refuted"], "note": "C53_no_limit_refuted: speed limits of 0 make routing overflow. Exact arithmetic for the cost; every link of every history carries the cost computed when it was built."},
 {"property": "C54", "status": "proved", "theorems": ["C54_added", "C54_kept"], "note": ""},
 {"property": "C55", "status": "proved", "theorems": ["C55_connections", "C55_roads_stay", "C55_new_link"], "note": "Every number system, every history."},
 {"property": "C56", "status": "proved", "theorems": ["C56_never_lost"], "note": "Every history whose groups do not overlap; the vehicle's route must be its link alone when it is sent off, as it is after add_vehicle."},
 {"property": "C57", "status": "proved", "theorems": ["C57_follow", "C57_slow", "C57_slow_exact"], "note": "C57_follow and C57_slow are about binary64; C57_slow_exact is the kinematics in exact arithmetic. Example: C57_example."},
 {"property": "C58", "status": "proved", "theorems": ["C58_cheapest", "C58_otherwise"], "note": "For every history and arithmetic. The cost itself is characterised under C33."},
 {"property": "C59", "status": "proved", "theorems": ["C59_after_step", "C59_shown"], "note": "For every arithmetic, so in particular binary64. Concrete case: C59_example."},
 {"property": "C60", "status": "proved", "theorems": ["C60_follow", "C60_follow_exact"], "note": "The vehicle is on the same lane as the obstacle appears on. Vehicles on the links before that lane are reached by the same search but not covered by the statement. The projection itself is C32, C38 and C42. Concrete case: C60_example."},
 {"property": "C61", "status": "proved", "theorems": ["C61_reason", "C61_reason_exact"], "note": "The converse of the theorems that bound the acceleration (C14, C49, C52, C57, C60): the assigned acceleration is the maximum or one of the listed ones."},
 {"property": "C62", "status": "proved", "theorems": ["C62_alone", "C62_alone_exact", "C62_own_conflict_refuted"], "note": "C62_own_conflict_refuted shows why the links must not conflict with each other: a lone vehicle gives way to itself."},
 {"property": "C63", "status": "proved", "theorems": ["C63_no_rear_end_collision", "C63_added_inside_refuted", "C63_lane_change_refuted"], "note": "C63_added_inside_refuted: add_vehicle may put a vehicle into another; C63_lane_change_refuted: so does a lane change. Exact arithmetic (RA). The condition on the headway is `careful` in SpecGap.v. Covers a pair on one link; for leaders on other links see C73 and C76. Concrete case: C63_C64_example."},
 {"property": "C64", "status": "proved", "theorems": ["C64_stops_at_the_line", "C63_added_inside_refuted", "C63_lane_change_refuted"], "note": "C63_added_inside_refuted: add_vehicle may put a vehicle into another; C63_lane_change_refuted: so does a lane change. Exact arithmetic (RA). Concrete case: C63_C64_example."},
 {"property": "C65", "status": "proved", "theorems": ["C65_step_ends", "C65_step_returns", "C65_goes_on", "C65_lanes_go_on", "C65_destination_returns", "C65_add_returns", "C65_convergence_returns", "C65_step_ends_binary64", "C65_step_returns_binary64", "C65_goes_on_binary64"], "note": "Exact arithmetic (RA), and f64 for numbers of a moderate size (SpecModerate.v) and links without lanes beside them; C50_C65_binary64_example. Networks with lane changes: C65_lanes_go_on where the links in a group are straight and no link is in two groups; on curved lanes the place beside the vehicle may not be found (C19), which leaves C65_step_ends. Concrete case: C65_example."},
 {"property": "C66", "status": "proved", "theorems": ["C66_queue", "C66_dead_end"], "note": "Exact arithmetic (RA). Only time steps, no other calls, after the queue has formed. Concrete case: C66_example."},
 {"property": "C67", "status": "proved", "theorems": ["C67_table", "C67_parallel", "C67_obstacle"], "note": "The table: any arithmetic. The position of a vehicle seen from the other lane: exact arithmetic (RA), parallel lanes. Concrete case: C67_example."},
 {"property": "C68", "status": "proved", "theorems": ["C68_table", "C68_paths", "C68_destination"], "note": "Soundness: every distance is one that can be driven. That no longer one exists is not claimed. Concrete case: C68_example."},
 {"property": "C69", "status": "proved", "theorems": ["C69_arrives", "C69_where", "C69_case"], "note": "Exact arithmetic (RA). C69_case is a concrete network and car that meets the hypotheses; there the runs exist too."},
 {"property": "C70", "status": "proved", "theorems": ["C70_route", "C70_cheapest_way", "C70_case"], "note": "Any arithmetic whose casts are in range (both instances). The cost is the sum of the links' costs as the code computes them. Roads without lanes beside each other and without ways back; C71_circles_refuted shows why ways back are excluded."},
 {"property": "C71", "status": "proved", "theorems": ["C71_first_way", "C71_circles", "C71_circles_refuted"], "note": "Any arithmetic whose casts are in range. C71_circles_refuted: a concrete network in which a vehicle never reaches a reachable destination."},
 {"property": "C72", "status": "proved", "theorems": ["C72_no_destination"], "note": "Any arithmetic. Concrete case: C72_example."},
 {"property": "C73", "status": "proved", "theorems": ["C73_no_collisions", "C73_no_overtaking", "C73_fork_refuted", "C73_merge_refuted"], "note": "Exact arithmetic. A road without junctions whose vehicles are on their way to its end; nothing is assumed about the number of links or vehicles, about the controls of the links, or about what vehicles elsewhere do. Headway, room to react and link lengths are explicit inequalities (SpecRoad.drives_well, SpecRoad.good_traffic); C73_example is a concrete road of three links. C73_merge_refuted: where two links lead to a third and no convergence is added, two cars end up in the same place; with the convergence one of them waits (C73_merge_registered). Concrete case: C73_example."},
 {"property": "C74", "status": "proved", "theorems": ["C74_road_clears", "C74_case"], "note": "Exact arithmetic. The bound on the time is an existential; it depends on the state from which the vehicles go on, but not on the lengths of the steps. C74_case is a concrete road of three links with two cars, where the runs exist too."},
 {"property": "C75", "status": "proved", "theorems": ["C75_alone_arrives", "C75_road_clears", "C75_case"], "note": "Exact arithmetic. C69_arrives and C74_road_clears are derived from these theorems. C75_case is the road of C74_case with a light with two conflicting movements before its last link, where the runs exist too."},
 {"property": "C76", "status": "proved", "theorems": ["C76_no_collisions", "C76_road_clears", "C65_add_returns"], "note": "Exact arithmetic. Extends C73 and C75 to open systems that start with an empty road (SpecTraffic.traffic); C76_example lets two cars onto a road of three links and runs any steps. Concrete case: C76_example."},
 {"property": "C77", "status": "proved", "theorems": ["C77_alone_arrives", "C77_case", "C23_lines_up"], "note": "Exact arithmetic. C75_alone_arrives and C69_arrives are derived from this theorem, and C75_road_clears and C76_road_clears cover signs on the road too (SpecLamp.opens). C77_case is a road of three links with a stop sign before the second, which another link crosses; the conflict is made by add_link_convergance, and the runs exist."},
 {"property": "C78", "status": "proved", "theorems": ["C78_call", "C78_elsewhere", "C78_separate", "C78_goes_on", "C78_vehicles"], "note": "Any arithmetic, so binary64 too. C78_call covers steps, set_frozen, set_vehicle_destination, remove_vehicle, set_link_control, randomise with the same samples and do_lane_change; calls that create links, groups, conflicts, lights or vehicles are covered when they concern the rest (C78_elsewhere). C78_separate shows that the hypothesis of being separate is kept by both kinds. Ties between equally cheap routes must be broken the same way on the part (same_ties): the code breaks them by hash order. Both runs must return (C65 is about that). Example: two roads, one with and one without traffic."},
 {"property": "C79", "status": "proved", "theorems": ["C79_waits_its_turn", "C79_taken_crossing", "C79_case", "C79_merging", "C79_merging_case"], "note": "exact arithmetic; the vehicle is the first of its link, careful (as in C63) and starts with room to react; C79_case and C79_merging_case are concrete cases in which the hypotheses hold for every sequence of steps"},
 {"property": "C80", "status": "proved", "theorems": ["C80_reason_to_wait", "C80_no_lock_up"], "note": "Any arithmetic, so binary64 too. The statement is about the simulation after the lane changes at the start of the step, as in C23. Vehicles that wait must be first at their line (a vehicle that lane-changes in front of a waiting one can block a junction) and vehicles that do not wait must not be on their way to links of a higher priority. C80_example is a crossing with two stop signs in binary64. Concrete case: C80_example."},
 {"property": "C81", "status": "proved", "theorems": ["C81_one_at_a_time"], "note": "Any arithmetic, so binary64 too. Nobody is on the two links before the end of the conflict, and the two vehicles are the next to reach it. C81_example is a case in which both are let in in one step. Concrete case: C81_example."},
 {"property": "C82", "status": "proved", "theorems": ["C82_sign_at_the_line", "C82_for_ever", "C82_case"], "note": "Exact arithmetic; same hypotheses as C66 (careful vehicles on a link without a way in from outside, enough room at the start). C82_case is a car sent past a stop sign with distance 0: it never gets there, for any number and lengths of steps. C77 is the opposite case, distances of more than 3 m."},
 {"property": "C83", "status": "proved", "theorems": ["C83_place", "C83_vehicles", "C83_routes", "C83_curves"], "note": "Exact arithmetic. Ties between routes of equal cost are broken the same way on both maps (choices_exist shows that this can always be arranged); C83_vehicles has no such hypothesis. Motions may include a reflection (C85 states that case by itself). C83_example: a quarter turn with a shift of two lanes, a group and a vehicle. In floating point the claim cannot hold exactly, because rounding depends on the place."},
 {"property": "C84", "status": "proved", "theorems": ["C84_rear", "C84_added", "C84_covers"], "note": "Exact arithmetic. C84_added: of a vehicle just added. C84_rear: after each step the two corners lie on the line across the road half a length behind the vehicle and reach half a width beyond the outermost of the centre line and the middle of the rear. C84_covers: the whole rear of the body lies between them. Non-vacuity: C84_example, a car crossing over between two straight lanes."},
 {"property": "C85", "status": "proved", "theorems": ["C85_mirror", "C85_panics"], "note": "Exact arithmetic. C85_example: two lanes and a vehicle; the lane on the left becomes a lane on the right."},
 {"property": "C86", "status": "proved", "theorems": ["C86_bound", "C86_repeatable", "C86_no_destination", "C86_routes", "C86_ties_refuted"], "note": "Any arithmetic. The model's bound on loop rounds (fuel) is an artefact: C86_bound shows that a result, once reached, is the same for every larger bound. C86_ties_refuted: the condition on ties is needed. C86_example: three cars, a light and a lane group, for every tie-breaking and every larger bound."},
 {"property": "C87", "status": "proved", "theorems": ["C87_now", "C87_later"], "note": "For every arithmetic. looks_same compares links, vehicles up to the numbers drawn in queues, frozen vehicles, lights that control links, and the number of steps. Later additions are left out because the ids given out afterwards differ; both runs are assumed to return. Concrete case: C87_example."},
 {"property": "C88", "status": "proved", "theorems": ["C88_destination", "C88_map_stays", "C88_traffic"], "note": "For every arithmetic. same_map compares curves, travel times, connections out, groups and lane changes; same_way the whole routing state of the vehicle (destination, lane distances, paths to choose from). Concrete case: C88_example."},
 {"property": "C89", "status": "proved", "theorems": ["C89_now", "C89_later"], "note": "For every arithmetic. Which pairs of calls are independent is spelled out in SpecSwap.v; both orders are assumed to return. Concrete case: C89_example."},
 {"property": "C90", "status": "proved", "theorems": ["C90_motion", "C90_cuts", "C90_place", "C90_stop", "C90_case"], "note": "In real arithmetic. The route is counted in links passed: a step crosses at most one link end, so that after a step longer than a whole link the vehicle may still be listed on an earlier link (C90_place says when both are at the same place)."},
 {"property": "C91", "status": "proved", "theorems": ["C91_drive", "C91_step"], "note": "For every arithmetic. C91_drive allows other calls before, between and after the steps (adding and removing other vehicles, controls, freezing, randomising, lights, merges). Nothing is said here about when the accelerations agree: that is the subject of C24, C62 and C78. Example: C91_example runs the same car alone and with a closed, occupied road beside it."},
 {"property": "C92", "status": "proved", "theorems": ["C92_front", "C92_front_exact", "C92_behind", "C92_behind_exact"], "note": "C92_front and C92_behind are about binary64, the others about exact arithmetic. C92_behind is about a step in which accelerations are computed; in between the acceleration stays (C24) and C91 applies. In binary64 it assumes that the acceleration for the limit is less than the maximum acceleration or equal to it. Example: C92_example puts a second car behind the one of C62."},
 {"property": "C93", "status": "proved", "theorems": ["C93_again", "C93_last", "C93_kept", "C93_control", "C93_frozen", "C93_unreachable_refuted"], "note": "C93_again holds for every arithmetic and every state. C93_last is the equality of the two outcomes, panics included, if the destination can be reached (leads, SpecRoute.v) or is the null key. C93_unreachable_refuted: with an unreachable second destination the outcome depends on the first (pathfinding.rs keeps the old table when the search finds nothing). Concrete case: C93_example."},
 {"property": "C94", "status": "proved", "theorems": ["C94_clock", "C94_same", "C94_links"], "note": "The light after the history equals the result of its building calls followed by TrafficLight::step with the durations of the steps (lrun, durations in SpecClock.v), as an equality of states. Concrete case: C94_example."},
 {"property": "C95", "status": "proved", "theorems": ["C95_step", "C95_pause"], "note": "Exact arithmetic. C95_case is the car of C82 on its way to the stop sign. Concrete case: C95_case."},
 {"property": "C96", "status": "proved", "theorems": ["C96_once", "C96_count", "C96_order", "C96_lights"], "note": "Holds in every arithmetic. Concrete case: C96_example."},
 {"property": "C97", "status": "proved", "theorems": ["C97_distance", "C97_time"], "note": "Exact arithmetic; one speed limit for all links and no individual speed factors, as in C10; links without lanes beside them, since a lane change sets the position by a search along the other lane. Concrete case: C97_case."}
]}
