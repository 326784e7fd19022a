{
 "claims": [
  {
   "property": "C01",
   "status": "proved",
   "theorems": [
    "C01_books_agree",
    "C01_nothing_lost",
    "C01_public_calls"
   ],
   "note": "every reachable state, between public calls and between timesteps"
  },
  {
   "property": "C02",
   "status": "proved",
   "theorems": [
    "C02_curves",
    "C02_recorded_stays",
    "C02_num_vehicles_t_true"
   ],
   "note": "every reachable state, link and recorded timestep; DELTAN >= 0"
  },
  {
   "property": "C03",
   "status": "proved",
   "theorems": [
    "C03_fifo"
   ],
   "note": "any two states of any run"
  },
  {
   "property": "C12",
   "status": "proved",
   "theorems": [
    "C12_state_only_advances",
    "C12_times",
    "C12_travel_time_nonneg"
   ],
   "note": "any two states of any run; an aborted trip keeps arrival and travel time -1"
  },
  {
   "property": "C23",
   "status": "proved",
   "theorems": [
    "C23_inside",
    "C23_before",
    "C23_after",
    "C23_defined",
    "C23_monotone",
    "C23_inflow_additive",
    "C23_queries",
    "C23_inflow",
    "C23_averages"
   ],
   "note": ""
  },
  {
   "property": "C10",
   "status": "proved",
   "theorems": [
    "C10_signal_plan",
    "C10_start",
    "C10_nominal_refuted",
    "C10_long_offset_refuted",
    "C10_zero_cycle_loops"
   ],
   "note": "exact plan of phases for any run; a phase lasts floor(g/DELTAT)+1 timesteps, so the nominal duration is refuted when g is a multiple of DELTAT"
  },
  {
   "property": "C11",
   "status": "proved",
   "theorems": [
    "C11_phase_valid",
    "C11_refuted"
   ],
   "note": "holds when no override_signal without reset shortens the list below the current phase; refuted otherwise"
  },
  {
   "property": "C18",
   "status": "proved",
   "theorems": [
    "C18_split",
    "C18_stop_on_the_way",
    "C18_request_times_refuted"
   ],
   "note": "same state up to W.TIME and trip request time stamps, which do depend on the splitting"
  },
  {
   "property": "C19",
   "status": "proved",
   "theorems": [
    "C19_clock_bounded",
    "C19_return_value",
    "C19_ongoing",
    "C19_loop",
    "C19_short_duration_raises"
   ],
   "note": ""
  },
  {
   "property": "C21",
   "status": "proved",
   "theorems": [
    "C21_deterministic"
   ],
   "note": "all public calls, any two generators"
  },
  {
   "property": "C22",
   "status": "proved",
   "theorems": [
    "C22_vehicles",
    "C22_cumulative",
    "C22_total",
    "C22_succeeds"
   ],
   "note": "exact rational arithmetic; flow rate >= 0"
  },
  {
   "property": "C28",
   "status": "proved",
   "theorems": [
    "C28_unique",
    "C28_used_name_raises",
    "C28_new_object",
    "C28_get_node",
    "C28_get_link",
    "C28_get_node_sound",
    "C28_get_link_sound",
    "C28_unknown_raises"
   ],
   "note": "auto_rename=False"
  },
  {
   "property": "C33",
   "status": "proved",
   "theorems": [
    "C33_tmax",
    "C33_departures_executed",
    "C33_departs_in_time",
    "C33_long_timestep_refuted"
   ],
   "note": "departures are executed if DELTAT <= 1800; a counterexample with a longer timestep is given"
  },
  {
   "property": "C44",
   "status": "proved",
   "theorems": [
    "C44_departure",
    "C44_second_refuted"
   ],
   "note": "departure_time is right; departure_time_in_second is wrong for vehicles added with a time in seconds (refuted)"
  },
  {
   "property": "C09",
   "status": "proved",
   "theorems": [
    "C09_green"
   ],
   "note": "every timestep of every run, including moves in the timestep in which the trip ends"
  },
  {
   "property": "C13",
   "status": "proved",
   "theorems": [
    "C13_connected",
    "C13_times_increase",
    "C13_arrival"
   ],
   "note": "all vehicle modes"
  },
  {
   "property": "C26",
   "status": "proved",
   "theorems": [
    "C26_route_iff",
    "C26_equal",
    "C26_traveled_accepted",
    "C26_concatenation",
    "C26_concatenation_fails"
   ],
   "note": "any link list, departure time and travel-time record"
  },
  {
   "property": "C16",
   "status": "proved",
   "theorems": [
    "C16_prefix",
    "C16_next",
    "C16_leaving",
    "C16_fits",
    "C16_misfit_raises",
    "C16_misfit_at_origin_raises",
    "C16_call",
    "C16_loop_refuted"
   ],
   "note": "any run in which enforce_route is not called again; refuted for routes taking a loop link twice in a row"
  },
  {
   "property": "C17",
   "status": "proved",
   "theorems": [
    "C17_chosen",
    "C17_choice_changed",
    "C17_entered_is_chosen",
    "C17_first_link",
    "C17_choice",
    "C17_nothing_admissible_raises",
    "C17_nothing_admissible_at_origin_raises",
    "C17_loop_refuted",
    "C17_enforced_avoid_refuted"
   ],
   "note": "visited = left before; refuted for a loop at the current node, and for links_avoid together with enforce_route"
  },
  {
   "property": "C32",
   "status": "proved",
   "theorems": [
    "C32_nearest",
    "C32_none",
    "C32_area",
    "C32_far_refuted"
   ],
   "note": "exact coordinates; refuted for nodes 10^5 or more away"
  },
  {
   "property": "C34",
   "status": "proved",
   "theorems": [
    "C34_triangular",
    "C34_diagram",
    "C34_change_speed",
    "C34_change_jam_density",
    "C34_new_link",
    "C34_per_lane_refuted"
   ],
   "note": "every reachable state, for positive u, kappa and reaction time; refuted for jam_density_per_lane given together with jam_density"
  },
  {
   "property": "C37",
   "status": "proved",
   "theorems": [
    "C37_node_capacity"
   ],
   "note": ""
  },
  {
   "property": "C36",
   "status": "proved",
   "theorems": [
    "C36_fifo",
    "C36_origin"
   ],
   "note": "every reachable state"
  },
  {
   "property": "C38",
   "status": "proved",
   "theorems": [
    "C38_merge",
    "C38_last",
    "C38_moves",
    "C38_negative_refuted"
   ],
   "note": "one attempt in any state; for non-negative priorities, refuted for negative ones"
  },
  {
   "property": "C07",
   "status": "proved",
   "theorems": [
    "C07_window",
    "C07_bound",
    "C07_closed",
    "C07_closed_later_refuted"
   ],
   "note": "while capacity_in is not assigned; refuted for closing a link by assigning capacity_in=0 during the run"
  },
  {
   "property": "C08",
   "status": "proved",
   "theorems": [
    "C08_link",
    "C08_link_window",
    "C08_node"
   ],
   "note": "transfers counted per timestep by the vehicles' link_arrival_time"
  },
  {
   "property": "C04",
   "status": "proved",
   "theorems": [
    "C04_position",
    "C04_timestep",
    "C04_crossing",
    "C04_one_step_refuted",
    "C04_forward_refuted"
   ],
   "note": "positions, speeds and moves of all vehicles; the bound free_flow_speed*DELTAT on the move fails for vehicles crossing a node (bound 2*free_flow_speed*DELTAT proved) and a taxi can jump back"
  },
  {
   "property": "C06",
   "status": "proved",
   "theorems": [
    "C06_density"
   ],
   "note": "for runs without taxis and without lowering jam densities, links with lengths and speeds >= 0"
  },
  {
   "property": "C14",
   "status": "proved",
   "theorems": [
    "C14_travel_time",
    "C14_speed_change_refuted"
   ],
   "note": "for single trips over links whose free flow speed is not changed; refuted when it is lowered afterwards"
  },
  {
   "property": "C15",
   "status": "proved",
   "theorems": [
    "C15_upper",
    "C15_lower",
    "C15_equality_refuted",
    "C15_loop_refuted"
   ],
   "note": "the upper bound holds without self loops; the equality is false, off by at most u*dt per node crossed"
  },
  {
   "property": "C24",
   "status": "proved",
   "theorems": [
    "C24_bounds",
    "C24_own_bounds",
    "C24_sum",
    "C24_exact",
    "C24_gradual_refuted",
    "C24_parallel_refuted",
    "C24_reached_later_refuted"
   ],
   "note": "weights between 0 and 1; sums without parallel links, exactly 1 if each search reached the destination; refuted otherwise"
  },
  {
   "property": "C25",
   "status": "proved",
   "theorems": [
    "C25_cost_matrix",
    "C25_first_update",
    "C25_routine",
    "C25_closed_parallel_refuted"
   ],
   "note": "for a correct shortest path routine (one is given and verified) and nonnegative costs"
  },
  {
   "property": "C20",
   "status": "proved",
   "theorems": [
    "C20_timestep",
    "C20_simulation",
    "C20_late_link_refuted",
    "C20_short_route_refuted",
    "C20_fewer_phases_refuted",
    "C20_zero_speed_refuted",
    "C20_taxi_refuted",
    "C20_vacant_taxi_refuted"
   ],
   "note": "well-formed scenarios are defined in SpecSafe.v; outside them the other errors do occur"
  },
  {
   "property": "C43",
   "status": "proved",
   "theorems": [
    "C43_one_row_per_timestep",
    "C43_every_vehicle",
    "C43_row_contents",
    "C43_row_position"
   ],
   "note": "log rows are records in the model, so that the columns have equal lengths by construction; each branch of record_log appends to all seven columns. A trip that ends in the vehicle's own update has two rows for that timestep, the regular and the final one."
  },
  {
   "property": "C35",
   "status": "proved",
   "theorems": [
    "C35_value",
    "C35_free_flow",
    "C35_clamped",
    "C35_kept"
   ],
   "note": "a vehicle whose trip ends on the link counts as leaving at the end of that timestep (DELTAT later than its arrival_time), as uxsim.py 1228 has it"
  },
  {
   "property": "C41",
   "status": "proved",
   "theorems": [
    "C41_value",
    "C41_no_effect",
    "C41_timestep",
    "C41_all_histories",
    "C41_stale_refuted",
    "C41_callback_refuted"
   ],
   "note": "holds unless change_free_flow_speed is called on a link between a read of it and its next timestep, or a user function reads the link during a timestep; both exceptions are refuted by witnesses"
  },
  {
   "property": "C39",
   "status": "proved",
   "theorems": [
    "C39_average",
    "C39_count",
    "C39_waiting_refuted"
   ],
   "note": "true without waiting vehicles; refuted with them: a waiting row raises the count but leaves the average (average_speed += 0, uxsim.py 1529-1532)"
  },
  {
   "property": "C27",
   "status": "proved",
   "theorems": [
    "C27_statistics",
    "C27_first_query",
    "C27_repeated",
    "C27_early_query_refuted"
   ],
   "note": "true when nothing called od_analysis before; refuted otherwise: od_analysis keeps its first tables (flag_od_analysis), so the statistics are those of the first query"
  },
  {
   "property": "C42",
   "status": "proved",
   "theorems": [
    "C42_figures",
    "C42_costs",
    "C42_swaps",
    "C42_given_route_sets",
    "C42_no_failure",
    "C42_outside_set_refuted",
    "C42_self_swap_refuted"
   ],
   "note": "true without given route sets and with tolls that do not depend on the time; refuted with route_sets (a completed vehicle that drove a route outside the set is moved to the first one, uncounted) and with time-dependent tolls (the own route is re-costed at other times and counted as a swap)"
  },
  {
   "property": "C30",
   "status": "proved",
   "theorems": [
    "C30_order",
    "C30_links",
    "C30_first_link",
    "C30_links_refuted"
   ],
   "note": "the order holds in all histories in which destinations are appended; the second half holds unless the destination is the node where the taxi already is, and is refuted then (two equal destinations in succession: the stale route_next_link makes the taxi enter its own link again)"
  },
  {
   "property": "C31",
   "status": "proved",
   "theorems": [
    "C31_stages",
    "C31_pending",
    "C31_history",
    "C31_round",
    "C31_lost_request_refuted"
   ],
   "note": "all histories, and the rounds of the three handlers with any shuffle; extra finding: a second request from the same node for the same taxi overwrites the first one"
  },
  {
   "property": "C29",
   "status": "proved",
   "theorems": [
    "C29_roundtrip",
    "C29_one_function",
    "C29_identical",
    "C29_capacity_in_refuted",
    "C29_single_vehicles_refuted",
    "C29_mixed_calls_refuted",
    "C29_signal_refuted",
    "C29_jam_density_refuted"
   ],
   "note": "nodes, links and demand are recreated for networks followed by demand calls; the simulation is the same when capacity_in is given; refuted without it (capacity_in_remain is initialised differently), for addVehicle, for interleaved demand functions, after override_signal with an offset, and after change_jam_density"
  },
  {
   "property": "C40",
   "status": "proved",
   "theorems": [
    "C40_totals",
    "C40_whole_link",
    "C40_each_cell",
    "C40_flow_density_speed",
    "C40_empty_cell",
    "C40_standing_at_end_refuted",
    "C40_time_slice_refuted",
    "C40_rest_of_link_refuted",
    "C40_recorded",
    "C40_extrapolated",
    "C40_simulated",
    "C40_taxi_refuted"
   ],
   "note": "for all forward trajectories and all positive cell sizes, cell by cell and in total; the observed region is half open in space, and in time a segment belongs to the slice in which it starts; refuted for the closed link, for cutting in time, and for cells that do not divide the length"
  },
  {
   "property": "C45",
   "status": "proved",
   "theorems": [
    "C45_average",
    "C45_start",
    "C45_together_refuted",
    "C45_underway_refuted"
   ],
   "note": "true when the vehicles have left and entered in different timesteps; refuted otherwise (vehicles_enter_log keeps one vehicle per timestep; travel times of vehicles still on the link are those of earlier ones)"
  },
  {
   "property": "C46",
   "status": "proved",
   "theorems": [
    "C46_nodes2nodes",
    "C46_area2area",
    "C46_nodes2nodes2",
    "C46_area2area2",
    "C46_point2point",
    "C46_succeeds",
    "C46_reachable",
    "C46_truncated_refuted",
    "C46_itself_refuted",
    "C46_raises_refuted",
    "C46_end_refuted"
   ],
   "note": "the total is right up to one platoon for the functions ..2, up to one platoon per pair for the others (refuted beyond); further refuted: trips from a node to itself, departures at t_end, a ValueError depending on the random numbers"
  },
  {
   "property": "C47",
   "status": "proved",
   "theorems": [
    "C47_swaps",
    "C47_given_route_sets",
    "C47_cost",
    "C47_figures",
    "C47_no_failure",
    "C47_solution",
    "C47_externality",
    "C47_gap_refuted",
    "C47_externality_refuted",
    "C47_no_solution_refuted"
   ],
   "note": "refuted: the reported gap as the difference to the cheapest route, the estimated externality as the actual difference, and that a World is always returned"
  },
  {
   "property": "C48",
   "status": "proved",
   "theorems": [
    "C48_tournament",
    "C48_crossover",
    "C48_mutation",
    "C48_first_population",
    "C48_generation",
    "C48_generations",
    "C48_never_worse",
    "C48_fitness",
    "C48_fitness_order",
    "C48_solution_refuted",
    "C48_initial_refuted",
    "C48_no_elite_refuted",
    "C48_size_refuted"
   ],
   "note": "refuted: that the returned World is the best one (it is the last one simulated), and the claims about sizes, elites and the initial World outside of the stated bounds"
  },
  {
   "property": "C49",
   "status": "proved",
   "theorems": [
    "C49_size",
    "C49_bounds",
    "C49_destroy",
    "C49_repair_random",
    "C49_repair_minimum_cost",
    "C49_roulette",
    "C49_weights",
    "C49_reweight",
    "C49_step",
    "C49_no_failure",
    "C49_run",
    "C49_budget",
    "C49_initial",
    "C49_initial_random",
    "C49_routes",
    "C49_congested_links",
    "C49_objective_refuted",
    "C49_solution_refuted",
    "C49_star_refuted",
    "C49_initial_refuted",
    "C49_quickest_refuted",
    "C49_no_failure_refuted",
    "C49_segment_refuted"
   ],
   "note": "refuted: that the minimised objective prefers worlds in which the trips are completed (the sign of the term for unfinished trips is wrong), that the initial random solution is in the domains, that the reported solution is that of the returned World, and others"
  },
  {
   "property": "C50",
   "status": "proved",
   "theorems": [
    "C50_k_shortest",
    "C50_shortest",
    "C50_k_shortest_total",
    "C50_routines",
    "C50_routines_all_pairs",
    "C50_random",
    "C50_random_shortest",
    "C50_random_first",
    "C50_random_stops",
    "C50_random_no_links",
    "C50_parallel_refuted",
    "C50_random_shortest_refuted",
    "C50_random_number_refuted"
   ],
   "note": "refuted for networks with several links between the same nodes (no route, wrong cost, shortest route missing), and that k random routes are found if there are as many"
  },
  {
   "property": "C51",
   "status": "proved",
   "theorems": [
    "C51_distances",
    "C51_record",
    "C51_times",
    "C51_times_on",
    "C51_times_on_late",
    "C51_times_on_refuted",
    "C51_return_time_refuted",
    "C51_before_refuted",
    "C51_parallel_refuted",
    "C51_zero_length_refuted"
   ],
   "note": "refuted: that the query at a time succeeds if the update interval is not a multiple of the timestep, that the returned time is one of an update, and others"
  },
  {
   "property": "C52",
   "status": "proved",
   "theorems": [
    "C52_stats",
    "C52_bounds",
    "C52_average",
    "C52_waiting",
    "C52_print",
    "C52_row",
    "C52_names",
    "C52_early_refuted",
    "C52_print_refuted",
    "C52_names_refuted"
   ],
   "note": "refuted: that waiting times are not negative if requests are assigned before they are due, that statistics can be printed without taxis, and that default names are unique"
  },
  {
   "property": "C53",
   "status": "proved",
   "theorems": [
    "C53_free_times",
    "C53_min_distances",
    "C53_delay",
    "C53_no_trip",
    "C53_distance",
    "C53_all_distance",
    "C53_parallel_refuted",
    "C53_closed_refuted",
    "C53_speed_refuted",
    "C53_distance_refuted",
    "C53_shortest_refuted"
   ],
   "note": "refuted: that the delay is not negative with parallel links, closed links or changed speeds, that the total distance counts all vehicles, and that the average distance is at least the shortest one"
  },
  {
   "property": "C54",
   "status": "proved",
   "theorems": [
    "C54_volume_and_mean",
    "C54_mean_bounds",
    "C54_early",
    "C54_total",
    "C54_mean_refuted",
    "C54_free_refuted"
   ],
   "note": "refuted: that the average travel time of a link is the mean over the vehicles that left it, and that it is at least the free-flow travel time"
  },
  {
   "property": "C55",
   "status": "proved",
   "theorems": [
    "C55_log_route",
    "C55_area",
    "C55_area_bound",
    "C55_area_time",
    "C55_figures",
    "C55_negative_refuted",
    "C55_interval_refuted",
    "C55_stale_refuted",
    "C55_name_refuted"
   ],
   "note": "refuted: that the total travel time is not negative with vehicles inside, that the volume is exact with a longer logging interval, that later calls are up to date, and that link names do not matter"
  },
  {
   "property": "C56",
   "status": "proved",
   "theorems": [
    "C56_pairs",
    "C56_pair",
    "C56_pair_free",
    "C56_pairs_total",
    "C56_pair_distance_refuted",
    "C56_pair_shortest_refuted",
    "C56_groups",
    "C56_groups_delay",
    "C56_groups_unnamed",
    "C56_detour_refuted",
    "C56_round_trip_refuted",
    "C56_old_tables_refuted"
   ],
   "note": "refuted: that the average distances between areas are those of all vehicles, that the detour ratio is at least 1, that round trips have a finite delay ratio, that groups need no names, and that the statistics of groups never raise after an earlier analysis"
  },
  {
   "property": "C57",
   "status": "proved",
   "theorems": [
    "C57_mfd",
    "C57_total",
    "C57_made",
    "C57_no_links",
    "C57_table",
    "C57_rows_refuted",
    "C57_sets_refuted",
    "C57_short_link_refuted",
    "C57_stale_refuted",
    "C57_cumulative",
    "C57_cumulative_early"
   ],
   "note": "refuted: that the table of network averages has a row per time slice, that it can be asked for any number of link sets, that vehicles on very short links are counted, and that it is current after the simulation has continued"
  },
  {
   "property": "C58",
   "status": "proved",
   "theorems": [
    "C58_now",
    "C58_table",
    "C58_places",
    "C58_twice_refuted",
    "C58_hidden_refuted",
    "C58_late",
    "C58_late_refuted",
    "C58_shifted_refuted",
    "C58_interval_refuted",
    "C58_trips",
    "C58_trips_empty",
    "C58_state_refuted",
    "C58_speed_refuted"
   ],
   "note": "refuted: that a vehicle has one row per time in the table of places, that no vehicle is left out, that the table exists (and is right) for vehicles added while the simulation runs or for longer logging intervals, that the state in the table of trips is the present one and that its average speed is distance divided by time"
  },
  {
   "property": "C59",
   "status": "proved",
   "theorems": [
    "C59_interval",
    "C59_two",
    "C59_rows",
    "C59_none",
    "C59_average_refuted"
   ],
   "note": "refuted: that the Analyzer's running average speed is independent of the logging interval"
  },
  {
   "property": "C60",
   "status": "proved",
   "theorems": [
    "C60_network",
    "C60_lengths",
    "C60_attributes",
    "C60_connections",
    "C60_bidirectional",
    "C60_short",
    "C60_remain_refuted",
    "C60_removed_refuted",
    "C60_loop_refuted"
   ],
   "note": "refuted: that links below the threshold are removed and their nodes merged (also with the default of five iterations), and that networks with a link from a node to itself are handled"
  },
  {
   "property": "C61",
   "status": "proved",
   "theorems": [
    "C61_edges",
    "C61_walks",
    "C61_costs",
    "C61_exact",
    "C61_ready",
    "C61_sources",
    "C61_rounding_refuted",
    "C61_parallel_refuted",
    "C61_tmax_refuted",
    "C61_source_refuted"
   ],
   "note": "refuted: costs when travel times are no multiples of the timestep, parallel links, TMAX no multiple of the timestep, sources of vehicles with departures in seconds"
  },
  {
   "property": "C62",
   "status": "proved",
   "theorems": [
    "C62_waiting",
    "C62_progress",
    "C62_flow",
    "C62_sole",
    "C62_trip_end",
    "C62_itself_refuted",
    "C62_at_once_refuted"
   ],
   "note": "refuted: that the vehicle with an open way passes itself, and that arrival is in the timestep in which the end of the last link is reached"
  },
  {
   "property": "C63",
   "status": "proved",
   "theorems": [
    "C63_time",
    "C63_position",
    "C63_departs",
    "C63_default",
    "C63_short_links_refuted",
    "C63_company_refuted"
   ],
   "note": "refuted: the same for links that take less than a timestep, and for a vehicle that is not alone"
  },
  {
   "property": "C64",
   "status": "proved",
   "theorems": [
    "C64_node_balance",
    "C64_through",
    "C64_transit",
    "C64_taxi_refuted"
   ],
   "note": "refuted for taxis: a taxi whose next destination is the node it stands at is moved from the end of its link to the start of the same link"
  },
  {
   "property": "C65",
   "status": "proved",
   "theorems": [
    "C65_follow",
    "C65_signal",
    "C65_no_signal",
    "C65_node_capacity",
    "C65_link_capacity",
    "C65_travel_time",
    "C65_record",
    "C65_record_value",
    "C65_preferences",
    "C65_preferences_python",
    "C65_weight_refuted",
    "C65_order",
    "C65_departure",
    "C65_departure_refuted",
    "C65_arrival_refuted"
   ],
   "note": "refuted for the timestep of the departure (departure times that are not multiples of the timestep), for the timestep of the arrival on roads with several lanes, and for DUO weights above 1; generate and transfer of the compiled engine repeat the Python text and are not compared"
  },
  {
   "property": "C66",
   "status": "proved",
   "theorems": [
    "C66_safe",
    "C66_safe_refuted",
    "C66_agrees",
    "C66_no_exception",
    "C66_above",
    "C66_agrees_refuted",
    "C66_value",
    "C66_after",
    "C66_route",
    "C66_route_refuted",
    "C66_records"
   ],
   "note": "refuted for queues that are still there at the end of the simulation (the Python code turns the index error into 0) and for negative times (the compiled engine reads before the first entry)"
  },
  {
   "property": "C67",
   "status": "proved",
   "theorems": [
    "C67_read_back",
    "C67_created",
    "C67_log",
    "C67_log_home_refuted",
    "C67_log_late_refuted",
    "C67_links"
   ],
   "note": "refuted for vehicles that have not departed (no log in the compiled engine) and for vehicles added during the simulation (rows at home before they existed)"
  },
  {
   "property": "C68",
   "status": "proved",
   "theorems": [
    "C68_exec",
    "C68_exec_both",
    "C68_static",
    "C68_duration",
    "C68_duration_refuted",
    "C68_departures",
    "C68_split",
    "C68_when",
    "C68_once"
   ],
   "note": "refuted for durations given to main_loop directly (the wrapper does not use them)"
  },
  {
   "property": "C69",
   "status": "proved",
   "theorems": [
    "C69_books",
    "C69_nothing_lost",
    "C69_fifo",
    "C69_curves",
    "C69_state_only_advances",
    "C69_times",
    "C69_leader"
   ],
   "note": "all states of building operations and timesteps of the compiled engine"
  },
  {
   "property": "C70",
   "status": "proved",
   "theorems": [
    "C70_positions",
    "C70_motion",
    "C70_spacing",
    "C70_order",
    "C70_density",
    "C70_triangular",
    "C70_incoming",
    "C70_jam_change_refuted"
   ],
   "note": "all states of building operations and timesteps of the compiled engine, without taxis and lowered jam densities; with a lowered jam density the spacing fails"
  },
  {
   "property": "C71",
   "status": "proved",
   "theorems": [
    "C71_network",
    "C71_succeeds",
    "C71_arguments",
    "C71_links",
    "C71_route",
    "C71_shortest",
    "C71_twice",
    "C71_reach"
   ],
   "note": "every size, every world before and all link arguments; the returned dictionaries are not modelled"
  },
  {
   "property": "C72",
   "status": "proved",
   "theorems": [
    "C72_green",
    "C72_noted",
    "C72_signal_plan",
    "C72_phase_valid",
    "C72_inflow",
    "C72_inflow_bound",
    "C72_closed",
    "C72_outflow",
    "C72_outflow_bound",
    "C72_node"
   ],
   "note": "capacities from 10e9 on are unlimited in the compiled engine, hence the bound in the hypotheses; transfers are those counted by the arrival times of the vehicles, as in C08"
  },
  {
   "property": "C73",
   "status": "proved",
   "theorems": [
    "C73_time",
    "C73_cost_due",
    "C73_own_due",
    "C73_cost_dso",
    "C73_due",
    "C73_dso",
    "C73_total",
    "C73_traveled",
    "C73_arrays",
    "C73_store",
    "C73_toll_refuted"
   ],
   "note": "refuted: if a toll changes within a timestep, the compiled solver, which reads tolls at the beginning of the timestep, may decide differently; the random draws are given as a function of the vehicle; the compiled system optimum agrees if no externality of the Python one is lost to its swallowed IndexError (C69)"
  },
  {
   "property": "C74",
   "status": "proved",
   "theorems": [
    "C74_ends",
    "C74_paths",
    "C74_same",
    "C74_walk",
    "C74_routine"
   ],
   "note": "exact arithmetic; an infinite entry of the matrix is no edge"
  },
  {
   "property": "C75",
   "status": "proved",
   "theorems": [
    "C75_routes",
    "C75_stops",
    "C75_self_refuted",
    "C75_empty_refuted",
    "C75_shortest_refuted"
   ],
   "note": "refuted: equality with the Python enumeration (pairs of a node with itself, networks without links) and the shortest route in networks with parallel links; the random numbers are positive draws"
  },
  {
   "property": "C76",
   "status": "proved",
   "theorems": [
    "C76_matrix",
    "C76_search",
    "C76_tick",
    "C76_engine",
    "C76_mask",
    "C76_late_refuted"
   ],
   "note": "refuted: equality for tolls set after finalization; the draws of the links are those of the Python engine; links have positive lengths"
  },
  {
   "property": "C77",
   "status": "proved",
   "theorems": [
    "C77_python",
    "C77_same",
    "C77_step",
    "C77_active",
    "C77_bounds",
    "C77_share",
    "C77_weight_refuted"
   ],
   "note": "refuted for weights above 1, which can arise in the gradual mode; exact arithmetic"
  },
  {
   "property": "C78",
   "status": "proved",
   "theorems": [
    "C78_size",
    "C78_same",
    "C78_kept",
    "C78_bound",
    "C78_raises_refuted"
   ],
   "note": "refuted for numbers that the Python solver rejects; the shuffle is an arbitrary permutation"
  },
  {
   "property": "C79",
   "status": "proved",
   "theorems": [
    "C79_solution",
    "C79_day",
    "C79_others_refuted"
   ],
   "note": "refuted for worlds of days that are not the solution"
  },
  {
   "property": "C05",
   "status": "proved",
   "theorems": [
    "C05_leader_is_lanes_ahead",
    "C05_assertion",
    "C05_spacing",
    "C05_positions",
    "C05_taxi_refuted",
    "C05_jam_change_refuted"
   ],
   "note": "lane structure and absence of the assertion error in every scenario; jam spacing without taxis and lowered jam densities, with which it fails"
  }
 ]
}