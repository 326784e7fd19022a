{"id": "C01", "title": "Every vehicle is in exactly one place", "statement": "At every point between API calls, each Vehicle ever added has exactly one of the states home/wait/run/end/abort, and the containers agree with it: it is in W.VEHICLES_LIVING iff its state is home, wait or run; in W.VEHICLES_RUNNING iff run; it is on the vehicle queue of exactly one Link, once, iff run (and Vehicle.link names that Link); it is in the generation queue of exactly its origin Node, once, iff wait. No vehicle is lost, duplicated or teleported out of the books.", "quantifier": "every network, demand, random outcome and history of addNode/addLink/addVehicle/adddemand/exec_simulation/... calls", "why_tests_cant": "the containers are updated in six different methods in an order that depends on traffic; a test sees a few histories", "anchors": ["uxsim/uxsim.py:Node.generate", "uxsim/uxsim.py:Node.transfer", "uxsim/uxsim.py:Vehicle.update", "uxsim/uxsim.py:Vehicle.end_trip", "uxsim/uxsim.py:World.exec_simulation"]}
{"id": "C02", "title": "Cumulative counts match the vehicles on the link", "statement": "For every Link, cum_arrival[-1]-cum_departure[-1] equals DELTAN times the number of platoons on the link; both curves have one entry per executed timestep, never decrease, and departures never exceed arrivals at any recorded time; hence num_vehicles_t(t) is the true non-negative count at every recorded time.", "quantifier": "every reachable world, every link, every recorded timestep", "why_tests_cant": "needs conservation through every interleaving of generation, transfer, trip end", "anchors": ["uxsim/uxsim.py:Link.update", "uxsim/uxsim.py:Link.arrival_count", "uxsim/uxsim.py:Link.departure_count", "uxsim/uxsim.py:Link.num_vehicles_t", "uxsim/uxsim.py:Node.transfer", "uxsim/uxsim.py:Vehicle.end_trip"]}
{"id": "C03", "title": "Links are first-in first-out", "statement": "Vehicles leave a Link in the order in which they entered it, whatever the number of lanes, whether they leave by transfer or by ending their trip; the number that entered and left over any period is exactly the increment of the cumulative curves.", "quantifier": "every link, every pair of times of every run", "why_tests_cant": "depends on all schedules of the node model and of trip endings", "anchors": ["uxsim/uxsim.py:Node.transfer", "uxsim/uxsim.py:Vehicle.end_trip", "uxsim/uxsim.py:Link"]}
{"id": "C04", "title": "Vehicles stay on their link and never move backwards", "statement": "A running vehicle always has 0 <= x <= link.length; in a timestep it moves forward by between 0 and free_flow_speed*DELTAT, and its speed v after the move is within [0, free_flow_speed].", "quantifier": "every reachable world, every running vehicle, every timestep", "why_tests_cant": "car following depends on arbitrary leader trajectories", "anchors": ["uxsim/uxsim.py:Vehicle.carfollow", "uxsim/uxsim.py:Vehicle.update", "uxsim/uxsim.py:Node.transfer"]}
{"id": "C05", "title": "Jam spacing is never violated and lanes never mix", "statement": "Two vehicles that follow each other in the same lane of a link are always at least DELTAN/(jam density per lane) apart, so no vehicle overtakes its leader; the i-th vehicle of the queue follows the (i-lanes)-th one and has its lane, so the lane assertion in generate()/transfer() never fails.", "quantifier": "every reachable world, every link, every pair of consecutive vehicles of a lane", "why_tests_cant": "inductive invariant over all traffic states; the acceptance test, left-over move and car following all have to cooperate", "anchors": ["uxsim/uxsim.py:Vehicle.carfollow", "uxsim/uxsim.py:Node.generate", "uxsim/uxsim.py:Node.transfer"]}
{"id": "C06", "title": "Density is bounded by jam density", "statement": "The number of vehicles on a link never exceeds jam_density*length plus one platoon per lane.", "quantifier": "every reachable world and link", "why_tests_cant": "consequence of the spacing invariant on all states", "anchors": ["uxsim/uxsim.py:Link.num_vehicles", "uxsim/uxsim.py:Link.density"]}
{"id": "C07", "title": "Inflow never exceeds capacity_in", "statement": "Over any k consecutive timesteps the number of vehicles entering a Link is at most capacity_in*DELTAT*k plus the initial burst allowance DELTAN*lanes + capacity_in*DELTAT (or the initial allowance); a Link with capacity_in=0 never receives any vehicle.", "quantifier": "every link, every window of every run", "why_tests_cant": "token-bucket bound over unbounded windows", "anchors": ["uxsim/uxsim.py:Link.in_out_flow_constraint", "uxsim/uxsim.py:Node.generate", "uxsim/uxsim.py:Node.transfer"]}
{"id": "C08", "title": "Transfers out of a link respect capacity_out and transfers through a node respect flow_capacity", "statement": "Over any k consecutive timesteps the number of vehicles transferred out of a Link at its end node is at most capacity_out*DELTAT*k plus a burst of DELTAN*lanes + capacity_out*DELTAT, and the number transferred through a Node at most flow_capacity*DELTAT*k plus the analogous burst.", "quantifier": "every link and node, every window of every run", "why_tests_cant": "token-bucket bound over unbounded windows and all node schedules", "anchors": ["uxsim/uxsim.py:Link.in_out_flow_constraint", "uxsim/uxsim.py:Node.flow_capacity_update", "uxsim/uxsim.py:Node.transfer"]}
{"id": "C09", "title": "Vehicles cross a signalised node only on green", "statement": "If a vehicle moves from one Link to another in a timestep, then at that timestep either the node has at most one signal phase or its current signal_phase belongs to the signal_group of the link the vehicle left.", "quantifier": "every timestep of every run, every vehicle, every signal setting", "why_tests_cant": "must hold for all schedules and all phase/offset combinations", "anchors": ["uxsim/uxsim.py:Node.transfer", "uxsim/uxsim.py:Node.signal_control"]}
{"id": "C10", "title": "Signal timing follows the configured green times", "statement": "With green times signal=[g0,...] the phases are served cyclically in order, phase i staying active for g_i seconds (rounded to timesteps), starting from the position given by signal_offset.", "quantifier": "every list of green times, every offset, every number of timesteps", "why_tests_cant": "for-all over real-valued timings and unbounded time; off-by-one errors accumulate", "anchors": ["uxsim/uxsim.py:Node.signal_control", "uxsim/uxsim.py:Node.__init__", "uxsim/uxsim.py:Node.override_signal"]}
{"id": "C11", "title": "The signal phase is always a valid phase", "statement": "signal_phase is always an index of the current signal list, also after override_signal().", "quantifier": "every history of override_signal calls and timesteps", "why_tests_cant": "depends on the phase at the moment of the call", "anchors": ["uxsim/uxsim.py:Node.signal_control", "uxsim/uxsim.py:Node.override_signal"]}
{"id": "C12", "title": "Trip life cycle is monotone", "statement": "A vehicle's state only moves home -> wait -> run -> (end | abort) and end/abort are final; it does not leave home before its departure time, enters a link only after it, its arrival_time and travel_time stay -1 until it ends, and then arrival_time >= departure_time, travel_time = (arrival_time-departure_time)*DELTAT >= 0 and never change.", "quantifier": "every vehicle, every run", "why_tests_cant": "temporal property over all histories", "anchors": ["uxsim/uxsim.py:Vehicle.update", "uxsim/uxsim.py:Vehicle.end_trip", "uxsim/uxsim.py:Node.generate"]}
{"id": "C13", "title": "Traveled routes are connected and end at the destination", "statement": "The links recorded for a vehicle (Vehicle.traveled_route()) form a connected path in the network that starts at its origin; if the vehicle's state is end, the path ends at its destination node; the entering times are strictly increasing.", "quantifier": "every vehicle, every run, every route-choice outcome", "why_tests_cant": "every random route choice and every node schedule", "anchors": ["uxsim/uxsim.py:Vehicle.traveled_route", "uxsim/uxsim.py:Vehicle.record_log", "uxsim/uxsim.py:Vehicle.route_next_link_choice", "uxsim/uxsim.py:Vehicle.end_trip"]}
{"id": "C14", "title": "Nobody beats free flow", "statement": "The travel_time of a completed trip is at least the free-flow travel time of the links it traveled (sum of length/free_flow_speed), so the delay of a trip is never negative.", "quantifier": "every completed vehicle of every run", "why_tests_cant": "includes the left-over distance mechanism at link ends, for all speeds and lengths", "anchors": ["uxsim/uxsim.py:Vehicle.end_trip", "uxsim/uxsim.py:Vehicle.carfollow", "uxsim/uxsim.py:Node.transfer", "uxsim/analyzer.py:Analyzer.basic_analysis"]}
{"id": "C15", "title": "distance_traveled is the length of the traveled route", "statement": "For a completed trip, Vehicle.distance_traveled equals the total length of the links in its traveled route; it never exceeds that for a trip in progress.", "quantifier": "every vehicle of every run", "why_tests_cant": "the left-over move at each node transition has to be accounted for in all cases", "anchors": ["uxsim/uxsim.py:Vehicle.update", "uxsim/uxsim.py:Node.transfer"]}
{"id": "C16", "title": "An enforced route is followed exactly", "statement": "A vehicle with enforce_route(route) enters exactly the links of route, in order, for as long as it runs; if the route does not fit the network the simulation raises an error instead of deviating.", "quantifier": "every route list, every run", "why_tests_cant": "for-all over routes, traffic states and node schedules", "anchors": ["uxsim/uxsim.py:Vehicle.enforce_route", "uxsim/uxsim.py:Vehicle.route_next_link_choice", "uxsim/uxsim.py:Node.generate"]}
{"id": "C17", "title": "Link choice respects the network, links_prefer, links_avoid and no_cyclic_routing", "statement": "The link a vehicle chooses at a node is an outgoing link of that node; if some outgoing link is preferred, only preferred ones are chosen; an avoided link is never chosen; with no_cyclic_routing a non-taxi vehicle does not choose a link to an already visited node if another admissible link exists; with all links avoided an error is raised.", "quantifier": "every node, preference, avoid list and random outcome", "why_tests_cant": "combinatorial for-all over preference sets and random outcomes", "anchors": ["uxsim/uxsim.py:Vehicle.route_next_link_choice", "uxsim/uxsim.py:Node.generate"]}
{"id": "C18", "title": "Splitting exec_simulation does not change the result", "statement": "Running the simulation by several exec_simulation(until_t=..)/(duration_t2=..) calls executes every timestep 0,1,2,... exactly once and in order, and reaches exactly the state that a single call reaches.", "quantifier": "every way of splitting the run into calls", "why_tests_cant": "for-all over split points", "anchors": ["uxsim/uxsim.py:World.exec_simulation"]}
{"id": "C19", "title": "exec_simulation stops exactly at the end", "statement": "W.T never exceeds TSIZE; exec_simulation returns 1 iff the simulation has reached TSIZE, check_simulation_ongoing() is true iff timesteps remain, and the loop `while W.check_simulation_ongoing(): W.exec_simulation(duration_t2=d)` with d >= DELTAT terminates after executing all TSIZE timesteps.", "quantifier": "every TMAX, DELTAT, and sequence of arguments", "why_tests_cant": "boundary arithmetic for all arguments", "anchors": ["uxsim/uxsim.py:World.exec_simulation", "uxsim/uxsim.py:World.check_simulation_ongoing"]}
{"id": "C20", "title": "The main loop never crashes internally", "statement": "On a well-formed scenario no timestep raises an AssertionError, IndexError, KeyError, AttributeError or ZeroDivisionError; the only errors a run may raise are the documented ValueErrors about inconsistent specified routes and about having no admissible link.", "quantifier": "every well-formed network, demand, random outcome and number of timesteps", "why_tests_cant": "absence of exceptions on all executions", "anchors": ["uxsim/uxsim.py:World.exec_simulation", "uxsim/uxsim.py:Node.transfer", "uxsim/uxsim.py:Node.generate", "uxsim/uxsim.py:Vehicle.update", "uxsim/uxsim.py:Vehicle.end_trip"]}
{"id": "C21", "title": "hard_deterministic_mode removes all randomness", "statement": "With hard_deterministic_mode=True the result of the simulation does not depend on the random seed at all.", "quantifier": "every pair of random generators, every scenario, every number of timesteps", "why_tests_cant": "relational property over two runs", "anchors": ["uxsim/uxsim.py:Node.generate", "uxsim/uxsim.py:Node.transfer", "uxsim/uxsim.py:Vehicle.route_next_link_choice", "uxsim/uxsim.py:RouteChoice.route_search_all"]}
{"id": "C22", "title": "adddemand creates the requested volume", "statement": "adddemand(flow or volume) creates, up to every timestep, exactly floor(cumulated demand / DELTAN) platoons, all departing within [t_start, t_end); the total differs from the requested volume by less than one platoon plus the demand of one timestep; each has the given origin and destination.", "quantifier": "every t_start, t_end, flow, volume, DELTAN, DELTAT", "why_tests_cant": "rounding for all real arguments", "anchors": ["uxsim/uxsim.py:World.adddemand"]}
{"id": "C23", "title": "Count queries read the curves at the right timestep", "statement": "arrival_count/departure_count/instant_travel_time/actual_travel_time at time t return the recorded value of the timestep containing t, clamped to the first/last record outside the recorded range; arrival_count is monotone in t; inflow_between is additive.", "quantifier": "every t (negative, inside, beyond the end), every link state", "why_tests_cant": "for-all over real t and history", "anchors": ["uxsim/uxsim.py:Link.arrival_count", "uxsim/uxsim.py:Link.departure_count", "uxsim/uxsim.py:Link.instant_travel_time", "uxsim/uxsim.py:Link.actual_travel_time", "uxsim/uxsim.py:Link.inflow_between"]}
{"id": "C24", "title": "DUO preferences are proper shares", "statement": "With update weights in [0,1], every entry of the route preference stays in [0,1] for ever, and for every destination and node the preferences of the outgoing links sum to at most 1 on networks without parallel links (to exactly 1 once updated, if the destination is always reachable).", "quantifier": "every sequence of updates, weights and shortest-path results", "why_tests_cant": "invariant of an unbounded iteration", "anchors": ["uxsim/uxsim.py:RouteChoice.homogeneous_DUO_update"]}
{"id": "C25", "title": "Route search follows shortest paths", "statement": "The link-cost matrix holds for each node pair the average over its parallel links of the (possibly noisy) instantaneous travel time plus toll, and infinity if one of them is closed; given a correct shortest-path routine, in deterministic mode the link preferred after a first update is the first link of a least-cost path to the destination.", "quantifier": "every network, travel times, tolls", "why_tests_cant": "for-all over graphs and costs", "anchors": ["uxsim/uxsim.py:RouteChoice.route_search_all", "uxsim/uxsim.py:RouteChoice.homogeneous_DUO_update"]}
{"id": "C26", "title": "Route objects are exactly the connected link sequences", "statement": "Route(W, links) succeeds iff consecutive links are adjacent and then holds exactly these links; two routes are equal iff their link sequences are; every traveled route is accepted; actual_travel_time of a concatenation is the time of the first part plus the time of the second part started after it.", "quantifier": "every link list, every departure time, every travel-time record", "why_tests_cant": "for-all over sequences", "anchors": ["uxsim/uxsim.py:Route.__init__", "uxsim/uxsim.py:Route.__eq__", "uxsim/uxsim.py:Route.actual_travel_time"]}
{"id": "C27", "title": "Basic statistics equal the sums over vehicles", "statement": "After the simulation trip_all equals DELTAN times the number of vehicles with a destination, trip_completed DELTAN times those that ended, total_travel_time DELTAN times the sum of their travel times, average_travel_time the mean, whatever queries were made before.", "quantifier": "every set of vehicles, every earlier sequence of analyzer queries", "why_tests_cant": "grouping by OD pair, caching flags and history", "anchors": ["uxsim/analyzer.py:Analyzer.od_analysis", "uxsim/analyzer.py:Analyzer.basic_analysis", "uxsim/analyzer.py:Analyzer.od_to_pandas"]}
{"id": "C28", "title": "Names are unique and lookups are exact", "statement": "No two nodes, links or vehicles of a World have the same name; adding an object under a used name raises; get_node/get_link(name) returns the object created under this name; ids are the creation order.", "quantifier": "every history of add calls", "why_tests_cant": "history-dependent", "anchors": ["uxsim/uxsim.py:Node.__init__", "uxsim/uxsim.py:Link.__init__", "uxsim/uxsim.py:Vehicle.__init__", "uxsim/uxsim.py:World.get_node", "uxsim/uxsim.py:World.get_link"]}
{"id": "C29", "title": "Scenario save/load is faithful", "statement": "Loading a scenario saved from a World into an empty World recreates the same nodes, links and demand, so that the simulation behaves the same.", "quantifier": "every scenario", "why_tests_cant": "round trip over all constructor arguments", "anchors": ["uxsim/scenario_reader_writer.py:save_scenario", "uxsim/scenario_reader_writer.py:load_scenario", "uxsim/scenario_reader_writer.py:instance_to_arg_dict"]}
{"id": "C30", "title": "Taxis serve their destination list in order", "statement": "A taxi visits its destinations in the order given by its destination list and never enters a link that does not start where it is.", "quantifier": "every destination list, every run", "why_tests_cant": "history-dependent; corner cases such as repeated destinations", "anchors": ["uxsim/uxsim.py:Vehicle.update", "uxsim/uxsim.py:Vehicle.add_dest", "uxsim/uxsim.py:Vehicle.route_next_link_choice"]}
{"id": "C31", "title": "TaxiHandler serves each request once and in order", "statement": "A trip request is assigned to at most one taxi; it is never picked up before it is assigned nor delivered before it is picked up; assignment only uses vacant taxis and gives no taxi two requests in one round; pending, and all requests partition correctly.", "quantifier": "every sequence of requests, assignment rounds and taxi movements", "why_tests_cant": "history-dependent", "anchors": ["uxsim/TaxiHandler/TaxiHandler.py:TaxiHandler", "uxsim/TaxiHandler/TaxiHandler.py:TripRequest", "uxsim/TaxiHandler/TaxiHandler.py:TaxiHandler_nearest"]}
{"id": "C32", "title": "Spatial queries are exact", "statement": "get_nearest_node returns a node of least distance; get_nodes_in_area returns exactly the nodes strictly inside the circle, in creation order.", "quantifier": "every set of nodes and every query point", "why_tests_cant": "for-all over coordinates", "anchors": ["uxsim/uxsim.py:World.get_nearest_node", "uxsim/uxsim.py:World.get_nodes_in_area"]}
{"id": "C33", "title": "Automatic TMAX covers all departures", "statement": "If tmax is not given, the simulation lasts at least 1800 s beyond the last departure, TMAX is a multiple of 1800, and every vehicle's departure timestep is executed.", "quantifier": "every set of departure times", "why_tests_cant": "for-all over demand", "anchors": ["uxsim/uxsim.py:World.finalize_scenario"]}
{"id": "C34", "title": "Link parameters form a triangular fundamental diagram", "statement": "capacity = u*w*kappa/(u+w), free flow and congested branches meet there, capacity is less than lanes/reaction_time and less than u*kappa; change_free_flow_speed and change_jam_density keep these relations; jam_density_per_lane overrides jam_density.", "quantifier": "every parameter combination and every sequence of changes", "why_tests_cant": "for-all over reals and call sequences", "anchors": ["uxsim/uxsim.py:Link.__init__", "uxsim/uxsim.py:Link.change_free_flow_speed", "uxsim/uxsim.py:Link.change_jam_density"]}
{"id": "C35", "title": "Recorded actual travel times are those of real vehicles", "statement": "After the run, actual_travel_time(t) is the travel time of the last vehicle that left the link among those that entered at or before t, and free-flow time before anyone left; later departures never change the value for entries earlier than their own.", "quantifier": "every link, every run, every t", "why_tests_cant": "depends on the complete departure history", "anchors": ["uxsim/uxsim.py:Node.transfer", "uxsim/uxsim.py:Vehicle.end_trip", "uxsim/uxsim.py:Link.actual_travel_time"]}
{"id": "C36", "title": "Origins release vehicles in order and do not block needlessly", "statement": "Vehicles leave the generation queue of a node in the order they joined it; the head of the queue is held back only if its chosen link has no room or no inflow capacity, or the per-step number of attempts is used up.", "quantifier": "every node, every run", "why_tests_cant": "all traffic states and choices", "anchors": ["uxsim/uxsim.py:Node.generate"]}
{"id": "C37", "title": "Automatic node capacity", "statement": "adjust_node_capacity sets the capacity of a node with in- and outgoing links to the mean of the largest in- and out-capacity and the number of lanes that carries it, without overriding a given flow_capacity.", "quantifier": "every node configuration", "why_tests_cant": "for-all over parameters", "anchors": ["uxsim/uxsim.py:Node.adjust_node_capacity"]}
{"id": "C38", "title": "Merging follows merge_priority", "statement": "A vehicle is transferred only from a link with a candidate at its head; in hard_deterministic_mode among the candidates of one trial one with the largest merge_priority goes first; a link with priority 0 never wins against one with positive priority.", "quantifier": "every node state and random outcome", "why_tests_cant": "all random outcomes", "anchors": ["uxsim/uxsim.py:Node.transfer"]}
{"id": "C39", "title": "average_speed is the mean of recorded speeds", "statement": "Analyzer.average_speed is the average of the recorded speeds of all vehicle-timesteps.", "quantifier": "every sequence of log records", "why_tests_cant": "running-mean over histories", "anchors": ["uxsim/uxsim.py:Vehicle.record_log"]}
{"id": "C40", "title": "Edie traffic states conserve distance and time", "statement": "For each link the total distance and time in the computed cells equals DELTAN times that of the recorded trajectories within the observed region.", "quantifier": "every set of trajectories and cell sizes", "why_tests_cant": "for-all over real trajectories and grids", "anchors": ["uxsim/analyzer.py:Analyzer.compute_edie_state"]}
{"id": "C41", "title": "Reading link state does not disturb the simulation", "statement": "Reading Link.speed/density/flow/num_vehicles between timesteps returns the current state and does not change later results.", "quantifier": "every interleaving of reads and timesteps", "why_tests_cant": "caching with sentinel; history-dependent", "anchors": ["uxsim/uxsim.py:Link.speed", "uxsim/uxsim.py:Link.density", "uxsim/uxsim.py:Link.num_vehicles", "uxsim/uxsim.py:Link.update"]}
{"id": "C42", "title": "DUE/DSO day-to-day route swap only improves", "statement": "In one day of SolverDUE a completed vehicle keeps the route it traveled unless it swaps, and it swaps only to a route of its OD route set whose cost on that day is strictly less than that of its current route; the reported number of swaps counts exactly the swapped vehicles.", "quantifier": "every route set, cost, random draw", "why_tests_cant": "for-all over costs and draws", "anchors": ["uxsim/DTAsolvers/DTAsolvers.py:SolverDUE.solve"]}
{"id": "C43", "title": "Vehicle logs are complete and consistent", "statement": "With logging interval 1 a vehicle has one log row per timestep it lived plus a final one; the log columns have equal lengths and report the state, link and position at that time.", "quantifier": "every vehicle and run", "why_tests_cant": "history-dependent", "anchors": ["uxsim/uxsim.py:Vehicle.record_log"]}
{"id": "C44", "title": "The time of a vehicle step is well-defined", "statement": "departure_time_in_second is the departure time in seconds of the vehicle, and departure_time the timestep containing it.", "quantifier": "every departure time given in seconds or timesteps", "why_tests_cant": "unit conversions for all arguments", "anchors": ["uxsim/uxsim.py:Vehicle.__init__"]}
{"id": "C45", "title": "Average travel time between two times is the mean over the vehicles that entered", "statement": "average_travel_time_between(t0, t1) is the mean of the times spent on the link by the vehicles that entered it in [t0, t1).", "quantifier": "every reachable world, link and interval", "why_tests_cant": "for-all over simulated histories and intervals; depends on what the enter log keeps", "anchors": ["uxsim/uxsim.py:Link.average_travel_time_between", "uxsim/uxsim.py:Link.vehicles_enter_log", "uxsim/uxsim.py:Node.transfer"]}
{"id": "C46", "title": "Area demand creates the requested volume between the right nodes", "statement": "adddemand_nodes2nodes/_area2area and their ..2 versions create vehicles only between usable origins and different usable destinations of the groups, in [t_start, t_end), and as many as asked for up to one platoon, whatever the random numbers; they do not raise.", "quantifier": "every network, group of nodes, interval, flow or volume, random choice", "why_tests_cant": "for-all over groups, volumes and random draws; rounding per pair", "anchors": ["uxsim/uxsim.py:World.adddemand_nodes2nodes", "uxsim/uxsim.py:World.adddemand_area2area", "uxsim/uxsim.py:World.adddemand_nodes2nodes2", "uxsim/uxsim.py:World.adddemand_area2area2", "uxsim/uxsim.py:World.adddemand_point2point"]}
{"id": "C47", "title": "System-optimum swaps follow the marginal cost and the best day is returned", "statement": "On a day of SolverDSO_D2D a drawn vehicle that ended changes its route exactly if a route of its set has a strictly lower marginal cost (travel time plus estimated externality) than the traveled one, and then to one of least marginal cost; the reported numbers of swaps and potential swaps count these vehicles, the gap is 0 iff there is no potential swap, the externality is not negative, and the returned World has the least average travel time of the completed days.", "quantifier": "every reachable world, vehicle, route set, random draw, number of days", "why_tests_cant": "for-all over simulated worlds, route sets and draws; relational claims between costs, swaps and reported figures", "anchors": ["uxsim/DTAsolvers/DTAsolvers.py:SolverDSO_D2D.solve", "uxsim/Utilities/Utilities.py:estimate_congestion_externality_link", "uxsim/Utilities/Utilities.py:estimate_congestion_externality_route"]}
{"id": "C48", "title": "The genetic system-optimum solver keeps valid genomes and never loses its best one", "statement": "In SolverDSO_GA every genome of every generation gives each vehicle the number of one of its routes, whatever the random draws; the two children of a crossing have, at every place, the two genes of their parents; the winner of a tournament is the fittest of its sample; the population keeps its size; with an elite the best fitness never gets worse from generation to generation, and the intermediate solution is the best of all simulated genomes, no worse than the initial World; the fitness counts an unfinished trip as one of TMAX. The returned World is the best one.", "quantifier": "every population, fitness function, random draw, number of generations, reachable world", "why_tests_cant": "for-all over random draws and generations; an invariant and a monotonicity claim along the run of the solver", "anchors": ["uxsim/DTAsolvers/DTAsolvers.py:SolverDSO_GA.solve"]}
{"id": "C49", "title": "The neighbourhood search of the system-optimum solver keeps valid solutions and its best one", "statement": "In SolverDSO_ALNS the destruction removes between k_min and k_cur existing places, the repair fills them with values of the domains (another value, or the one of least cost) and changes nothing else; operators are picked in proportion to their positive weights, which stay between a millionth and the greatest of the initial weights and rewards and move a fixed fraction towards the average reward at the end of each segment; a candidate that is no worse than the current solution is always accepted; the best solution of the search is the best of the initial one and of all candidates; the returned World is the best of all simulated ones, and one with completed trips is preferred to one with unfinished trips; one simulation is run for every iteration asked for.", "quantifier": "every problem, objective, random draw, number of iterations; every reachable world for the objective", "why_tests_cant": "for-all over random draws and iterations; invariants and optimality claims along the run of the search", "anchors": ["uxsim/DTAsolvers/ALNS.py:auto_step", "uxsim/DTAsolvers/ALNS.py:init_alns", "uxsim/DTAsolvers/ALNS.py:_repair_minimum_cost", "uxsim/DTAsolvers/DTAsolvers.py:SolverDSO_ALNS.solve"]}
{"id": "C50", "title": "The route enumerations list connected routes of least cost", "statement": "enumerate_k_shortest_routes(_on_t) returns the k simple routes of least cost between two nodes (all if there are fewer), each one a connected list of links from the source to the target, in increasing order of the cost and with their costs; enumerate_k_random_routes ends, and gives every pair of nodes with a route between them at least one and at most k different simple routes, the first of which is a shortest one by free flow travel time.", "quantifier": "every reachable world, pair of nodes, k, cost function, random draws; networkx by its contract", "why_tests_cant": "for-all over networks, optimality among all routes, termination of a loop that depends on random numbers", "anchors": ["uxsim/Utilities/Utilities.py:enumerate_k_shortest_routes", "uxsim/Utilities/Utilities.py:enumerate_k_random_routes"]}
{"id": "C51", "title": "The distances and travel times between all nodes are those of shortest routes", "statement": "get_shortest_path_distance_between_all_nodes gives the length of a shortest route for every pair of nodes and inf if there is none; get_shortest_path_instantaneous_travel_time_between_all_nodes gives the result of the last route search; the variant for a time t gives the result of the last search before t, and the time of this search; searches are recorded exactly once every update interval.", "quantifier": "every reachable world, pair of nodes, time; correct shortest path routine", "why_tests_cant": "invariant of the record over all timesteps, optimality among all routes", "anchors": ["uxsim/Utilities/Utilities.py:get_shortest_path_distance_between_all_nodes", "uxsim/Utilities/Utilities.py:get_shortest_path_instantaneous_travel_time_between_all_nodes_on_t", "uxsim/uxsim.py:RouteChoice.route_search_all"]}
{"id": "C52", "title": "The taxi statistics are those of the requests", "statement": "TaxiHandler.compute_stats gives the number of requests and of completed requests in vehicles, and the waiting, riding and travel times of the requests; no more requests are completed than made; the average travel time of the completed requests is the sum of their average waiting and riding times; no waiting or riding time is negative when requests are assigned when due; print_stats and trips_to_pandas report the same; every request is found by get_trip under its default name.", "quantifier": "every reachable world; for waiting times all histories with assignments of due requests only", "why_tests_cant": "invariant over all timesteps and operations (a passenger gets on after the request is due), loops over requests", "anchors": ["uxsim/TaxiHandler/TaxiHandler.py:TaxiHandler.compute_stats", "uxsim/TaxiHandler/TaxiHandler.py:TaxiHandler.print_stats", "uxsim/TaxiHandler/TaxiHandler.py:TaxiHandler.trips_to_pandas", "uxsim/TaxiHandler/TaxiHandler.py:TaxiHandler.get_trip"]}
{"id": "C53", "title": "Delays are not negative and distances are summed over the vehicles", "statement": "In a network without parallel or closed links and with positive lengths and speeds, free_travel_time and shortest_distance of od_to_pandas are those of the fastest and shortest routes; total_delay and average_delay of basic_analysis are the differences between the travel times of the completed trips and these, and not negative if no speed is changed; total_distance_traveled is the distance of all vehicles with a destination.", "quantifier": "every reachable world of such networks; distances: every reachable world", "why_tests_cant": "travel time bound over all timesteps (C14), connected routes (C13), least-cost paths, sums over groups of vehicles", "anchors": ["uxsim/analyzer.py:Analyzer.basic_analysis", "uxsim/analyzer.py:Analyzer.od_analysis", "uxsim/analyzer.py:Analyzer.od_to_pandas"]}
{"id": "C54", "title": "Statistics of links count the vehicles that left and are on them", "statement": "link_to_pandas: traffic_volume of a link is deltan times the number of platoons that left it since finalisation, vehicles_remain deltan times the platoons on it; average_travel_time is the mean over all timesteps of the travel time of the last vehicle that entered by then (free-flow before any), so it lies between the least and the largest of these, and is -1 if no vehicle left. Before the first timestep IndexError is raised, afterwards with positive lengths and speeds every link has a row. It is not the mean over vehicles and not always at least the free-flow travel time.", "quantifier": "every run from a finalised world, every link", "why_tests_cant": "history of exits of a link over all timesteps joined with the cumulative curves and the travel-time list", "anchors": ["uxsim/analyzer.py:Analyzer.link_analysis_coarse", "uxsim/analyzer.py:Analyzer.link_to_pandas"]}
{"id": "C55", "title": "Statistics of areas count the vehicles whose routes visit them", "statement": "area_to_pandas, when every timestep is logged and no link has a name reserved for rows off the network: n_links counts the links with both ends (with border: one end) in the area, traffic_volume is deltan times the vehicles whose route has such a link, vehicles_remain deltan times the platoons on these links, the delay is not negative. With any interval the volume is at most that. With w = (departures - deltan * platoons) of a link as weight, total_travel_time is the weighted sum of the average travel times, delay compares it with the weighted free travel times, average_speed is the weighted length over it, average_density the volume over the length. If nothing is inside, total_travel_time is the sum of average travel time times volume and not negative; otherwise it can be negative.", "quantifier": "every reachable world, every list of areas", "why_tests_cant": "log rows of a vehicle related to its route over all operations; grouping of rows by names", "anchors": ["uxsim/analyzer.py:Analyzer.area_to_pandas", "uxsim/analyzer.py:Analyzer.vehicles_to_pandas", "uxsim/uxsim.py:Vehicle.record_log"]}
{"id": "C56", "title": "Statistics of trips between areas and of groups are means over the vehicles", "statement": "areas2areas_to_pandas has a row for exactly the pairs of areas with trips between them; total_trips and completed_trips are deltan times the numbers of vehicles, average_travel_time the mean over the ended ones (nan without any), average_free_travel_time in plain networks the mean of the fastest times and at most the average travel time; average_distance_traveled and average_shortest_distance count only vehicles between whose nodes some trip was completed, divided by all. vehicle_groups_to_pandas: total and completed count vehicles, the averages are means over the ended vehicles, the delay ratio in plain networks without round trips is at least 1.", "quantifier": "every reachable world, every list of areas and groups; least times: plain networks without changes of speed", "why_tests_cant": "sums over the rows of the OD table turned into sums over vehicles; travel time bound over all timesteps (C14); least-cost paths", "anchors": ["uxsim/analyzer.py:Analyzer.areas2areas_to_pandas", "uxsim/analyzer.py:Analyzer.vehicle_groups_to_pandas", "uxsim/analyzer.py:Analyzer.od_to_pandas"]}
{"id": "C57", "title": "Network-average density and flow and the cumulative table agree with the vehicles", "statement": "compute_mfd: K[i] and Q[i] are DELTAN times the time spent and the distance driven by the trajectories of the links (segments starting in slice i, within the cells) divided by the sum of length*EULAR_DT; with cells covering links and time the flows sum to the whole distance. mfd_to_pandas: one row per link set asked so far. link_cumulative_to_pandas: nl*TSIZE rows; 0 <= departures <= arrivals, both non-decreasing, difference = vehicles on the link after the timestep, actual travel time = that of the last vehicle that entered by then; IndexError before the end.", "quantifier": "every reachable world without taxis, loops and speed changes, with every timestep logged; the cumulative table: every world later than a finalisation", "why_tests_cant": "sums of matrix rows over the cells (C40); invariants on the cell sizes; cumulative curves (C02) and travel times (C35)", "anchors": ["uxsim/analyzer.py:Analyzer.compute_mfd", "uxsim/analyzer.py:Analyzer.mfd_to_pandas", "uxsim/analyzer.py:Analyzer.link_cumulative_to_pandas"]}
{"id": "C58", "title": "The table of places and the table of trips describe where the vehicles were", "statement": "get_xy_coords gives the point which divides the straight line between the nodes of the vehicle's link like its position divides the link's length, and (-1,-1) for vehicles that are not on a link. gps_like_log_to_pandas: with every timestep logged and all vehicles added before the first timestep it has exactly one row for each logged row with a link, with the time and speed of that row and the place on that link (0 <= x <= length), plus a repeated last row when the trip ended after that timestep's row; a vehicle added in timestep 2 or later makes it raise IndexError. vehicle_trip_to_pandas: the rows are the attributes of the vehicles; IndexError iff a log is empty. Refuted: one row per time; no vehicle left out (a vehicle at (-1,-1) is); right places for vehicles added in timestep 1 and for logging intervals above 1; present state; average speed = distance / travel time.", "quantifier": "every reachable world with positive link lengths", "why_tests_cant": "invariants on the rows of the logs (C43) carried over all timesteps; index arithmetic of the log lookup", "anchors": ["uxsim/uxsim.py:Vehicle.get_xy_coords", "uxsim/analyzer.py:Analyzer.gps_like_log_to_pandas", "uxsim/analyzer.py:Analyzer.vehicle_trip_to_pandas"]}
{"id": "C59", "title": "The logging interval of vehicles has no influence on the traffic", "statement": "For every sequence of public calls (network, demand, taxis, controls, running in several parts) and every nonzero vehicle_logging_timestep_interval j: the run with interval j raises the same exception as the run with interval 1, or both succeed and all state except the vehicles' logs and the Analyzer's running average of logged speeds is the same: nodes, links, positions, speeds, leaders, trips, route preferences, requests, random draws. The log of each vehicle is that of interval 1 without the rows of timesteps not divisible by j, except the last rows of finished trips, which stay; with -1 the logs are empty. Refuted: the running average speed is the same.", "quantifier": "every configuration with a positive timestep, every sequence of public calls, all pairs of nonzero intervals", "why_tests_cant": "two runs related by a simulation: every function of the engine and every public call preserves equality up to the logs (the only reader of a log is its own writer)", "anchors": ["uxsim/uxsim.py:Vehicle.record_log", "uxsim/uxsim.py:World.exec_simulation", "uxsim/uxsim.py:World.__init__"]}
{"id": "C60", "title": "The postprocessing of imported road networks keeps them consistent and connected", "statement": "osm_network_postprocessing, for a network with unique node numbers, existing link ends and no link from a node to itself, any threshold and at least one iteration: it succeeds; its result has unique nodes (a subset of the old ones with the same coordinates), link ends that exist, no loops, at most one link per ordered pair of nodes, no isolated nodes, and link lengths equal to the distance of the nodes; lanes, speed and name come from old links. There is a map of nodes, each moved by at most one hop of at most the threshold per iteration, which maps every old walk to a new walk. With enforce_bidirectional every link has its reverse and every node an incoming and an outgoing link. After at least as many iterations as nodes no link is at most the threshold long. Refuted: every link below the threshold is removed and its nodes merged (a row of three nodes; a star with the default of five iterations); networks with a self-loop (KeyError, or links whose node has been deleted).", "quantifier": "every network, threshold, number of iterations and (symmetric) distance function", "why_tests_cant": "invariant of the dict of deleted nodes: its keys and values are disjoint; induction over links and iterations", "anchors": ["uxsim/OSMImporter/OSMImporter.py:OSMImporter.osm_network_postprocessing"]}
{"id": "C61", "title": "The time-space network gives time-dependent shortest travel times", "statement": "construct_time_space_network after finalize_scenario and any part of a simulation: if TMAX is a multiple of the timestep it succeeds, travel times are not negative, and they are multiples of the timestep if the free-flow travel times are. Its nodes are the nodes of W at the multiples of dt below int(TMAX) and one end node each; its edges are the links at each time, with cost traveltime_actual of that time and with the arrival time rounded down, if that is still before TMAX, and edges of cost 0 to the end nodes. Walks are routes of W; their cost exceeds the difference of times by less than dt per link. Without parallel links the least cost to an end node is the least sum of travel times of a route, with the times at nodes rounded down. If the travel times are multiples of the timestep and dt is the timestep, the least cost from (n, t) to (m, end) is the least Route.actual_travel_time of a route from n to m that reaches its nodes before TMAX, and there is none if there is no such route. Sources are the origins and departure times of vehicles with departures in timesteps. Refuted: equality with the travel time of a route in general (28 s instead of 31 s), with parallel links (9 s instead of 7 s), success if TMAX is no multiple of the timestep (IndexError), sources of vehicles with departure times in seconds.", "quantifier": "every reachable state, dt, source, destination and function of least costs (Dijkstra's algorithm is specified, not modelled)", "why_tests_cant": "invariants of the loops over times, nodes and links; induction over walks and routes", "anchors": ["uxsim/Utilities/Utilities.py:construct_time_space_network"]}
{"id": "C62", "title": "Nodes do not block: vehicles with an open way move on", "statement": "A vehicle that stands at the end of a link and has not reached its destination is registered at the node. If the first vehicle of a link stands at its end, the signal is green for the link, the link has outflow allowance and the link it wants to enter has room and inflow allowance, then in this timestep a vehicle enters that link or the flow capacity of the node is used up; if no other vehicle wants to enter that link, the vehicle itself enters it, or the flow capacity of the node is used up. The first vehicle on a link whose trip is marked as finished ends its trip in the next timestep. Refuted: that the vehicle itself passes (another one may be chosen), and that a trip ends in the timestep in which the vehicle reaches the end of its last link (of two vehicles side by side, one ends its trip a timestep later).", "quantifier": "every reachable state and every vehicle, node and link", "why_tests_cant": "invariants over the transfers of a timestep: a vehicle stays a candidate until a vehicle enters the link or the node capacity is used up; the loop over out-links serves every one", "anchors": ["uxsim/uxsim.py:Node.transfer", "uxsim/uxsim.py:Vehicle.update", "uxsim/uxsim.py:Vehicle.end_trip"]}
{"id": "C63", "title": "A lone vehicle travels at free flow", "statement": "If there is a single vehicle, no signal or node capacity, and the link capacities let one platoon per timestep through, and every link takes at least one timestep at free flow, then the vehicle is on the road one timestep after its departure time; as long as it drives, the free-flow travel time of the links behind it plus the time for the distance on its present link (with the distance carried over at the end of a link) is exactly the time since its departure, less one timestep; and its recorded travel time is at least the free-flow travel time of its route and less than a timestep longer. The default capacities let a platoon through if speed * jam density * reaction time >= 1. Refuted: the same travel time on links that take less than a timestep, or with another vehicle on the road.", "quantifier": "every reachable state of a scenario with one vehicle whose network and capacities are not changed after the simulation has started", "why_tests_cant": "invariant over timesteps of the exact position including the carried-over distance, with the proof that a lone vehicle is never refused at its origin or at a node", "anchors": ["uxsim/uxsim.py:Vehicle.update", "uxsim/uxsim.py:Node.generate", "uxsim/uxsim.py:Node.transfer", "uxsim/uxsim.py:Link.in_out_flow_constraint"]}
{"id": "C64", "title": "The flow is conserved at every node", "statement": "If all vehicles make single trips, then in every state, at every node: the cumulative departures of the incoming links plus the vehicles that have started their trip there equal the cumulative arrivals of the outgoing links plus the vehicles that have arrived there and those that have given up there; vehicles give up at dead ends only, so that at a node where no trip starts or ends and that is no dead end, inflow equals outflow", "quantifier": "every reachable state of every network, every node, all signals, capacities and route choices", "why_tests_cant": "induction over the events of a timestep: a transfer leaves a link ending at the node and enters one starting there", "anchors": ["uxsim/uxsim.py:Node.transfer", "uxsim/uxsim.py:Node.generate", "uxsim/uxsim.py:Vehicle.end_trip", "uxsim/uxsim.py:Vehicle.route_next_link_choice"]}
{"id": "C65", "title": "The compiled engine follows the rules of the Python engine", "statement": "In every state the C++ engine (cpp=True) computes the same next positions, signal phases, node and link capacities and instantaneous travel times as the Python engine, its buffered records of realised travel times read the same as those written at once, its flag for fresh preferences has the effect of the sum of the preferences, sorting its waiting lists changes nothing; the two engines differ in the timestep of a departure when the departure time is no multiple of the timestep, and in the timestep of the arrival when several vehicles stand at the end of a road with several lanes", "quantifier": "every reachable state with nonnegative speeds; all event lists, arrays and reads; all DUO weights in [0, 1] and sequences of shortest-path trees; all departure times", "why_tests_cant": "the car-following rule reads positions only, so the order does not matter; an entry of the array is the last event that covers it; the sum of the preferences stays positive once a link is reinforced; the vehicles are updated in the order of their numbers", "anchors": ["uxsim/trafficpp/traffi.cpp:car_follow_newell", "uxsim/trafficpp/traffi.cpp:signal_update", "uxsim/trafficpp/traffi.cpp:Link::update", "uxsim/trafficpp/traffi.cpp:ensure_traveltime_real", "uxsim/trafficpp/traffi.cpp:route_choice_duo", "uxsim/trafficpp/traffi.cpp:World::main_loop"]}
{"id": "C66", "title": "Externalities are estimated alike by the compiled engine", "statement": "After the last timestep, the congestion externality of a link or route estimated by the C++ engine is the number of vehicles behind in the queue times the headway at the exit, reads no entry outside of the records, and is the value of the Python function whenever that raises no exception; when the Python function turns an exception into 0, the compiled engine returns a nonnegative number that may be positive", "quantifier": "all links with complete records (every link of every simulation that has run to its end), all nonnegative times, all routes over such links", "why_tests_cant": "the forward scan of both reads the same entries until the first one that leads beyond the end; there the Python list raises IndexError and the C++ loop stops", "anchors": ["uxsim/trafficpp/traffi.cpp:Link::estimate_congestion_externality", "uxsim/trafficpp/traffi.cpp:World::estimate_congestion_externality_route", "uxsim/Utilities/Utilities.py:estimate_congestion_externality_link", "uxsim/Utilities/Utilities.py:estimate_congestion_externality_route"]}
{"id": "C67", "title": "Logs of the compiled engine are those of the Python engine", "statement": "With logging interval 1, the compiled engine, which stores for a vehicle only its columns of links, positions, speeds, lanes and spacings, the first and the last logged timestep and two counters, returns for every vehicle that has departed the log of the Python engine row by row (time, state, link, position, speed, lane, spacing), preceded by rows at home for the timesteps before the vehicle was created, and from it the same list of links entered with their times; a vehicle still at home has no log in the compiled engine.", "quantifier": "all configurations with positive timestep and logging interval 1, all vehicles of all reachable simulations in which both engines go through the same states", "why_tests_cant": "the states of a log come in the order home, waiting, driving, over, and its times are consecutive except for the final row, so that they can be computed from the counters", "anchors": ["uxsim/trafficpp/traffi.cpp:Vehicle::log_data", "uxsim/trafficpp/traffi.cpp:Vehicle::log_t_at", "uxsim/trafficpp/traffi.cpp:Vehicle::log_state_at", "uxsim/trafficpp/traffi.cpp:World::build_all_vehicle_logs_flat_compact", "uxsim/uxsim_cpp_wrapper.py:CppVehicle.log_t_link", "uxsim/uxsim.py:Vehicle.record_log"]}
{"id": "C68", "title": "The compiled engine runs the timesteps and departures of the Python engine", "statement": "exec_simulation of the wrapper runs exactly the timesteps that the loop of the Python engine runs for the same arguments, raises in the same cases and returns the same number; the departure buckets, built anew in every call, let every vehicle at home depart once, in the first timestep of the call not before its departure time and in the order of the ids, so that splitting a call does not change the departures; a timestep of the compiled engine changes nothing static.", "quantifier": "all positive timesteps, all four kinds of arguments, all worlds whose clock is within the simulation, all lists of vehicles with nonnegative departure times", "why_tests_cant": "the argument given to main_loop is a multiple of the timestep, so its floor is exact; the smallest timestep with ts*dt >= departure time, cut at the start of the call, is where the rule of the vehicle first holds", "anchors": ["uxsim/uxsim_cpp_wrapper.py:CppWorld.exec_simulation", "uxsim/trafficpp/traffi.cpp:World::main_loop", "uxsim/uxsim.py:World.exec_simulation"]}
{"id": "C69", "title": "The compiled engine keeps the books of the Python engine", "statement": "In every state that building operations and timesteps of the compiled engine can produce, each vehicle is in exactly one of home, an origin queue, a link or finished, the lists of living and running vehicles and the links agree with the states, leaders are the vehicles one lane-row ahead, the cumulative curves count the vehicles on the link and never decrease, links are first in first out, trips only move forward and arrival and travel times are consistent with the clock.", "quantifier": "all reachable states of the compiled engine (any network, parameters, operations between timesteps); all pairs of a state and a later state", "why_tests_cant": "a timestep of the compiled engine is cut into events shared with the Python engine and four kinds of own steps (link update, signal and capacity of a node, sorting of waiting vehicles, car-following) that leave the structure alone; in the three vehicle passes every vehicle is still alive when its turn comes", "anchors": ["uxsim/trafficpp/traffi.cpp:World::main_loop", "uxsim/trafficpp/traffi.cpp:Link::update", "uxsim/trafficpp/traffi.cpp:Node::transfer", "uxsim/trafficpp/traffi.cpp:Vehicle::update"]}
{"id": "C70", "title": "Positions, speeds and distances in the compiled engine", "statement": "In every state that building operations and timesteps of the compiled engine can produce (links with non-negative length and speed, no taxis, jam densities not lowered), a vehicle on a link is between its ends; its last move is its speed times DELTAT, forward and at most at free flow speed; it is at least DELTAN lanes/jam density behind its leader, which is in the same lane of the same link; a link never holds more vehicles than its jam density and one row allow; vehicles noted down at a node stand at the end of a link into it. After the jam density was lowered the distance can be too small.", "quantifier": "all reachable states of the compiled engine and all timesteps from them", "why_tests_cant": "links, nodes and transfers keep the distances because a vehicle only enters when the last vehicle of its lane is a jam spacing away; the simultaneous car-following pass moves a vehicle at most to the old position of its leader minus the jam spacing, and no leader moves back; the three vehicle passes realise these moves and remove vehicles only at the front of links", "anchors": ["uxsim/trafficpp/traffi.cpp:Vehicle::car_follow_newell", "uxsim/trafficpp/traffi.cpp:Vehicle::update", "uxsim/trafficpp/traffi.cpp:Node::transfer", "uxsim/trafficpp/traffi.cpp:Node::generate", "uxsim/trafficpp/traffi.cpp:World::main_loop"]}
{"id": "C71", "title": "generate_grid_network builds a grid", "statement": "If generate_grid_network(W, imax, jmax, **kwargs) succeeds, imax*jmax nodes and 2((imax-1)jmax+imax(jmax-1)) links have been added and nothing that existed has changed; node (i,j) has the name n(i, j), the coordinates i, j and the capacity 1.6; two of the nodes are joined by exactly one link in each direction if they are neighbours and by none otherwise; between any two of them there is a route of as many links as their distance on the grid and no shorter one; all links have the length, speed and lanes of kwargs. It succeeds whenever no name is taken and addLink accepts the arguments; a second grid in the same world always raises ValueError.", "quantifier": "all sizes, link arguments and worlds that the interface can make", "why_tests_cant": "the names are injective in the indices because decimal numerals have no separators in them; nodes and links are appended in the order of the loops, so that the k-th edge of the enumeration is the k-th new link", "anchors": ["uxsim/Utilities/Utilities.py:generate_grid_network", "uxsim/uxsim.py:Node.__init__", "uxsim/uxsim.py:Link.__init__"]}
{"id": "C72", "title": "Signals and capacities are respected in the compiled engine", "statement": "In every state that the compiled engine can reach: a vehicle is moved from one link to another only if the node in between has at most one phase or shows a phase in the signal group of its link, also when its trip ends in the same timestep; the recorded phases of a node follow its plan (phase i for floor(g_i/DELTAT)+1 timesteps, in cyclic order) as long as nobody overrides it, and its phase is an index of the list; the vehicles that enter a link with capacity_in=q during k timesteps are none or at most q*DELTAT*k plus the allowance at the beginning, which is at most max(q, DELTAN*lanes+q*DELTAT); none ever enters if q=0; the same holds of the transfers out of a link and capacity_out, and of the transfers through a node and its flow_capacity.", "quantifier": "all histories of operations and timesteps of the compiled engine; for the bounds of the allowance the capacity is not assigned", "why_tests_cant": "the invariants of the Python engine carry over because the steps of the compiled engine are those steps apart from the four parts of its own, which change no place of a vehicle; the allowance decreases by DELTAN with every vehicle and is refilled once per timestep", "anchors": ["uxsim/trafficpp/traffi.cpp:Node::signal_update", "uxsim/trafficpp/traffi.cpp:Node::transfer", "uxsim/trafficpp/traffi.cpp:Node::flow_capacity_update", "uxsim/trafficpp/traffi.cpp:Link::update"]}
{"id": "C73", "title": "The compiled day-to-day solvers swap routes like the Python ones", "statement": "On the same finished day, with the same route sets and the same draws, one iteration of the compiled solvers gives every vehicle the route that the Python solvers give it, and reports the same number of swaps, of potential swaps and the same total gap; this holds for the user equilibrium if tolls do not change within a timestep and for the system optimum if no externality is lost; the costs of the alternatives and of the route taken agree, the route and entry times are read correctly off the log, and the flat arrays lose nothing. A compiled day never fails and a vehicle always gets the route it took or one of its route set. With a toll that changes within a timestep the decisions can differ.", "quantifier": "all reachable states, all route sets of valid routes, all draws; DELTAT>0", "why_tests_cant": "the loops over vehicles and over alternatives are run side by side with an invariant: the Python loop holds the best route, the compiled one its index, and their costs are equal; costs by induction on the route", "anchors": ["uxsim/trafficpp/dta_solver.cpp:dta_route_swap_due", "uxsim/trafficpp/dta_solver.cpp:dta_route_swap_dso", "uxsim/trafficpp/bindings.cpp", "uxsim/DTAsolvers/DTAsolvers_cpp_adapter.py", "uxsim/DTAsolvers/DTAsolvers.py:SolverDUE.solve"]}
{"id": "C74", "title": "The shortest path search of the compiled engine is correct", "statement": "World::route_search_all (Dijkstra's algorithm from every node with a priority queue whose outdated entries are skipped) ends within n*n+2 elements of the queue and, for matrices without negative entries, gives the cost of a cheapest path for every pair of nodes (infinite exactly if there is none) and a next node on such a path; following the next nodes reaches the destination at this cost and visits no node twice. The distances are those of any other correct routine.", "quantifier": "all numbers of nodes, all matrices without negative entries (an entry 0 is no edge), all sources", "why_tests_cant": "invariant of the search: visited nodes are final and not farther than the others, all their edges are relaxed, every node with a distance is visited or queued with it, and the distance is that of a path that starts with the recorded next node; the length of the queue plus n times the number of unvisited nodes falls", "anchors": ["uxsim/trafficpp/traffi.cpp:World::route_search_all"]}
{"id": "C75", "title": "The compiled enumeration of random routes is sound and ends", "statement": "World::enumerate_k_random_routes_cpp gives, for exactly the pairs of different nodes that are joined by a route, at most k different routes from the one to the other that visit no node twice, at least one if k>=1, and the first one is a shortest one by free flow travel time among the routes of the last links between two nodes; it ends after at most 11*(k*n*n+1) iterations. Unlike the Python engine it has no entry for a node with itself and does not fail without links; with parallel links the shortest route need not be found.", "quantifier": "all reachable states with links of positive free flow time, all positive draws, all k", "why_tests_cant": "one iteration adds the routes of the Python iteration for the walks of C74; the average of the numbers of routes before the iteration never falls and is bounded, so it changes finitely often", "anchors": ["uxsim/trafficpp/traffi.cpp:World::enumerate_k_random_routes_cpp"]}
{"id": "C76", "title": "The compiled engine searches with the same costs", "statement": "World::update_adj_time_matrix gives the matrix of link costs that the Python engine builds in route_search_all (the mean over parallel links of the travel time with noise plus the toll, infinite if the inflow is prohibited), provided the tolls are those of the finalization. With World::route_search_all the distances are then those of the Python engine, the same pairs have a next node, and the next nodes of both engines lie on cheapest paths. A toll that is set after the finalization is ignored by the compiled engine, which then may lead vehicles to the link with the toll.", "quantifier": "every timestep in which routes are searched, in all scenarios with links of positive length, non-negative speeds and non-negative tolls (C76_tick), and in the timesteps of the compiled engine with positive speeds (C76_engine); more generally all states whose links have positive instantaneous travel times and non-negative costs; all correct shortest path routines", "why_tests_cant": "induction over the links: the toll of the present timestep is the element of the series, so each step of the two folds agrees; then the matrix has no negative entry and C74 applies; for the self entries an invariant of the search", "anchors": ["uxsim/trafficpp/traffi.cpp:World::update_adj_time_matrix", "uxsim/uxsim_cpp_wrapper.py:finalize_scenario", "uxsim/uxsim.py:World.route_search_all"]}
{"id": "C77", "title": "The compiled engine updates the preferences like the Python engine", "statement": "World::route_choice_duo and World::route_choice_duo_gradual note with a flag that the preferences for a destination were reinforced, where the Python engine tests whether they sum to 0. For weights between 0 and 1 the preferences are equal after every sequence of updates that starts from 0, and below 1 the flag is set exactly if the sum is not 0. With weight 1 the flag can remain set when all preferences have become 0, without effect on the values; with a weight above 1 the two engines can differ. The preferences are between 0 and 1, and those of links of which every update finds exactly one on the cheapest path sum to 1.", "quantifier": "all numbers of nodes and links, all weights from 0 to 1, all sequences of link masks (next nodes)", "why_tests_cant": "induction over the updates: equal values, no negative ones, 0 without the flag, with the flag a positive sum or weight 1", "anchors": ["uxsim/trafficpp/traffi.cpp:World::route_choice_duo", "uxsim/trafficpp/traffi.cpp:World::route_choice_duo_gradual", "uxsim/uxsim.py:RouteChoice.homogeneous_DUO_update"]}
{"id": "C78", "title": "A fixed number of swap candidates in the compiled system-optimum solver", "statement": "With swap_num >= 0 the compiled solver marks exactly min(swap_num, number of vehicles) different vehicles as candidates, those that the Python solver samples whenever it can. At most that many vehicles change their route in the day; a vehicle that is no candidate keeps the route it took, unless given route sets do not contain it, in which case it gets the first one. For a number above that of the vehicles and for a negative one the Python solver raises ValueError, while the compiled solver takes all vehicles or falls back on swap_prob.", "quantifier": "all worlds, route stores, cost functions, permutations and numbers", "why_tests_cant": "the first elements of a permutation are different; a search without the flag never sets the index of an alternative; induction over the vehicles", "anchors": ["uxsim/trafficpp/dta_solver.cpp:dta_route_swap_dso", "uxsim/DTAsolvers/DTAsolvers.py:SolverDSO_D2D.solve", "uxsim/DTAsolvers/DTAsolvers_cpp_adapter.py"]}
{"id": "C79", "title": "The solution of the compiled system-optimum solver keeps its statistics", "statement": "The worlds of all days of the compiled solver share one Analyzer object, which every day overwrites. The comparison with the saved average travel time never fails and selects the day that the Python solver selects (C47), and because the object is copied at that moment the returned world shows its own statistics and refers to itself, whatever days follow. The statistics read right after a day are those of the day. A world of a day that was not selected can later show the figures of another world.", "quantifier": "all sequences of days (completed or not, average travel time)", "why_tests_cant": "induction over the days: the copy of the best day has a cell of its own, and later days write only the shared cell or new ones", "anchors": ["uxsim/DTAsolvers/DTAsolvers_cpp_adapter.py:CppSolverDSO_D2D.solve", "uxsim/DTAsolvers/DTAsolvers_cpp_adapter.py:_lightweight_finalize", "uxsim/DTAsolvers/DTAsolvers.py:SolverDSO_D2D.solve"]}
