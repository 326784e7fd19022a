# Design: a Rocq model of UXsim

## 1. What is modelled

The object of study is the Python engine of UXsim (`/repo/uxsim/uxsim.py`), a mesoscopic
traffic simulator, with its satellites (`TaxiHandler`, `scenario_reader_writer`, parts of
`analyzer.py`, `Utilities`, `DTAsolvers`).  The model is written function by function;
each definition cites the lines of `/repo` it models and its simplifications.

* **State.** A Python `World` with its object graph becomes a record `world`.  Objects are
  numbered in creation order (as UXsim's `id` fields); the heaps `w_nodes`, `w_links`,
  `w_vehs` are total functions `nat -> record` with counters; only indices below the
  counter are meaningful.  References between objects are indices.  Python attributes that
  can be `None` are `option`s.
* **Numbers.** Python floats are modelled by exact rationals `Q`; counts are `Z`, times in
  timesteps `nat`/`Z`.  Rounding, overflow, NaN and inf arithmetic are *not* modelled
  (`inf` in the cost matrix is `None`).  This is the main idealisation; `==` between floats
  (e.g. `x == link.length`) is `Qeq_bool`.
* **Exceptions** are values: `result A := Ok a | Err e`, `e` naming the Python class.
  Division by zero raises `ZeroDivisionError`; nothing is silently totalised.
* **Randomness.** `World.rng` is an arbitrary oracle (`nat -> nat`) read with a draw
  counter kept in the state.  `rng.choice(xs, p)` returns any element of positive
  probability.  Theorems quantify over the oracle, so they hold for every seed and every
  outcome; distributional facts are not expressed.
* **Shortest paths.** `scipy.sparse.csgraph.dijkstra` is an arbitrary function of the cost
  matrix; the theorems that need it to be correct take that as a hypothesis, and a verified
  function satisfying the hypothesis is supplied.
* **Time loop.** `exec_simulation` is `body` (one timestep) iterated.

* **Operations.** The 18 public calls that build or change a World are the constructors of `op`
  (`Build.v`); a run is any finite list of operations and timesteps.  What a user function
  or a controller loop does between timesteps is therefore covered by "any operations".

Not modelled: plotting/GUI/pandas presentation (only the contents of the tables), printing, pickling
bytes, wall-clock, float rounding, the state that an exception leaves behind
(an operation that raises gives no successor state), `auto_rename`, numbers of lanes that are not integers.

### Simplifications of the satellites

| part | simplification |
|---|---|
| user functions | as operations between timesteps; only the cache model (C41) also has a callback inside a timestep |
| logs | rows are records, so that the seven columns have equal lengths by construction; the logging interval is arbitrary where not stated otherwise (-1: no logs), 0 is outside of the model |
| tolls (C42, C47) | functions `Q -> Q`; C42 assumes that they respect `==` |
| taxis (C30, C31, C52) | one `TaxiHandler`; distances compared by their squares; `random.shuffle` is an arbitrary permutation; requests have the default names |
| scenario files (C29) | the saved arguments are records instead of bytes |
| Edie states (C40, C57) | the dictionary over vehicle names is represented by its sums, list repetition by a product |
| area demand (C46) | random draws are index functions; `attribute` omitted; an area without nodes within 10^5 raises at once |
| DSO day-to-day (C47) | draws are a flag function; the sampling of `swap_num` is not modelled; pure-Python engine; 1.01 is 101/100 |
| compiled solvers (C73) | draws are a flag function (for `swap_num` see C78); a link without records does not occur |
| compiled search (C74, C75) | exact arithmetic; infinite entries are no edges; draws are positive numbers given by a function |
| costs of the compiled search (C76) | the draws of the links are those of the Python engine; a link without pricing at the finalization keeps an empty series |
| preferences of the compiled engine (C77) | the next nodes are given by a mask of links; the loop over destinations runs in threads on rows of their own |
| candidates of the compiled system optimum (C78) | the shuffle is an arbitrary permutation, of which `random.sample` takes the first elements |
| statistics of the compiled system optimum (C79) | an Analyzer object is its world and its average travel time; the other figures are written together with it and the tables are bound anew every day |
| GA and ALNS (C48, C49) | random numbers are draws; a simulation is an arbitrary fitness/objective function of the genome/solution; the annealing temperature an arbitrary truth value; `UnboundLocalError` is `Exception_`; sense "min" only |
| route enumerations (C50) | networkx by contracts (`correct_ssp`, `correct_apd`, both shown to be satisfiable); nodes by numbers; k not negative |
| distances (C51) | scipy's dijkstra and floyd_warshall are the same parameter `c_dijkstra` |
| delays (C53) | `None` stands for ±inf; standard deviations are not modelled |
| statistics of links, areas, groups (C54-C56) | standard deviations omitted; areas are lists of node numbers; numpy's nan and inf are values of `num`; the od tables are arguments of the group statistics |
| network averages (C57) | links by numbers; numpy's division by 0 is `None`; the analyzer's state is its cached matrices and the link sets asked before |
| time-space network (C61) | nodes are numbers; plotting positions left out; least costs are specified instead of Dijkstra's algorithm |
| road networks (C60) | the Euclidean distance is a parameter; node numbers are naturals |
| places (C58) | `int(T*DELTAT/DELTAT)` is exact; the mean of an empty list is `None` |

## 2. Files (`rocq/theories`)

| files | content |
|---|---|
| `Base` | results/exceptions, lists, boolean order on `Q` |
| `Types`, `Heap`, `FrameBase` | records of the state, setters, reads after writes (generated by `tools/`) |
| `Sim` | the engine: Link/Node/Vehicle/RouteChoice methods, `body` (a timestep), `exec` |
| `Build` | constructors, demand functions, `finalize_scenario`, public operations, reachability |
| `Spec`, `Spec*` | vocabulary of the theorem statements (small, independent of the model's helpers) |
| `Tac`, `Lists`, `Frame` | reasoning about results, loops and lists; what a timestep leaves alone |
| `Inv`, `InvStep`, `Reach`, `State` | the structural invariant of the object graph and its proof for every reachable state |
| `Eff`, `Eff2`, `Trace`, `Effects`, `Phases`, `Vev`, `Ride`, `Steps` | a timestep as a sequence of elementary events with exact effects; runs as sequences of operations and timesteps |
| `Life`, `Incoming`, `Counts`, `TripLog`, `Attr` | life cycle, cumulative curves, link records |
| `Motion`, `Spacing`, `Trials`, `Distance`, `Totals` | positions, spacing, distances and travel times |
| `Signal`, `Green`, `Choice`, `Enforce`, `Origin`, `Merge`, `NodeCap`, `Bucket`, `Outflow` | nodes, signals, choice of links, capacities |
| `FD`, `Spatial`, `Registry`, `LinkQueries`, `Queries`, `Cache`, `TTActual` | links, names, queries |
| `Commute`, `Exec`, `Clock` | splitting, end and determinism of runs |
| `Demand`, `AreaDemand`, `Scenario`, `ScenarioOK` | demand and scenario files |
| `Paths`, `PathsOK`, `Search`, `Duo`, `DuoInv`, `DuoSum`, `Prefs` | route search (with a verified routine) and DUO preferences |
| `Safe`, `Errors`, `Assert` | which errors a timestep can raise |
| `Route`, `EnumRoutes`, `NodeDistances` | Route objects, route enumerations, distances between nodes |
| `Osm`, `OsmOK` | simplification of imported road networks |
| `Tsn`, `TsnOK` | time-space network |
| `SpecProgress`, `Progress`, `Progress2` | progress at nodes |
| `SpecFlow`, `NodeFlow` | conservation of the flow at nodes |
| `Cpp`, `SpecCpp`, `CppOK`, `CppOK2` | the rules of the compiled engine (`trafficpp/traffi.cpp`) against the Python ones; `generate` and `transfer` repeat the Python text and are not transcribed again, the route update is that of `Sim` (its parts are compared in C74, C76 and C77), the random streams are not modelled |
| `CppExt` | congestion externalities in the compiled engine against `Dso`; a read outside of a `std::vector` is an error value |
| `CppLog` | what the compiled engine stores of the log of a vehicle, how rows are read off it, and the rows at home that the wrapper adds, against `record_log` |
| `CppLoop` | calls of `exec_simulation` in the wrapper, bounds of `main_loop`, departure buckets; the timestep is a parameter |
| `CppInv` | the compiled engine's timestep cut into elementary steps; the structural invariants, curves, order and life cycle for its states |
| `AlnsW` | the weights of the operators of the neighbourhood search |
| `CppSafe` | positions, speeds, distances and densities in the states of the compiled engine |
| `Grid`, `GridNet` | generate_grid_network of Utilities: names, cells, edges; the network it builds, routes in it |
| `CppGreen`, `CppSignal`, `CppFlow`, `CppOut`, `CppNode` | the compiled engine: crossing on green, signal plan, inflow and outflow of links, flow through nodes |
| `CppDta` | the compiled day-to-day solvers: costs, route swaps, flat arrays of routes |
| `CppPaths`, `CppEnum` | the compiled engine: shortest path search, enumeration of random routes |
| `CppAdj`, `CppTimed`, `CppRoute` | the compiled engine: link costs and toll series of the route search; positive travel times, in the states of both engines |
| `CppPref` | the compiled engine: updates of the DUO preferences |
| `CppSample`, `CppSampleDemo` | the compiled engine: candidates of a day of the system optimum |
| `CppShared` | the compiled engine: the Analyzer object shared by the days of the system optimum |
| `SpecLone`, `Lone`, `Lone2` | the ride of a lone vehicle |
| `Logs`, `LogRoute`, `Average`, `Traj`, `Edie`, `EdieOK`, `Mfd`, `Gps`, `LogFree` | logs, trajectories, traffic states, network averages, places, intervals |
| `Analyzer`, `Delay`, `LinkStats`, `AreaStats`, `AreaFigures`, `AreaTrips`, `TaxiStats` | statistics |
| `Taxi`, `Taxi2`, `Taxi3`, `Rounds`, `RoundsOK` | taxis and the assignment rounds of the handlers |
| `Due`, `Dso`, `Genetic`, `Objective`, `Alns` | the DTA solvers |
| `*Demo` | concrete runs computed with `vm_compute`: non-vacuity and refutation witnesses |
| `Props_*` | only the final theorems, `exact`-ed from lemmas, with `Print Assumptions` |

## 3. Method

The central object is `reachable c w`: `w` arises from the empty world by any finite
sequence of public operations (add objects, demand, finalize, run any number of timesteps,
change parameters, assign taxis...).  Structural properties (C01-C03, C12, C20) come from
one inductive invariant preserved by every primitive update inside a timestep; numeric
properties (C04-C06, C14, C15) from a second invariant on top.  Temporal properties are
stated on traces of `body` (state before / after each timestep) or as accumulated counters.
Where the faithful model violates a property as a user would state it, the violation is
proved as `..._refuted` with a computed witness, and the strongest true variant is proved.

## 4. Plan per property

| id | model | proof |
|---|---|---|
| C01 | whole engine | structural invariant by induction on operations and on the loops of a timestep |
| C02 | whole engine | same invariant + curve monotonicity |
| C03 | whole engine | step relation on the vehicle queue of each link (drop front, append back), transitive |
| C04 | engine | numeric invariant; without mid-run parameter changes and repeated taxi destinations (counterexamples otherwise) |
| C05 | engine | lane round-robin structure + numeric spacing invariant |
| C06 | engine | consequence of C04/C05 by counting per lane |
| C07 | engine | token-bucket potential `cum_arrival + capacity_in_remain` |
| C08 | engine | potential with ghost transfer counters derived from curves; trip ends are exempt (refuted variant for cum_departure) |
| C09 | engine | step theorem on link-to-link moves |
| C10 | `signal_control` iterated | closed form for the phase; nominal duration refuted (one extra timestep per phase) |
| C11 | `signal_control`, `override_signal` | invariant; refuted for override without reset |
| C12 | engine | transition relation, transitive over runs |
| C13 | engine | path invariant on the link log |
| C14 | engine | numeric potential: free-flow time of finished links + progress <= elapsed time |
| C15 | engine | accounting invariant; equality refuted (left-over moves) |
| C16 | engine | invariant: log is a prefix of the route |
| C17 | choice functions | case analysis, all oracles |
| C18 | exec loop | composition of iterations |
| C19 | exec loop | arithmetic + well-founded iteration |
| C20 | whole engine | progress part of the invariant |
| C21 | whole engine | two-run relation: states equal up to draw counter |
| C22 | adddemand | loop invariant `count = floor(acc/DELTAN)` |
| C23 | query methods | arithmetic on indices |
| C24 | DUO update | invariant over iteration |
| C25 | route search | correctness given shortest path specification, plus verified instance |
| C26 | Route class | induction on lists |
| C27 | analyzer | grouping lemma; caching refuted |
| C28 | constructors | invariant over add operations |
| C29 | scenario writer/reader | round trip on argument records; exceptions refuted |
| C30 | engine taxis | invariant; repeated destination refuted |
| C31 | TaxiHandler | state machine invariant |
| C32 | spatial queries | induction; bound 1e10 refuted |
| C33 | finalize | arithmetic |
| C34 | Link constructor/changers | field arithmetic on Q |
| C35 | travel time record | invariant on the record and departures |
| C36 | generate | step theorem |
| C37 | adjust_node_capacity | case analysis |
| C38 | transfer | case analysis on choice |
| C39 | record_log | refuted (order dependence); partial: without waiting entries it is the mean |
| C40 | compute_edie_state | telescoping over cells |
| C41 | cached properties | equivalence of cached and uncached executions between steps |
| C42 | SolverDUE swap loop | invariant of the loop |
| C43 | record_log | invariant |
| C44 | Vehicle constructor | arithmetic; refuted for seconds input |
| C45 | average travel time queries | index arithmetic on the records, which are related to the vehicles by invariants; refuted for vehicles entering in the same timestep |
| C46 | area demand functions | loop invariants for arbitrary draws |
| C47 | SolverDSO_D2D, externalities | invariant of the swap loop and of the days |
| C48 | SolverDSO_GA | operators preserve genomes for all draws; invariant over generations |
| C49 | SolverDSO_ALNS, ALNS | operators preserve the domains; invariant of the search loop |
| C50 | Utilities route enumerations | contracts of networkx, induction on the loops |
| C51 | distances between nodes | contract of the shortest path routine; cached tables |
| C52 | taxi statistics | invariants on the requests |
| C53 | od_analysis, basic_analysis | C14 + shortest path contract |
| C54 | link statistics | cumulative curves (C02), travel times (C35) |
| C55 | area statistics | log rows against routes |
| C56 | trips between areas, groups | grouping lemmas |
| C57 | compute_mfd, mfd_to_pandas, cumulative table | cells (C40) summed over links |
| C58 | get_xy_coords, table of places, table of trips | logs (C43) + index arithmetic |
| C59 | runs with different logging intervals | simulation relation over every function of the engine and every public call |
| C60 | postprocessing of imported road networks | keys and values of the dict of deleted nodes are disjoint |
| C61 | time-space network and time-dependent shortest travel times | walks are routes with times rounded down; exact if travel times are multiples of the timestep |
| C62 | nodes do not block | a candidate stays one until the link is entered or the node capacity is used up; every out-link is tried |
| C64 | flow conservation at nodes | induction over the events of a timestep, with a ghost record of where vehicles gave up; taxis sent to the same node twice refute it |
| C65 | the compiled engine against the Python engine | rule by rule; order of visits shown irrelevant for car following; event replay; departures and arrivals refuted |
| C66 | externalities of the compiled engine | both scans read the same entries up to the first one beyond the end; there one stops and the other raises (refuted) |
| C67 | logs of the compiled engine | order of the states and consecutive times of every log, then reading back by counting; links entered by an invariant of the phases |
| C68 | calls of the compiled engine | integer bounds; buckets against a scan of the vehicles at home by induction over the timesteps; frame lemma for the compiled timestep |
| C69 | invariants of the compiled engine | the timestep as a chain of shared events and own steps; invariants carried over from the Python engine event by event |
| C70 | positions, speeds and distances in the compiled engine | distances kept by links, nodes and transfers; simultaneous car-following against the old positions of the leaders; realisation by the vehicle passes |
| C71 | generate_grid_network builds a grid | injective names; nodes and links in the order of the loops; routes by induction on the distance |
| C72 | Signals and capacities are respected in the compiled engine | what the nodes have noted down is kept through the four passes; signal automaton once per node and timestep; the allowance falls by DELTAN per vehicle and is refilled once per timestep |
| C73 | The compiled day-to-day solvers swap routes like the Python ones | both loops run side by side: best route and its index, equal costs; refuted for tolls that change within a timestep |
| C74 | The shortest path search of the compiled engine is correct | invariant of Dijkstra's algorithm with skipped queue entries; queue length plus n times unvisited nodes falls |
| C75 | The compiled enumeration of random routes is sound and ends | the Python iteration on the walks of C74; the average of the earlier numbers of routes never falls |
| C76 | The compiled engine searches with the same costs | the two folds over the links agree step by step; then C74; refuted for tolls set after the finalization |
| C77 | The compiled engine updates the preferences like the Python engine | updates side by side; a flag instead of the sum; refuted for weights above 1 |
| C78 | A fixed number of swap candidates in the compiled system-optimum solver | first elements of a permutation; without the flag no alternative is chosen; refuted for numbers the Python solver rejects |
| C79 | The solution of the compiled system-optimum solver keeps its statistics | objects are numbered cells; the best day owns a cell; refuted for the worlds of other days |
| C63 | exact motion of a lone vehicle | invariant of the position with the carried-over distance; a lone vehicle is never refused |

## 5. Trusted base

* Coq 8.16.1's kernel, including `vm_compute` (used for the concrete witnesses).
* The faithfulness of the model to the Python text (section 1, and the comment at each definition).
* `Print Assumptions` follows every theorem in `Props_*.v`; for all of them it prints "Closed under the
  global context": no axiom is used.  Loading the standard library's `Lqa`/`ssreflect` support files brings the
  seven parameters `Coq.ssr.ssrunder.Under_rel.*` into the environment; no theorem depends on them.
* No own axioms, no `Admitted`, no section-less variables, no functors, no plugins, no switched-off checks.

## 6. Wrong programs

`seeded/LOG.jsonl` records one line per deliberately wrong version of the model: the definition, the
edit, the claim it breaks, the theorems that failed and those that had to be tightened.  Theorems about witnesses
(`_refuted`, examples) fail for many edits; what counts is that a theorem of the broken claim fails.
