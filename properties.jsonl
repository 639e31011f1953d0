{"id": "C01", "title": "1-D graph search is optimal for convex costs", "statement": "For an integral one-dimensional SSCO instance with convex hitting costs that are finite at full capacity and a power-of-two bound, the offline uni-dimensional optimal_graph_search returns a schedule whose (alpha-unfair, possibly inverted, start-configuration-aware) objective is at most that of every other feasible integral schedule.", "quantifier": "every power-of-two bound, time horizon, convex hitting cost, switching cost, alpha >= 0, start configuration and direction (inverted or not), every hitting cost that is finite at the full bound", "why_tests_cant": "the algorithm only looks at a window of five rows per refinement; whether the window always contains an optimum is a statement about all convex cost sequences, not about samples", "anchors": ["implementation/src/algorithms/offline/uni_dimensional/optimal_graph_search.rs: optimal_graph_search, find_schedule, find_shortest_subpath, select_next_rows", "implementation/src/problem.rs: Problem::objective_function*"]}
{"id": "C02", "title": "1-D graph search reports the cost of the schedule it returns", "statement": "Unless every schedule it considers costs infinity (the answer then is an empty path of infinite cost), the path returned by the uni-dimensional optimal_graph_search has exactly t_end configurations, each between 0 and the (padded) bound, and its reported cost equals the objective function of that schedule with the same alpha, start configuration and direction; this needs no convexity.", "quantifier": "every cost function, bound that is a power of two, horizon, alpha, start configuration, direction", "why_tests_cant": "reported cost is accumulated by the DP while the objective is computed by another code path; agreement must hold for all inputs", "anchors": ["implementation/src/algorithms/offline/uni_dimensional/optimal_graph_search.rs", "implementation/src/algorithms/offline/graph_search.rs: Path", "implementation/src/problem.rs: _objective_function_with_default"]}
{"id": "C03", "title": "Power-of-two padding keeps 1-D search answers inside the original bounds and optimal", "statement": "Padding an instance to the next power of two (make_pow_of_2) leaves the cost of every configuration within the original bound unchanged, makes the new bound the least power of two not below the old one, and solving the padded instance yields a schedule of the original instance (no configuration above the original bound) that is optimal for it, for convex non-negative costs that are finite at full capacity.", "quantifier": "every bound >= 1, every convex hitting cost that is finite at the full bound", "why_tests_cant": "the padding cost beyond the bound is not convex, so correctness of the windowed search on padded instances is not visible from examples", "anchors": ["implementation/src/algorithms/offline/uni_dimensional/optimal_graph_search.rs: make_pow_of_2"]}
{"id": "C04", "title": "N-D graph search is optimal for arbitrary costs", "statement": "The multi-dimensional optimal_graph_search returns a schedule minimising the objective over all integral schedules within the bounds, for arbitrary (also non-convex) non-negative hitting costs.", "quantifier": "every dimension, bounds, horizon, hitting cost with finite cost at full capacity, switching costs >= 0", "why_tests_cant": "optimality quantifies over an exponential set of schedules and over every cost function", "anchors": ["implementation/src/algorithms/offline/multi_dimensional/graph_search.rs", "implementation/src/algorithms/offline/multi_dimensional/optimal_graph_search.rs"]}
{"id": "C05", "title": "N-D graph search reports the cost of the schedule it returns", "statement": "The path returned by the multi-dimensional graph search has one configuration per time slot, each drawn from the allowed values per dimension, and the reported cost equals the objective function of the returned schedule.", "quantifier": "every instance as in C04, every value grid", "why_tests_cant": "cost bookkeeping is split over layers and incremental power-up updates", "anchors": ["implementation/src/algorithms/offline/multi_dimensional/graph_search.rs: handle_config, update_paths", "implementation/src/problem.rs"]}
{"id": "C06", "title": "Resuming N-D graph search from a cache equals solving from scratch", "statement": "Solving an instance for t slots, extending the horizon and resuming from the returned cache gives the same path and the same cache as solving the extended instance from scratch, however the horizon is split.", "quantifier": "every split of the horizon into resume points, every instance", "why_tests_cant": "the number of resume histories is unbounded", "anchors": ["implementation/src/algorithms/offline/graph_search.rs: Cache, read_cache", "implementation/src/algorithms/offline/multi_dimensional/graph_search.rs: graph_search"]}
{"id": "C07", "title": "Parallel predecessor selection does not depend on thread scheduling", "statement": "The predecessor chosen by the parallel fold/reduce in the N-D graph search is the same for every way rayon may split and join the work, namely the first predecessor of least cost.", "quantifier": "every list of predecessors, every split tree and every cost assignment", "why_tests_cant": "rayon chooses splits at run time; a test run exercises one of them", "anchors": ["implementation/src/algorithms/offline/multi_dimensional/graph_search.rs: find_optimal_predecessor"]}
{"id": "C08", "title": "Objective evaluation does not depend on thread scheduling", "statement": "objective_function and total_movement return the same value for every way rayon may split the sum over time slots, with the model outputs merged in time order (exact arithmetic).", "quantifier": "every schedule, instance and split tree", "why_tests_cant": "rayon chooses splits at run time", "anchors": ["implementation/src/problem.rs: sum_over_schedule", "implementation/src/cost.rs: Cost Sum", "implementation/src/model/mod.rs: horizontal_reduce"]}
{"id": "C09", "title": "Objective function equals the textbook formula", "statement": "objective_function(xs) = sum over t of f_t(x_t) + alpha * sum over t and k of beta_k * max(0, x_{t,k} - x_{t-1,k}) with x_0 = 0 (or the given start), reversed differences when inverted; the non-inverted and inverted switching totals differ exactly by the switching cost between final and start configuration. Problems with a norm instead of switching costs refuse the inverted form.", "quantifier": "every instance and schedule", "why_tests_cant": "holds for all schedules; the inverted relation is a telescoping argument", "anchors": ["implementation/src/problem.rs: _objective_function_with_default, movement, total_movement, scalar_movement"]}
{"id": "C10", "title": "Approximate graph search grid", "statement": "For gamma > 1 the values used by approx_graph_search are exactly 0, the bounds and the rounded powers of gamma up to the largest bound, in increasing order; every level 1 <= j <= bound has an allowed value v <= bound with j <= v <= gamma * j; the search returns an optimum among schedules restricted to these values.", "quantifier": "every bounds sequence and gamma > 1", "why_tests_cant": "grid construction is a loop whose length depends on the data", "anchors": ["implementation/src/algorithms/offline/multi_dimensional/approx_graph_search.rs: build_values, cache_bound_indices"]}
{"id": "C11", "title": "Static integral solver optimality", "statement": "static_integral returns a static schedule of the full horizon within bounds that is optimal among all static integral schedules (convex costs, alpha-unfair objective).", "quantifier": "every convex instance and dimension", "why_tests_cant": "the early-exit heuristic must be sound for every convex function", "anchors": ["implementation/src/algorithms/offline/multi_dimensional/static_integral.rs"]}
{"id": "C12", "title": "SSCO to SCO conversion preserves the objective", "statement": "For every schedule with t_end configurations, the objective of p.into_sco() equals the objective of p (starting from the zero configuration).", "quantifier": "every SSCO instance and full-length schedule", "why_tests_cant": "a telescoping identity over arbitrary-length schedules", "anchors": ["implementation/src/convert.rs: SimplifiedSmoothedConvexOptimization::into_sco", "implementation/src/distance.rs: manhattan_scaled"]}
{"id": "C13", "title": "SLO to SBLO conversion preserves the cost of every assignment", "statement": "For a SLO instance and its into_sblo() image, a configuration supports a load distribution of finite cost iff the configuration covers the load, and every distribution of finite cost has cost sum c_k x_k; movement costs agree.", "quantifier": "every SLO instance, configuration and load distribution", "why_tests_cant": "quantifies over all real-valued load distributions", "anchors": ["implementation/src/convert.rs: SmoothedLoadOptimization::into_sblo", "implementation/src/problem.rs: SLO/SBLO hit_cost"]}
{"id": "C14", "title": "Continuous relaxation interpolates", "statement": "into_f of an integral 1-D cost function agrees with it on integers, lies between the values at the two neighbouring integers elsewhere, is continuous piecewise linear, preserves convexity on the grid, and into_i(into_f(p)) has the bounds, switching costs and costs of p. An integral schedule has the same total cost in p and into_f(p), and in a fractional problem of any dimension and its into_i.", "quantifier": "every integral cost function, time slot and rational point", "why_tests_cant": "universally quantified over reals", "anchors": ["implementation/src/convert.rs: into_f, into_i"]}
{"id": "C15", "title": "Rounding schedules", "statement": "to_i (ceil) and floor of a fractional schedule keep length and dimension, stay within integral bounds, and are the least integral schedule above / greatest below; integral schedules survive to/to_i unchanged.", "quantifier": "every schedule", "why_tests_cant": "all inputs", "anchors": ["implementation/src/convert.rs: to_i, to, ceil, floor", "implementation/src/value.rs"]}
{"id": "C16", "title": "Resetting shifts time", "statement": "p.reset(t0) charges at time t what p charges at t0 + t, nested resets add up, and the objective splits: objective(xs) = objective of the first t0 slots + objective of p.reset(t0) on xs.reset(t0) started at x_{t0}.", "quantifier": "every instance, schedule and t0 within the horizon", "why_tests_cant": "quantifies over arbitrary split points", "anchors": ["implementation/src/convert.rs: Resettable"]}
{"id": "C17", "title": "Online cost functions always answer with the latest applicable information", "statement": "After any sequence of add operations, CostFn evaluated at t uses the single cost function registered at the greatest time <= t (last registration wins); times before the first registration or t < 1 panic; later information never changes the cost of earlier slots.", "quantifier": "every history of additions and every t", "why_tests_cant": "history-dependent", "anchors": ["implementation/src/cost.rs: CostFn::new, add, get"]}
{"id": "C18", "title": "Costs outside the decision space are infinite", "statement": "hit_cost of a configuration outside the bounds is infinite, of one inside is the hitting cost; and call_certain requires certainty (one sample) at t = t_start.", "quantifier": "every configuration and bounds", "why_tests_cant": "all inputs", "anchors": ["implementation/src/cost.rs: call_certain_within_bounds, DecisionSpace, SingleCostFn"]}
{"id": "C19", "title": "Raw schedule encoding round-trips", "statement": "Schedule::from_raw(d, w, raw) and its inverse/initial builders round-trip: flattening a schedule of w configurations of dimension d and reading it back gives the schedule; build_raw yields the encoding of the repeated bound configuration.", "quantifier": "every d, w, schedule", "why_tests_cant": "all sizes", "anchors": ["implementation/src/schedule.rs: from_raw, build_raw, raw_encoding_len"]}
{"id": "C20", "title": "Data-centre assignment index encoding is a bijection", "statement": "encode/parse of (source, job type) pairs round-trip and cover exactly 0..e-1.", "quantifier": "every number of sources and job types", "why_tests_cant": "all sizes", "anchors": ["implementation/src/model/data_center/model.rs: encode, parse"]}
{"id": "C21", "title": "Problem verification accepts exactly well-formed instances", "statement": "verify() on SCO, SSCO, SBLO, SLO and online instances returns Ok iff the instance satisfies its documented well-formedness conditions, returns Err otherwise and never panics.", "quantifier": "every instance", "why_tests_cant": "equivalence over all inputs", "anchors": ["implementation/src/verifiers.rs"]}
{"id": "C22", "title": "Schedule verification accepts exactly feasible schedules", "statement": "xs.verify(t_end, bounds) is Ok iff xs has t_end configurations, each of the bounds' dimension with all entries between 0 and the bound.", "quantifier": "every schedule and bounds", "why_tests_cant": "equivalence over all inputs", "anchors": ["implementation/src/verifiers.rs: VerifiableSchedule, Config::verify"]}
{"id": "C23", "title": "Lazy capacity provisioning is lazy and feasible", "statement": "LCP's next value is the projection of the previous value onto [lower_t, upper_t]: unchanged when inside, otherwise moved to the nearest end; it stays within the problem bounds; memory records exactly one pair of bounds per slot; an out-of-sync memory is rejected.", "quantifier": "every history of problems, bounds and memories", "why_tests_cant": "holds along unbounded runs", "anchors": ["implementation/src/algorithms/online/uni_dimensional/lazy_capacity_provisioning.rs: lcp", "implementation/src/utils.rs: project"]}
{"id": "C24", "title": "LCP restart time is sound", "statement": "find_initial_time returns 0 or the latest recorded slot at which the lower and the upper bound (nearly) coincide and one of them moves on in the next slot, together with the configuration of that slot; for integral problems, bounds computed from there on still are the last configurations of optimal schedules of the whole prefix.", "quantifier": "every memory and schedule", "why_tests_cant": "data-dependent loop", "anchors": ["implementation/src/algorithms/online/uni_dimensional/lazy_capacity_provisioning.rs: find_initial_time, is_valid_initial_time"]}
{"id": "C25", "title": "LCP lower and upper bounds bracket", "statement": "The integral lower bound at time t is the last configuration of an optimal schedule of the prefix with forward switching cost and the upper bound that of an optimal schedule charging power-down; for the smallest such / greatest such optimum lower <= upper.", "quantifier": "every convex 1-D integral instance and prefix", "why_tests_cant": "optimality over all schedules", "anchors": ["implementation/src/algorithms/capacity_provisioning.rs: find_lower_bound, find_upper_bound, find_bound"]}
{"id": "C26", "title": "Backward-recurrent capacity provisioning stays in its bounds and is lazy backwards", "statement": "brcp returns a schedule with one configuration per slot; each lies between the bounds computed for its slot, and is the projection of its successor.", "quantifier": "every instance", "why_tests_cant": "recursion over arbitrary horizons", "anchors": ["implementation/src/algorithms/offline/uni_dimensional/capacity_provisioning.rs: brcp, next"]}
{"id": "C27", "title": "Lazy budgeting (SLO) always serves the load within the fleet", "statement": "Every configuration returned by the deterministic or randomised lazy budgeting algorithm for SLO covers the current load, uses at most bounds[k] servers of each type, and its internal invariants (lanes non-increasing, horizons non-increasing) hold so its assertion never panics.", "quantifier": "every load history within total capacity, every random gamma, every tie-breaking optimal predecessor schedule", "why_tests_cant": "history-dependent invariant", "anchors": ["implementation/src/algorithms/online/multi_dimensional/lazy_budgeting/smoothed_load_optimization.rs"]}
{"id": "C28", "title": "Lane encoding round-trips", "statement": "build_lanes and collect_config are inverse: the configuration collected from the lanes of x is x, whenever x has at most `bound` servers in total; lanes are sorted from most to least efficient.", "quantifier": "every configuration", "why_tests_cant": "all sizes", "anchors": ["implementation/src/algorithms/online/multi_dimensional/lazy_budgeting/smoothed_load_optimization.rs: build_lanes, collect_config"]}
{"id": "C29", "title": "Lazy budgeting (SLO) laziness", "statement": "A lane never switches to a less efficient server type before its time horizon passes, and a lane whose horizon has passed takes exactly the optimal schedule's type.", "quantifier": "every history", "why_tests_cant": "history-dependent", "anchors": ["implementation/src/algorithms/online/multi_dimensional/lazy_budgeting/smoothed_load_optimization.rs: lb"]}
{"id": "C30", "title": "Algorithm B (SBLO) keeps at least the optimal prefix configuration within bounds", "statement": "The configuration returned by algorithm B is, in every dimension, at least the last configuration of the optimal prefix schedule and at most the bound, for every history.", "quantifier": "every history of idle costs and optimal configurations", "why_tests_cant": "history-dependent invariant", "anchors": ["implementation/src/algorithms/online/multi_dimensional/lazy_budgeting/smoothed_balanced_load_optimization.rs: alg_b"]}
{"id": "C31", "title": "Algorithm B (SBLO) powers every server down exactly when its idle cost exceeds the switching cost", "statement": "A server powered up at time u is powered down at the first t such that idle costs accumulated over u+1..t exceed its switching cost, each activation is deactivated at most once, and the number of active servers equals the number of activations not yet deactivated.", "quantifier": "every history of idle costs and optimal configurations", "why_tests_cant": "history-dependent invariant", "anchors": ["implementation/src/algorithms/online/multi_dimensional/lazy_budgeting/smoothed_balanced_load_optimization.rs: deactivated_quantity, cumulative_idle_hitting_cost"]}
{"id": "C32", "title": "Lazy budgeting (SBLO) sub-slots", "statement": "Splitting a slot into sub-slots divides hitting costs so that the sum over the sub-slots of a slot equals the original cost, sub-slot numbering is contiguous, and the returned configuration is the sub-slot configuration of least hitting cost.", "quantifier": "every instance and sub-slot count", "why_tests_cant": "all sizes", "anchors": ["implementation/src/algorithms/online/multi_dimensional/lazy_budgeting/smoothed_balanced_load_optimization.rs: lb, determine_sub_time_slots, modify_problem, determine_config"]}
{"id": "C33", "title": "Randomised rounding returns a neighbour", "statement": "Every integral value returned by the randomised 1-D algorithm is the floor or the ceiling of the underlying fractional value, for every random draw.", "quantifier": "every fractional trajectory and every random outcome", "why_tests_cant": "randomised; all outcomes", "anchors": ["implementation/src/algorithms/online/uni_dimensional/randomized.rs: randomized, next"]}
{"id": "C34", "title": "Randomised rounding is unbiased", "statement": "If the previous integral value is distributed as a rounding of the previous fractional value, then the next integral value is distributed as a rounding of the next fractional value, i.e. its expectation equals the fractional value.", "quantifier": "every pair of consecutive fractional values", "why_tests_cant": "a statement about a distribution", "anchors": ["implementation/src/algorithms/online/uni_dimensional/randomized.rs: next"]}
{"id": "C35", "title": "Streaming produces exactly one configuration per slot", "statement": "stream/offline_stream extend the schedule by exactly one configuration per accepted update and end with a schedule of the expected length; a failing step leaves no partial update visible; `next` rejects schedules out of step with the problem.", "quantifier": "every algorithm, update function and number of steps", "why_tests_cant": "unbounded runs", "anchors": ["implementation/src/streaming/utils.rs: stream, stream_from, next, offline_stream, offline_stream_from"]}
{"id": "C36", "title": "Streaming can be interrupted and resumed", "statement": "Streaming n+m steps equals streaming n steps and resuming with the returned schedule and memory for m steps.", "quantifier": "every deterministic algorithm and split", "why_tests_cant": "unbounded histories", "anchors": ["implementation/src/streaming/utils.rs: stream_from, offline_stream_from"]}
{"id": "C37", "title": "Online server handles every request sequence", "statement": "After start, the server answers each well-formed request with the next configuration and its cost and advances its state by one slot; a panicking step yields an error response and stops the server; a stop request or undecodable bytes stops the server; the state visible in the k-th answer is that of k sequential steps.", "quantifier": "every sequence of requests and every panic point", "why_tests_cant": "request histories and crash points are unbounded", "anchors": ["implementation/src/streaming/online.rs: start, run, next, stop"]}
{"id": "C38", "title": "Offline preparation of an online run covers the announced input", "statement": "prepare with prediction window w produces a schedule for all but the last w slots of the offline input, in step with the problem so that the first online request succeeds.", "quantifier": "every input length and w", "why_tests_cant": "arithmetics over all lengths", "anchors": ["implementation/src/streaming/online.rs: prepare", "implementation/src/streaming/utils.rs: offline_stream"]}
{"id": "C39", "title": "Load fractions conserve load", "statement": "For every selection of load fractions the loads assigned to all server types sum, per job type, to the load of the job type.", "quantifier": "every load profile and every fraction vector accepted by the constraint", "why_tests_cant": "all real inputs", "anchors": ["implementation/src/model/data_center/loads.rs: LoadFractions"]}
{"id": "C40", "title": "Predicted load sampling yields profiles", "statement": "Sampling a predicted load profile yields complete load profiles (one entry per job type), each entry drawn from the samples of that type.", "quantifier": "every predicted profile", "why_tests_cant": "all inputs and random draws", "anchors": ["implementation/src/model/data_center/loads.rs: PredictedLoadProfile::sample_load_profiles"]}
{"id": "C41", "title": "Piecewise integration covers the interval", "statement": "piecewise_integral over a finite interval evaluates contiguous, non-overlapping pieces whose union is the interval, hence equals the integral for an exact quadrature; breakpoints outside the interval do not matter.", "quantifier": "every interval, breakpoint list and integrand", "why_tests_cant": "all inputs", "anchors": ["implementation/src/numerics/quadrature/piecewise.rs", "implementation/src/breakpoints.rs"]}
{"id": "C42", "title": "Energy cost with quotas", "statement": "The cost of an energy demand p under the quota model is the sum over sources, cheapest first, of unit cost times the energy drawn from that source minus profit for unused energy.", "quantifier": "every list of sources and demand", "why_tests_cant": "all inputs", "anchors": ["implementation/src/model/data_center/models/energy_cost.rs: EnergyCostModel::cost"]}
{"id": "C43", "title": "Processor-sharing delay", "statement": "average_delay is zero without load, infinite iff the arrival rate reaches the service rate, otherwise 1/(mu-lambda); it is positive and monotone in the number of jobs and in the job duration.", "quantifier": "every delta > 0, number of jobs, duration", "why_tests_cant": "all inputs", "anchors": ["implementation/src/model/data_center/models/delay.rs"]}
{"id": "C44", "title": "Energy consumption and revenue loss models", "statement": "Linear consumption interpolates phi_min at idle and phi_max at full utilisation, the simplified model is the linear one with phi_min = phi_max/2, both are monotone in the utilisation; revenue loss is zero up to the minimal detectable delay and then linear.", "quantifier": "every utilisation and parameters", "why_tests_cant": "all inputs", "anchors": ["implementation/src/model/data_center/models/energy_consumption.rs", "implementation/src/model/data_center/models/revenue_loss.rs"]}
{"id": "C45", "title": "Normalised switching cost round-trips", "statement": "from_normalized(delta, xi, c, phi).normalized_switching_cost(delta) = xi for non-zero denominators.", "quantifier": "every parameter choice", "why_tests_cant": "all inputs", "anchors": ["implementation/src/model/data_center/models/switching_cost.rs"]}
{"id": "C46", "title": "Failures dominate when model outputs are combined", "statement": "Combining outputs over time yields the first failure if there is one, otherwise the sums of energy cost and revenue loss with assignments concatenated in order; combining is associative with the empty output as identity, while combining samples averages.", "quantifier": "every list of outputs", "why_tests_cant": "all lists", "anchors": ["implementation/src/model/mod.rs: ModelOutput::horizontal_reduce, vertical_reduce", "implementation/src/model/data_center/mod.rs"]}
{"id": "C47", "title": "Data-centre model produces well-formed instances", "statement": "bounds generated by the data-centre model list, for every location and server type, the capacity of that pair, switching costs have matching dimension and the generated instance verifies.", "quantifier": "every model", "why_tests_cant": "all inputs", "anchors": ["implementation/src/model/data_center/model.rs: generate_bounds, to, d_", "implementation/src/model/data_center/models/switching_cost.rs: switching_costs"]}
{"id": "C48", "title": "Horizon control uses its prediction window", "statement": "RHC at time t optimises over slots t..t+w from the previous configuration; AFHC averages the w+1 fixed-horizon plans.", "quantifier": "every history and w", "why_tests_cant": "history-dependent", "anchors": ["implementation/src/algorithms/online/multi_dimensional/horizon_control"]}
{"id": "C49", "title": "Online updates only append information", "statement": "Model updates advance the horizon by one, require information for the whole prediction window, and leave the cost of all earlier slots unchanged.", "quantifier": "every history of updates", "why_tests_cant": "history-dependent", "anchors": ["implementation/src/model/data_center/model.rs: update", "implementation/src/model/mod.rs: verify_update"]}
{"id": "C50", "title": "LCP is 3-competitive on integral instances", "statement": "The total cost of the integral LCP schedule is at most three times the optimal offline cost (w = 0, convex costs).", "quantifier": "every convex 1-D instance", "why_tests_cant": "competitive ratios quantify over all instances", "anchors": ["implementation/src/algorithms/online/uni_dimensional/lazy_capacity_provisioning.rs: lcp"]}
{"id": "C51", "title": "Hitting costs of load profiles match the reported assignment", "statement": "Whenever the hitting cost of a load profile is computed, its number is the energy cost plus revenue loss listed in the output and these are the costs of the listed assignment; a failure in the output is the failure of that assignment; profiles with the wrong number of job types are refused.", "quantifier": "every model objective, load profile, configuration and every answer of the numerical solver", "why_tests_cant": "all answers of an external numerical solver", "anchors": ["implementation/src/model/data_center/loads.rs: apply_loads"]}
{"id": "C52", "title": "SBLO to SSCO conversion preserves the objective", "statement": "For every SBLO instance and every schedule the objective of p.into_ssco() (number, output, errors and panics) equals the objective of p.", "quantifier": "every SBLO instance, schedule, alpha, direction, solver answer and division of the parallel sum", "why_tests_cant": "all instances and schedules", "anchors": ["implementation/src/convert.rs: SmoothedBalancedLoadOptimization::into_ssco"]}
{"id": "C53", "title": "Data-centre objective is finite exactly for supported assignments", "statement": "Given a configuration and the jobs assigned to every server type at every location, the objective is finite iff, wherever jobs are assigned, servers are active, their maximal utilisation is respected and the arrival rate stays below the service rate; it then is the priced energy consumption plus the revenue lost by delays. Computing it never panics when all names are defined.", "quantifier": "every model with linear energy prices, configuration, load and assignment", "why_tests_cant": "all models and inputs", "anchors": ["implementation/src/model/data_center/model.rs: objective, energy_cost, energy_consumption, overall_revenue_loss, revenue_loss, total_sub_jobs"]}
{"id": "C54", "title": "Offline convex optimisation is optimal and respects the movement limit", "statement": "co returns a schedule of t_end configurations within the bounds whose total movement does not exceed the option l (if set) and which has the least alpha-unfair cost among all such schedules, provided the numerical optimiser is exact; inverted movement costs are rejected with an error.", "quantifier": "every SCO instance, alpha and l", "why_tests_cant": "optimality over a continuum of schedules", "anchors": ["implementation/src/algorithms/offline/multi_dimensional/convex_optimization.rs: co", "implementation/src/problem.rs: alpha_unfair_objective_function, total_movement"]}
{"id": "C55", "title": "Numerical minimisation returns the best point of the 0.01 grid", "statement": "Minimising a function under bounds and constraints answers a point whose coordinates are multiples of 0.01 and lie between the bounds (when these are multiples of 0.01), together with its value; if the constraints can be met on that grid they are met up to 0.001 and no grid point meeting them has a smaller value, provided the external optimiser is ideal. Whatever the optimiser does, reaching the evaluation limit is reported as an infinite value and failures other than limited accuracy panic.", "quantifier": "every objective, bounds, constraints, initial guess and answer of the external optimiser", "why_tests_cant": "all functions and a continuum of points", "anchors": ["implementation/src/numerics/convex_optimization.rs: minimize, find_minimizer, optimize, evaluate", "implementation/src/numerics/mod.rs: apply_precision"]}
{"id": "C56", "title": "Root finding", "statement": "find_root answers a point of the given interval at which the function is zero up to the numerical precision, if the function changes its sign on the interval, and otherwise the end at which it is closer to zero.", "quantifier": "every interval, function and answer of Brent's method", "why_tests_cant": "all functions", "anchors": ["implementation/src/numerics/roots.rs: find_root, ROOT_PRECISION"]}
{"id": "C57", "title": "Online balanced descent projects onto a level set", "statement": "In each slot the meta algorithm of online balanced descent moves to a configuration of hitting cost at most l which is closest to the previous one in the Bregman divergence of the distance-generating function, or, if there is none, to a cheapest one. With half the squared Euclidean norm that is the Euclidean projection.", "quantifier": "every problem, history, level, distance-generating function, ideal optimiser", "why_tests_cant": "all cost functions and histories", "anchors": ["implementation/src/algorithms/online/multi_dimensional/online_balanced_descent/meta.rs: obd, bregman_projection, bregman_divergence", "implementation/src/distance.rs: norm_squared, euclidean, negative_entropy"]}
{"id": "C58", "title": "Primal online balanced descent balances movement and hitting cost", "statement": "Primal balanced descent moves to a cheapest configuration if moving there costs at most beta times its hitting cost; otherwise it takes a step of balanced descent to the level at which the cost of moving equals beta times the hitting cost.", "quantifier": "every problem, history, beta, distance-generating function", "why_tests_cant": "all cost functions and histories", "anchors": ["implementation/src/algorithms/online/multi_dimensional/online_balanced_descent/primal.rs: pobd"]}
{"id": "C59", "title": "Greedy online balanced descent takes the weighted mean", "statement": "Greedy balanced descent answers mu sqrt(m) v + (1 - mu sqrt(m)) y, where v is a cheapest configuration and y the step of primal balanced descent with gamma; it answers v if mu sqrt(m) >= 1.", "quantifier": "every problem, history, m, mu, gamma", "why_tests_cant": "all cost functions and histories", "anchors": ["implementation/src/algorithms/online/multi_dimensional/online_balanced_descent/greedy.rs: gobd"]}
{"id": "C60", "title": "Regularised online balanced descent minimises the regularised cost", "statement": "Regularised balanced descent answers a configuration minimising the hitting cost plus lambda times the cost of moving from the previous configuration, lambda = 2 / (1 + sqrt(1 + 4 beta^2 / (alpha m))).", "quantifier": "every problem, history, m, alpha, beta", "why_tests_cant": "all cost functions and histories", "anchors": ["implementation/src/algorithms/online/multi_dimensional/online_balanced_descent/regularized.rs: robd, build_parameters"]}
{"id": "C61", "title": "Online gradient descent takes a projected gradient step", "statement": "Online gradient descent answers the configuration within the bounds closest in Euclidean distance to the previous configuration minus eta(t) times the gradient of the current hitting cost there.", "quantifier": "every problem, history and step sizes", "why_tests_cant": "all cost functions and histories", "anchors": ["implementation/src/algorithms/online/multi_dimensional/online_gradient_descent.rs: ogd, project"]}
{"id": "C62", "title": "The memoryless algorithm balances movement and hitting cost", "statement": "The memoryless algorithm answers a configuration minimising the hitting cost among those to which moving costs at most half of their hitting cost.", "quantifier": "every one-dimensional problem and history", "why_tests_cant": "all cost functions and histories", "anchors": ["implementation/src/algorithms/online/uni_dimensional/memoryless.rs: memoryless, next"]}
{"id": "C63", "title": "Randomly biased greedy minimises the biased work function", "statement": "In slot t randomly biased greedy answers a configuration minimising W(x) + r theta |x|, where W(x) is the least cost of any schedule for the slots up to t followed by a move to x, movement weighted with theta, and r is a bias drawn once for the whole run.", "quantifier": "every one-dimensional problem, theta and bias", "why_tests_cant": "all cost functions and all schedules", "anchors": ["implementation/src/algorithms/online/uni_dimensional/randomly_biased_greedy.rs: rbg, next, w"]}
{"id": "C64", "title": "The static fractional optimum is optimal among constant schedules", "statement": "static_fractional answers a schedule with the same configuration in every slot whose alpha-unfair cost is minimal among such schedules; inverted costs and movement limits other than zero are rejected.", "quantifier": "every problem, alpha, division of the parallel sum, ideal optimiser", "why_tests_cant": "all constant schedules", "anchors": ["implementation/src/algorithms/offline/multi_dimensional/static_fractional.rs: static_fractional"]}
{"id": "C65", "title": "Descent algorithms stay within the bounds and reject prediction windows", "statement": "Whatever the external optimiser answers as long as it keeps to the bounds it is given, all configurations answered by the algorithms based on balanced descent, gradient descent, randomly biased greedy and the memoryless algorithm lie within the bounds of the problem (bounds being multiples of 0.01). A prediction window is rejected with an error.", "quantifier": "every problem, history, options and answers of NLopt, Brent's method", "why_tests_cant": "all external answers", "anchors": ["implementation/src/algorithms/online/multi_dimensional/online_balanced_descent/*.rs", "implementation/src/algorithms/online/multi_dimensional/online_gradient_descent.rs", "implementation/src/algorithms/online/uni_dimensional/{memoryless,randomly_biased_greedy}.rs"]}
{"id": "C66", "title": "Dual online balanced descent takes a step of balanced descent", "statement": "Dual balanced descent answers a configuration that is closest to the previous one in Bregman divergence among those of hitting cost at most l (or a cheapest one), for the level l answered by root finding on the interval from the least hitting cost.", "quantifier": "every problem, history, eta, distance-generating function", "why_tests_cant": "all cost functions and histories", "anchors": ["implementation/src/algorithms/online/multi_dimensional/online_balanced_descent/dual.rs: dobd"]}
{"id": "C67", "title": "The probabilistic algorithm answers the mean of a density around the minimiser", "statement": "In each slot the probabilistic algorithm picks an interval within the bounds that contains a minimiser of the hitting cost. The density it keeps is 0 outside of it and inside the previous density plus the second derivative of the hitting cost divided by twice the switching cost; the ends of the interval become breakpoints, each once. The answer lies in the interval: it is the mean of the new density, or the minimiser if the integral is outside of the interval.", "quantifier": "every one-dimensional problem, slot, memory, breakpoints, and answers of NLopt, Brent's method, numerical differentiation and quadrature (the mean: exact quadrature, fewer than ten breakpoints)", "why_tests_cant": "all memories and all external answers", "anchors": ["implementation/src/algorithms/online/uni_dimensional/probabilistic.rs: probabilistic, find_left_bound, find_right_bound, expected_value", "implementation/src/numerics/finite_differences.rs: derivative, second_derivative"]}
{"id": "C68", "title": "The density of the probabilistic algorithm stays a probability distribution", "statement": "For convex hitting costs the density kept by the probabilistic algorithm is never negative and its integral is 1: at the right end of its interval the derivative of the hitting cost is twice the switching cost times the mass of the previous density to the right, at the left end it is minus twice the switching cost times the mass to the left.", "quantifier": "every one-dimensional problem with convex hitting costs, slot and memory", "why_tests_cant": "all cost functions and memories", "anchors": ["implementation/src/algorithms/online/uni_dimensional/probabilistic.rs: probabilistic, find_left_bound, find_right_bound, expected_value", "implementation/src/numerics/finite_differences.rs: derivative, second_derivative"]}
{"id": "C69", "title": "The approximate graph search is an approximation scheme", "statement": "With parameter gamma > 1 the cost of the schedule answered by approx_graph_search is at most 2 gamma - 1 times the cost of every feasible integral schedule, so that gamma = 1 + eps/2 gives a (1 + eps)-approximation, while only logarithmically many values per dimension are considered. Required of hitting costs: raising the levels by at most this factor raises the cost by at most this factor, as for costs per active server.", "quantifier": "every instance (dimension, bounds, horizon, switching costs >= 0) whose hitting costs are finite at full capacity and grow at most linearly, every gamma > 1, alpha >= 0 and order of parallel work", "why_tests_cant": "the ratio compares with all feasible schedules; the loss can build up over slots and dimensions", "anchors": ["implementation/src/algorithms/offline/multi_dimensional/approx_graph_search.rs: approx_graph_search, build_values", "implementation/src/algorithms/offline/multi_dimensional/graph_search.rs"]}
{"id": "C70", "title": "Numerical integration answers the integral", "statement": "integral(from, to, f) answers the integral of f between the limits, up to the error of the quadrature rule applied and the rounding to 0.01, for bounded intervals, half lines and the whole line. Piecewise integration adds up the errors of its pieces.", "quantifier": "every integrand with an integral, every interval, every quadrature rule of the given accuracy", "why_tests_cant": "the transformations of integrand and variable must be right for every integrand", "anchors": ["implementation/src/numerics/quadrature/mod.rs: integral, finite_integral, semi_infinite_integral, infinite_integral", "implementation/src/numerics/quadrature/piecewise.rs: piecewise_integral"]}
{"id": "C71", "title": "Numerical derivatives are rounded library answers with defined exceptional cases", "statement": "derivative and second_derivative answer the difference quotient of the library rounded to 0.01; 0 if this is not a number; infinity where the function is infinite. They panic only if the function or the library does.", "quantifier": "every function, point and answer of the library", "why_tests_cant": "all functions and all library answers", "anchors": ["implementation/src/numerics/finite_differences.rs: derivative, second_derivative"]}
{"id": "C72", "title": "Solving an offline problem returns the best schedule and its cost", "statement": "Solving a valid offline instance (SSCO, SBLO or SLO) with the optimal graph search verifies the instance, returns a feasible schedule of least (alpha-unfair) cost in the problem that was given, and the cost of this schedule; for SLO the schedule covers every load. With the approximate graph search the cost is within a factor of 2*gamma-1. With the static algorithm the answer is the best schedule keeping one configuration. Invalid instances and unsupported options are answered with an error.", "quantifier": "every instance of the three problems, every schedule of rayon, every numerical solver reporting the values it found", "why_tests_cant": "ranges over all instances and composes verification, two conversions, the search and the objective", "anchors": ["implementation/src/streaming/offline.rs: solve", "implementation/src/bindings/data_center/offline.rs: optimal_graph_search_sblo, optimal_graph_search_slo, approx_graph_search_sblo", "implementation/src/algorithms/offline/mod.rs: OfflineOptions", "implementation/src/algorithms/offline/multi_dimensional/optimal_graph_search.rs: optimal_graph_search", "implementation/src/convert.rs: into_sblo, into_ssco", "implementation/src/algorithms/offline/multi_dimensional/static_integral.rs: static_integral"]}
{"id": "C73", "title": "The provided distances are norms", "statement": "The Manhattan distance, the Manhattan distance scaled by positive switching costs, and the Euclidean distance are norms on vectors of every dimension: never negative, 0 exactly for the zero vector, absolutely homogeneous, and obeying the triangle inequality. Their values are the usual ones: the sum of absolute values, the sum weighted by half of the switching costs, and the square root of the sum of squares.", "quantifier": "all dimensions, all vectors, all positive switching costs, every square root within a given error", "why_tests_cant": "the laws relate the values at infinitely many pairs of vectors", "anchors": ["implementation/src/distance.rs: manhattan, manhattan_scaled, euclidean"]}
{"id": "C74", "title": "The dual norm is the largest inner product with vectors of norm at most 1", "statement": "The dual norm of x with respect to a norm is the largest inner product of x with a vector of norm at most 1. In particular the dual of the Manhattan norm is the maximum norm, the dual of the Euclidean norm is the Euclidean norm, and vectors with infinite coordinates have an infinite dual norm.", "quantifier": "all dimensions, all vectors, all norms with bounded unit balls, every ideal maximiser", "why_tests_cant": "a supremum over infinitely many vectors", "anchors": ["implementation/src/distance.rs: dual_norm"]}
{"id": "C75", "title": "The Mahalanobis distance", "statement": "The Mahalanobis distance is refused with an error exactly if the matrix is singular. Otherwise its value at x is (x - mean) . Q^-1 (x - mean), which is not negative for positive semi-definite matrices, and 0 exactly at the mean for positive definite ones.", "quantifier": "all dimensions, all square matrices and means, all vectors, every correct matrix inversion", "why_tests_cant": "infinitely many matrices and vectors", "anchors": ["implementation/src/distance.rs: mahalanobis"]}
{"id": "C76", "title": "The memoryless algorithm is competitive", "statement": "Streaming an instance with one type of server and convex, non-negative, Lipschitz continuous costs through the memoryless algorithm gives a schedule which costs at most three times as much as any schedule within the bounds if movement is charged in both directions, and at most five times as much in terms of the objective of the problem, which charges only powering up; in both cases up to a rounding loss per slot that depends only on the switching cost and the slope of the costs.", "quantifier": "all numbers of slots, all such cost functions, all competing schedules, every exact optimiser", "why_tests_cant": "compares whole runs with all alternative schedules, for all cost sequences an adversary may choose", "anchors": ["implementation/src/algorithms/online/uni_dimensional/memoryless.rs: memoryless, next", "implementation/src/streaming/utils.rs: offline_stream"]}
{"id": "C77", "title": "Lazy budgeting for balanced load is competitive", "statement": "For servers whose cost is non-negative, non-decreasing and convex in their load, the schedule that lazy budgeting with parameter epsilon returns after streaming an instance with d types of servers costs at most 2d+1+epsilon times as much as any schedule within the bounds; the schedule of the underlying algorithm B costs at most 2d+1 plus the sum, over the types, of the largest ratio between idle cost and switching cost, times as much. Dividing slots into sub-slots does not change the cost of schedules kept during each slot, and additional servers cost at most their idle cost.", "quantifier": "all numbers of slots and types of servers, all loads and such cost functions, all positive epsilon, all competing schedules", "why_tests_cant": "compares whole runs with all alternative schedules, for all loads an adversary may choose", "anchors": ["implementation/src/algorithms/online/multi_dimensional/lazy_budgeting/smoothed_balanced_load_optimization.rs: lb, modify_problem, alg_b", "implementation/src/streaming/utils.rs: offline_stream", "implementation/src/problem.rs: SmoothedBalancedLoadOptimization"]}
{"id": "C78", "title": "Horizon control is competitive", "statement": "If every active server costs at least e_k per slot and powering it up costs at most c times e_k, a run of receding horizon control costs at most 1+c times as much as any schedule within the bounds, whatever the window it is shown in each slot (between the current slot and w slots ahead); streaming averaging fixed horizon control over convex costs gives at most (1+c)^2 times the cost of any schedule.", "quantifier": "all numbers of slots, types of servers, windows and such cost functions, all competing schedules, every optimiser that solves the problems handed to it", "why_tests_cant": "compares whole runs with all alternative schedules, for all cost sequences an adversary may choose", "anchors": ["implementation/src/algorithms/online/multi_dimensional/horizon_control/receding_horizon_control.rs: rhc", "implementation/src/algorithms/online/multi_dimensional/horizon_control/averaging_fixed_horizon_control.rs: afhc", "implementation/src/algorithms/online/multi_dimensional/horizon_control/mod.rs: next", "implementation/src/streaming/utils.rs: offline_stream"]}
{"id": "C79", "title": "Lazy budgeting (SLO) is competitive", "statement": "The schedule chosen by (deterministic) lazy budgeting for SLO costs at most 2d times as much as any schedule, where d is the number of server types, after every number of slots.", "quantifier": "all loads, operating and switching costs, fleet sizes and numbers of slots, all competing schedules, every thread schedule of the search", "why_tests_cant": "compares whole runs with all alternative schedules, for all load sequences an adversary may choose", "anchors": ["implementation/src/algorithms/online/multi_dimensional/lazy_budgeting/smoothed_load_optimization.rs: lb, next_time_horizon", "implementation/src/problem.rs: SmoothedLoadOptimization, objective_function"]}
{"id": "C80", "title": "Randomised rounding keeps the cost in expectation", "statement": "The expected cost of the integral schedule chosen by the randomised algorithm equals the cost of the fractional schedule it rounds in the relaxed problem (hence it inherits the competitive ratio of the relaxation).", "quantifier": "all fractional schedules, hitting costs, switching costs, bounds and numbers of slots; expectation over all sequences of samples", "why_tests_cant": "a statement about the distribution of whole schedules for all fractional schedules; tests see single samples", "anchors": ["implementation/src/algorithms/online/uni_dimensional/randomized.rs: randomized, next", "implementation/src/convert.rs: into_f", "implementation/src/problem.rs: objective_function"]}
{"id": "C81", "title": "Data centres with one kind of server have convex costs, so the one-dimensional algorithms are correct on them", "statement": "For a data centre with one location and one server type whose power is convex in its utilisation, the instance generated from a load profile costs, for x active servers, the priced energy plus the revenue lost to delays, and infinitely much exactly if x servers cannot process the load. These costs are convex in x and not negative, so the graph search returns a cheapest schedule, backward-recurrent capacity provisioning returns a cheapest fractional schedule, and lazy capacity provisioning is 3-competitive.", "quantifier": "all such data centres, load profiles, horizons, slots, configurations and (for the online algorithm) all load sequences and competing schedules", "why_tests_cant": "convexity and optimality range over all data centres, loads and schedules; tests compare single instances", "anchors": ["implementation/src/model/data_center/model.rs: to, hitting_cost", "implementation/src/model/data_center/models/energy_consumption.rs: consumption", "implementation/src/model/data_center/models/delay.rs", "implementation/src/model/data_center/models/revenue_loss.rs", "implementation/src/model/data_center/loads.rs: apply_loads", "implementation/src/algorithms/offline/uni_dimensional/optimal_graph_search.rs", "implementation/src/algorithms/offline/uni_dimensional/capacity_provisioning.rs", "implementation/src/algorithms/online/uni_dimensional/lazy_capacity_provisioning.rs"]}
{"id": "C82", "title": "Windows and offline optima computed with the numerical optimiser are optimal on the grid of hundredths, and the offline optima are ordered", "statement": "If the external optimiser is exact, then the library's use of it (which rounds arguments to multiples of 0.01) solves the planning problems of horizon control and of the fractional offline algorithms among all schedules of multiples of 0.01, with the movement limit exceeded by at most 0.001. Hence streamed receding and averaging fixed horizon control keep their competitive ratios against these schedules, and for one problem given in integral and fractional form the reported costs satisfy: fractional optimum <= integral optimum, fractional optimum <= static fractional optimum, and both <= static integral answer; in particular for instances generated from a data centre with one type of servers.", "quantifier": "all objective functions, bounds, window lengths, streams, instances, options and competing schedules", "why_tests_cant": "optimality over all grid schedules and the order of four optima range over all instances; tests compare single runs", "anchors": ["implementation/src/numerics/convex_optimization.rs: minimize, find_minimizer, evaluate", "implementation/src/algorithms/offline/multi_dimensional/convex_optimization.rs: co", "implementation/src/algorithms/offline/multi_dimensional/static_fractional.rs: static_fractional", "implementation/src/algorithms/offline/multi_dimensional/static_integral.rs: static_integral", "implementation/src/algorithms/offline/multi_dimensional/optimal_graph_search.rs: optimal_graph_search", "implementation/src/algorithms/online/multi_dimensional/horizon_control/mod.rs", "implementation/src/algorithms/offline/mod.rs: OfflineAlgorithm"]}
{"id": "C83", "title": "A live session with a data centre follows the day as if it were known, and lazy capacity provisioning is 3-competitive in it after every request", "statement": "Starting a session with the loads known so far and feeding it one load profile per slot yields, after each request, an instance that describes exactly the loads seen; the schedule is the one the algorithm chooses when the instance of the whole day is streamed to it; and the reported cost is the cost of the schedule for the loads so far. With a data centre with one type of servers and one kind of load, a session of lazy capacity provisioning answers every request, and after each of them its schedule costs at most three times as much as any feasible schedule for the loads so far.", "quantifier": "all data centres, loads before and during the session, algorithms that use no unpredicted costs, sampling strategies, divisions of the parallel sums and competing schedules", "why_tests_cant": "the guarantee must hold after every request of every sequence of loads, against all schedules; tests replay single days", "anchors": ["implementation/src/model/data_center/model.rs: DataCenterOfflineInput::into_online, update", "implementation/src/model/data_center/loads.rs: apply_predicted_loads, sample_load_profiles", "implementation/src/streaming/online.rs: start, run, next", "implementation/src/algorithms/online/uni_dimensional/lazy_capacity_provisioning.rs: lcp", "implementation/src/algorithms/capacity_provisioning.rs: find_bound", "implementation/src/bindings/data_center/online/uni_dimensional/lazy_capacity_provisioning/integral.rs: start, next"]}
{"id": "C84", "title": "Capacity provisioning for fractional instances with NLopt: backward-recurrent is optimal on the grid, lazy is 3-competitive until it restarts", "statement": "If NLopt is exact on the grid of hundredths, solving a valid one-dimensional instance with certain convex costs by backward-recurrent capacity provisioning answers a schedule of multiples of 0.01 that is best (for the requested alpha) among all of them and reports its cost; this includes data centres with one server type. Lazy capacity provisioning on such an instance answers every slot, and its schedule costs at most three times as much as any schedule of multiples of 0.01, after every number of slots.", "quantifier": "all instances with certain convex costs and upper bounds that are multiples of 0.01, all horizons, alphas, exact optimisers, divisions of the parallel sums and competing schedules", "why_tests_cant": "optimality and ratios quantify over all competing schedules and all instances", "anchors": ["implementation/src/algorithms/capacity_provisioning.rs: find_bound", "implementation/src/algorithms/offline/uni_dimensional/capacity_provisioning.rs: brcp", "implementation/src/algorithms/online/uni_dimensional/lazy_capacity_provisioning.rs: lcp, find_initial_time", "implementation/src/numerics/convex_optimization.rs: find_minimizer"]}
{"id": "C85", "title": "Load balancing starts from a feasible assignment", "statement": "When the hitting cost of a configuration is determined by balancing loads over server types, the optimiser is started from an assignment within its bounds that gives no load to server types without active servers, so that it has finite cost whenever the server types can handle even parts of the load. The hitting cost is then at most that of spreading the load evenly over the server types with active servers.", "quantifier": "all configurations, numbers of server and job types, loads, cost functions and optimisers that answer nothing worse than their start", "why_tests_cant": "all configurations and all numbers of active server types; rounding only shows for some of them", "anchors": ["implementation/src/model/data_center/loads.rs: apply_loads, LoadFractions", "implementation/src/model/data_center/mod.rs: safe_balancing", "implementation/src/problem.rs: SmoothedBalancedLoadOptimization::hit_cost"]}
{"id": "C86", "title": "Servers and the division of load are optimised together", "statement": "For a data centre with one location and one kind of job but several types of servers, solving the generated instance optimally yields a schedule and a cost that are best over all operating plans: a plan states for every slot how many servers of every type are active and which share of the load every type processes. The reported cost is what operating the data centre by such a plan costs in energy, lost revenue and powering up, and no plan that processes all loads is cheaper. The reported energy costs, revenue loss and shares of the load are those of this plan.", "quantifier": "all data centre models with one location, source and job type, any number of server types, all energy, revenue and switching costs, all loads and horizons, all interleavings of parallel work, all optimisers that solve the problems they are given", "why_tests_cant": "an optimum over all schedules and all divisions of all loads; tests compare a few instances with stored results", "anchors": ["implementation/src/model/data_center/model.rs: DataCenterModel, to", "implementation/src/model/data_center/loads.rs: apply_loads, apply_loads_over_time", "implementation/src/numerics/convex_optimization.rs: minimize", "implementation/src/algorithms/offline/multi_dimensional/optimal_graph_search.rs: optimal_graph_search"]}
{"id": "C87", "title": "Online algorithms do not look into the future", "statement": "Streaming two instances that agree until the end of the prediction window of slot n yields the same configurations in the slots 1 to n, whatever their horizons and whatever costs and loads come later. This holds for every online algorithm of the library: lazy capacity provisioning (integral and fractional), the memoryless, probabilistic and randomly biased greedy algorithms, randomised rounding with both relaxations, balanced descent in all its variants, gradient descent, receding and averaging fixed horizon control, and lazy budgeting for SLO and SBLO.", "quantifier": "all pairs of instances that agree up to a slot, all horizons, all prediction windows, all lengths, all options of the algorithms, all random samples, all answers of the numerical libraries, all interleavings of parallel work", "why_tests_cant": "ranges over all continuations of all instances, and the online instances are given whole cost functions, so nothing but the code keeps an algorithm from reading later slots", "anchors": ["implementation/src/streaming/utils.rs: offline_stream, offline_stream_from", "implementation/src/algorithms/online/uni_dimensional/lazy_capacity_provisioning.rs: lcp", "implementation/src/algorithms/online/uni_dimensional/memoryless.rs: memoryless", "implementation/src/algorithms/online/uni_dimensional/probabilistic.rs: probabilistic", "implementation/src/algorithms/online/uni_dimensional/randomized.rs: randomized", "implementation/src/algorithms/online/uni_dimensional/randomly_biased_greedy.rs: rbg", "implementation/src/algorithms/online/multi_dimensional/online_balanced_descent: obd, pobd, dobd, gobd, robd", "implementation/src/algorithms/online/multi_dimensional/online_gradient_descent.rs: ogd", "implementation/src/algorithms/online/multi_dimensional/horizon_control: rhc, afhc", "implementation/src/algorithms/online/multi_dimensional/lazy_budgeting: lb"]}
{"id": "C88", "title": "A live session of a descent algorithm reports the cost of its schedule", "statement": "A session for a data centre started with the loads known so far and fed one load profile per slot, streaming an algorithm for smoothed convex optimisation (online balanced descent, online gradient descent, randomly biased greedy, receding horizon control), reports after every request the cost its schedule has for the loads so far, including the costs of powering down at the end; and it chooses the schedule the algorithm chooses when the instance of the whole day is streamed to it.", "quantifier": "all data centres with one location, loads before and during the session, algorithms, sampling strategies and divisions of the parallel sums", "why_tests_cant": "the reported cost must be right after every request of every session with every algorithm; tests replay single days", "anchors": ["implementation/src/model/data_center/model.rs: to, update (SmoothedConvexOptimization)", "implementation/src/convert.rs: into_sco", "implementation/src/streaming/online.rs: start, run, next", "implementation/src/bindings/data_center/online/multi_dimensional/online_balanced_descent/regularized.rs: start, next"]}
{"id": "C89", "title": "A live session of load optimisation stays competitive", "statement": "A session for a data centre with several types of servers, started with the loads known so far and fed one load per slot, streaming lazy budgeting for smoothed balanced-load optimisation or smoothed load optimisation: every load is answered by a configuration within the number of available servers; the cost reported after each answer is the cost of the schedule so far for the loads so far; the loads are covered; and after every answer the schedule costs at most 2d+1+epsilon times (balanced loads, d types) respectively at most twice (one type, constant costs) what any other schedule for the loads so far costs, or e/(e-1) times in expectation if the algorithm is randomised.", "quantifier": "all data centres with one location, loads before and during the session, numbers of servers, energy prices, values of epsilon, solvers that report what they evaluate and divisions of the parallel search", "why_tests_cant": "the bounds hold after every request of every session; the search of every answer resumes from the cache of the previous one, and tests replay single days", "anchors": ["implementation/src/model/data_center/model.rs: to, update (SmoothedBalancedLoadOptimization, SmoothedLoadOptimization)", "implementation/src/bindings/data_center/online/multi_dimensional/lazy_budgeting/smoothed_balanced_load_optimization.rs: start, next", "implementation/src/bindings/data_center/online/multi_dimensional/lazy_budgeting/smoothed_load_optimization.rs: start, next", "implementation/src/streaming/online.rs: start, run, next"]}
{"id": "C90", "title": "Randomised lazy budgeting for load optimisation is e/(e-1)-competitive in expectation", "statement": "Randomised lazy budgeting for smoothed load optimisation with one type of servers draws one number when it starts. Whatever the loads, the cost of the schedule chosen up to any slot, averaged over the drawn number, is at most e/(e-1) times the cost of any other schedule for the loads up to that slot.", "quantifier": "all instances with one type of servers, loads, lengths, solvers that report what they evaluate and divisions of the parallel search; the average is the integral over all numbers that can be drawn", "why_tests_cant": "an expectation over a continuum of draws for every sequence of loads; a test sees finitely many draws of a few sequences", "anchors": ["implementation/src/algorithms/online/multi_dimensional/lazy_budgeting/smoothed_load_optimization.rs: lb, Memory::default, sample_gamma, next_time_horizon", "implementation/src/utils.rs: sample_uniform"]}
{"id": "C91", "title": "Concurrent callers of the server get the answers of some order of their calls", "statement": "Any number of callers may call next and stop at the same time, and each of them may die at any point. Whatever the interleaving, the answers received are those of handling the calls one after the other in some order that puts a call made after another one had returned behind it; no call is handled twice. Left alone, every call made by a living caller returns after a bounded number of steps. A caller is answered as soon as start has returned, as long as nobody stops the server and no request makes it fail, even if other callers die or never send anything.", "quantifier": "all interleavings of any number of calls, deaths of callers and steps of the server, all models, algorithms, inputs and initial states", "why_tests_cant": "the property ranges over all interleavings and crash points of unboundedly many clients; a test sees the few that the operating system happens to schedule", "anchors": ["implementation/src/streaming/online.rs: start, run, next, stop"]}
{"id": "C92", "title": "Costs computed in floating-point arithmetic are right up to rounding", "statement": "With every sum and product rounded as in IEEE 754 double precision, the objective function of an instance whose costs are such numbers returns the cost of the schedule with a relative error of at most (number of slots + number of dimensions + 1) roundings, however the work is divided. The multi-dimensional graph search returns a feasible schedule, reports its cost up to rounding, and reports at most the cost of every feasible schedule up to rounding; the number of roundings is 2 + T (1 + S), S the sum of the bounds (twice S if inverted). If all costs are integers that are small in comparison with the precision, the objective function is exact and the schedule found has least cost. For every rounding, the search gives the same bits whatever the division of work and whether or not it resumes from a cache.", "quantifier": "all instances with finite or infinite hitting costs, all schedules, divisions of work, value grids, caches and roundings to nearest without overflow", "why_tests_cant": "rounding errors depend on the numbers and on the order of additions; tests compare a few results with a tolerance", "anchors": ["implementation/src/problem.rs: _objective_function_with_default, scaled_movement", "implementation/src/cost.rs: Cost", "implementation/src/algorithms/offline/multi_dimensional/graph_search.rs: graph_search, find_optimal_predecessor, update_paths", "implementation/src/algorithms/offline/multi_dimensional/optimal_graph_search.rs: optimal_graph_search"]}
{"id": "C93", "title": "The one-dimensional search in floating-point arithmetic", "statement": "With every sum and product rounded as in IEEE 754 double precision, the graph search for one type of servers returns a feasible schedule whenever it should, reports the cost of that schedule with a relative error of at most T + 3 roundings, and reports at most the cost of every schedule up to rounding.", "quantifier": "all one-dimensional instances whose costs are floating-point numbers, all bounds, horizons, start configurations, weights and both directions of switching, all roundings to nearest without overflow", "why_tests_cant": "rounding errors depend on the numbers; the successive refinements compare sums in which small costs may vanish beside large ones, which random tests rarely meet", "anchors": ["implementation/src/algorithms/offline/uni_dimensional/optimal_graph_search.rs: optimal_graph_search, find_schedule, find_shortest_subpath, build_cost, make_pow_of_2"]}
{"id": "C94", "title": "Sessions of randomly biased greedy do not influence each other", "statement": "Randomly biased greedy keeps the work functions of a call in a cache of the process. The answer to a call is the one computed without a cache, whatever earlier calls left there, whatever is dropped from it, and however the calls of other sessions of the same process are interleaved with it; every call returns.", "quantifier": "all instances, slots, biases, optimisers that ask for finitely many values, contents of the cache, evictions, and interleavings of the accesses of any number of threads", "why_tests_cant": "tests run one session at a time with a fresh process; the outcome depends on the interleaving of threads and on what the optimiser asks for", "anchors": ["implementation/src/algorithms/online/uni_dimensional/randomly_biased_greedy.rs: rbg, w, WORK", "implementation/src/streaming/online.rs: start", "implementation/src/numerics/convex_optimization.rs: find_minimizer"]}
{"id": "C95", "title": "What is sent is what arrives", "statement": "The server of a live session reads exactly the input that a client sent, and the client exactly the response (decision, costs, integral decision, memory and run time) that the server sent, whatever is sent behind it. A message of which bytes are missing is recognised as such and never mistaken for another one; no input is written as the beginning of another one; whatever bytes arrive, the server either reads an input or reports an error.", "quantifier": "all inputs of data centres (any number of slots, types and samples), all responses with outputs of models and memories, all cut-off points, all bytes that follow, all sequences of bytes", "why_tests_cant": "tests exchange a handful of messages between the project's own client and server; messages can be arbitrarily large, cut off anywhere or come from other programs", "anchors": ["implementation/src/streaming/online.rs: run, next, stop, OnlineResponse", "implementation/src/model/data_center/loads.rs: PredictedLoadProfile, serialize, deserialize", "implementation/src/cost.rs: Cost, serialize, deserialize", "implementation/src/model/mod.rs: ModelOutput", "implementation/src/model/data_center/mod.rs: DataCenterModelOutputSuccess, DataCenterModelOutputFailure", "implementation/src/algorithms/online/uni_dimensional/probabilistic.rs: Memory, default_p"]}
{"id": "C96", "title": "Numbers of servers of any size", "statement": "The one-dimensional graph search and the approximate graph search answer for every bound that an instance can hold (a 32-bit integer) as they would with unbounded integers, in builds with and without overflow checks; in particular the one-dimensional search is optimal for convex costs.", "quantifier": "all instances, starting points, directions, weights and bounds from 0 to 2^31 - 1, both kinds of builds", "why_tests_cant": "tests use bounds of a few servers; overflows need bounds that no test instance has", "anchors": ["implementation/src/algorithms/offline/uni_dimensional/optimal_graph_search.rs: optimal_graph_search, make_pow_of_2, select_initial_rows, select_next_rows", "implementation/src/algorithms/offline/multi_dimensional/approx_graph_search.rs: build_values"]}
