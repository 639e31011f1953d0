# Formal model of jonhue/soco in Rocq: design

Source: `/repo/implementation/src` (Rust). The model lives in `rocq/theories`.

## Conventions

* **Numbers.** `f64`/`N64` are exact rationals `Q`; values that may be infinite are
  `ext = Fin q | Inf`. No rounding (except in C92 and C93) and no NaN. `i32`, `i64`, `usize` are `Z`/`nat`
  (no overflow) unless a property is about overflow.
* **Panics and errors.** `outcome A = Ok a | Err failure | Panic`. Every `assert!`,
  index out of range, `unwrap` on `None` and explicit `panic!` is `Panic`; every
  `Result::Err` is `Err`.
* **External code.** NLopt, quadrature, Brent root finding, random numbers, hash map iteration order,
  rayon scheduling and TCP are not modelled; they appear as function parameters
  (oracles) or as universally quantified split trees.
* **Files.** For an area X: `XModel.v` (definitions only, each citing the Rust source),
  `XSpec.v` (independent specification, when the statement needs one), `XProofs.v`
  (lemmas), `XProps.v` (property theorems only, each closed by `exact`, with
  `Print Assumptions`), `XExamples.v` (non-vacuity witnesses).

## Plan per property

| id | model | proof idea |
|---|---|---|
| C01 | 1-D search on integer rows, DP over windows | window DP finds the minimum over the product of the rows (induction); refinement step from grid 2g to g by an exchange argument: truncate a fine optimum to within 2g of the coarse optimum |
| C02 | same | DP invariant: stored path cost = objective of the stored prefix |
| C03 | make_pow_of_2 | least power of two: arithmetic; optimality via clamping, or refutation |
| C04, C05 | layered graph search with incremental power-up | invariant: value at vertex = min over all schedules ending there |
| C06 | cache = (layer, paths) | graph_search is a fold over t, fold over append |
| C07, C08 | arbitrary split trees for fold/reduce | induction on trees; associativity |
| C09 | objective functions | induction on schedule, telescoping |
| C10 | build_values | induction on loop with fuel, ranking argument |
| C11 | static_integral recursion | d=1 proof, d>=2 refutation |
| C12 | into_sco | telescoping |
| C13 | into_sblo | case analysis on finite cost distributions |
| C14, C15 | into_f/into_i, ceil/floor | Q arithmetic |
| C16 | reset | list splitting |
| C17, C18 | CostFn as association list sorted by key | induction on history |
| C19, C20 | encodings | list/div-mod arithmetic |
| C21, C22 | verifiers | boolean reflection |
| C23-C26 | LCP/BRCP | projection lemmas, induction over runs; bounds via C01 |
| C27-C29 | SLO lazy budgeting | invariant over histories |
| C30-C32 | SBLO lazy budgeting | invariant over histories |
| C33, C34 | randomised rounding, finite distributions over Q | case analysis, refutation of the decreasing case |
| C35-C38 | streaming with abstract algorithm | induction on fuel/steps |
| C39, C40 | load fractions, sampling | algebra; refutations |
| C41 | piecewise integral with oracle integral | induction on breakpoints |
| C42-C47 | data-centre cost models | algebra; refutation of quotas |
| C48 | horizon control with an oracle optimiser | symbolic evaluation of horizon; refutation |
| C49 | model updates | history induction |
| C50 | LCP competitive ratio | potential function argument on work functions (stretch goal) |
| C51, C52 | SLO/SBLO hitting costs with oracle solver | reduction to the solver's specification |
| C53 | generated SLO/SBLO/SSCO costs | case analysis on the consumption model |
| C54 | offline convex optimisation | the vector handed to the optimiser is the flattened schedule; induction along the schedule |
| C55, C56 | `optimize`, `find_root` around oracles for NLopt and Brent's method | properties of rounding to 0.01; an ideal optimiser restricted to the grid |
| C57–C60, C66 | balanced descent (meta, primal, dual, greedy, regularised) over the optimiser oracle | optimality of the oracle on the grid; algebra of Bregman divergences with central differences |
| C61 | gradient descent: central differences, projection | strict monotonicity of the square root |
| C62 | memoryless algorithm | constraint of the optimiser up to its tolerance |
| C63 | work function and biased minimum | induction over slots: the recursion computes the least cost of all schedules |
| C64 | static fractional optimum | objective of the constant schedule |
| C65 | all of the above with any optimiser that keeps to the bounds | rounding keeps aligned bounds; convex combinations |
| C67 | probabilistic algorithm, densities as functions that may panic; differentiation and quadrature as oracles | unfolding of a step; root finding between multiples of 0.01 keeps to the interval; piecewise integration is exact for few breakpoints |
| C68 | the same | sign analysis of the functions whose roots are searched; counterexample for the mass |
| C69 | approximate graph search (as C10) | a schedule on the grid follows any given schedule lazily; a potential per dimension pays for its additional switching costs |
| C70 | `integral`, with the rules of bacon_sci as oracles; integrals as limits of a uniformly differentiable antiderivative | monotonicity of integrals by partitioning; change of variables on the antiderivative; induction over pieces |
| C71 | `derivative` (as in C67) | case analysis; rounding error |
| C72 | `offline_solve` with the solvers of bindings/data_center/offline.rs, composing the models of verification, conversion, search and objective | transfer of C04/C61 along the conversions; value of a finite image cost; termwise comparison for the approximation ratio |
| C73 | `manhattan`, `manhattan_scaled`, `euclidean_norm` (ConvertModel.v, DescentModel.v), `is_norm` as specification | induction over the coordinates; Cauchy-Schwarz for the triangle inequality of the Euclidean norm |
| C74 | `dual_norm` (DescentModel.v) with an ideal maximiser (`exact_maximizer`) | optimality of the maximiser transferred through the rounding of arguments; explicit best vectors for the lower bounds, Cauchy-Schwarz for the upper ones |
| C75 | `mahalanobis` (NormModel.v); matrix inversion is any function answering correctly | linear algebra over coordinates: uniqueness of the preimage, definiteness transferred through the inverse |
| C76 | `memoryless` (DescentModel.v) run by `offline_stream` (StreamModel.v); `paid`, `mild_costs` as specification | amortised analysis with the potential k b |x - y|: step inequality by convexity and minimality of the answer, reflection of the line for downward moves, induction over the stream |
| C77 | `alg_b`, `sblo_lb` (BalancedModel.v) run on streams; `convex_servers`, `idle_at_most` as specification | charging argument: per type, servers are grouped by the slot they are powered up at; their windows are covered by the rises and the level of the optimal prefixes, whose costs the optimum bounds; hitting costs are compared by the convexity of the cost of a server; picked sub-slots by the triangle inequality of switching costs |
| C78 | `rhc_alg`, `afhc_alg` (HorizonRunModel.v) run by `offline_stream`, and `advised`: a user calling `rhc_next` with instances of any window | receding: induction over slots, the chosen prefix together with the rest of the current plan costs at most 1+c times the operation of any schedule, since the next plan may be the rest followed by that schedule; averaging: the rest of an optimal plan is optimal, so the last configuration of every plan costs at most 1+c times that of any schedule in its slot, then convexity |
| C79 | `slo_run` (BudgetModel.v) against `slo_objective_fn`, the objective function of the SLO problem | the optimal schedule up to a slot ends with exactly the servers needed; per lane a potential (twice the cost of the other schedule not spent yet) covers the idle time until the horizon and the next powering up; sums over lanes bound the cost of the run and equal the cost of the other schedule |
| C80 | distributions of whole schedules (`rounded`, ExpectedSpec.v), generated by the step `next` of RandomizedModel.v with uniform samples; objective functions of the problem and of its relaxation `ssco_into_f` | rising steps never power down and falling steps never power up, so the expected movement is the movement of the expectations; the relaxed hitting cost is linear between integers; induction over the schedule |
| C81 | the instance generated by `to_ssco` (DataCenterModel.v, LoadModel.v) for one location and one server type; `search_1d_ssco` and `brcp_ssco` (Offline1DModel.v) solve it, `integral_lcp` follows a stream of loads | with one assignment possible the minimisation over fractions has no variables; the energy is a perspective of the power function and the delay of processor sharing is convex where supported; then the theorems on graph search, brcp and lcp apply |
| C82 | `window_minimize`, `co_solver`, `static_fractional_solver` (WindowModel.v): `OptimizeModel.minimize` put in the place of the oracle of HorizonModel.v; `into_sco` images of one problem in integral and fractional form | the callbacks handed to NLopt depend only on rounded arguments, so its exact answer rounds to a best grid point, which is cut into rows; the competitive ratios hold for optimisers exact on any set of configurations; integral schedules are grid schedules and the conversion keeps their cost |
| C83 | `into_online`, `dc_update_ssco`, `find_bound_ssco` (`find_bound` on instances whose costs may panic), `lcp_ssco`, `lcp_session` (SessionModel.v) on top of the server of StreamModel.v and the generated instances of DataCenterModel.v | invariant of the server: its instance agrees with the instance of the whole day on all slots so far, and the algorithm is extensional in these costs (also through the search); lazy capacity provisioning on the generated instance equals that on a plain one (C24), whose ratio is proved by the chain of optimal bounds; convexity of the costs from C81 |
| C84 | `find_minimizer` as called by `find_bound` (`point_minimize`), `fractional_online`, `fractional_lcp` (GridCapModel.v) on top of CapacityModel.v and OptimizeModel.v | the chain of work functions of C24 over the set of multiples of 0.01; NLopt's answer is exact on it (C55); the objective beyond the horizon is evaluated on the schedule padded with the start configuration; the oscillation by induction on the number of slots |
| C85 | `initial_guess`, `apply_loads`, `LoadFractions`, `safe_balancing`, `sblo_objective` (LoadModel.v) | lookup in the flattened list of fractions; the sum of the parts is the number of active types but the last one times the part; a solver answering nothing worse than its start cannot be worse than the even spread |
| C86 | `load_minimize` (JointModel.v) connects load balancing (LoadModel.v) to the interface of NLopt (OptimizeModel.v); instances of DataCenterModel.v, offline search of GraphSearchModel.v and OfflineModel.v | a division without its last share is a point of the grid on which NLopt optimises; the hitting cost is the least over all divisions; sums over slots are compared with the optimality theorem of C72 |
| C87 | the step functions of all online algorithms with the streaming loop of StreamModel.v; ForesightModel.v adds fractional lazy capacity provisioning, both relaxations of randomised rounding and lazy budgeting for SLO in the form used for streaming | every step is shown to evaluate costs and loads only inside the window (memories are compared up to the values of the functions they hold); induction over the slots of the stream |
| C88 | `dc_update_sco` (TerminalModel.v) with `to_sco` of DataCenterModel.v, `into_sco` of ConvertModel.v and the server of StreamModel.v | the hitting costs of the updated instance are those of the day except in one slot; the moving costs of both formulations telescope to half of the switching costs of the last configuration |
| C89 | `sblo_session`, `slo_session` (LiveModel.v) with `update_sblo`, `update_slo` (StreamModel.v), the server of StreamModel.v and lazy budgeting of BudgetModel.v and BalancedModel.v | lazy budgeting does not use later loads, so the session answers like a run on the final instance; every prefix of the run is a run on the instance so far, to which the competitive ratios of C79 and C77 apply |
| C90 | `sample_gamma` (ExpectModel.v) over the reals and the run of BudgetModel.v | the run for a drawn number powers a server down after a fixed number of idle slots; the density of that number makes the expected cost of every idle period at most e/(e-1) times that of powering down at the best time; lane by lane and slot by slot with a potential; the integral is a finite sum over the intervals of numbers standing for the same number of slots |
| C91 | `step` (ClientsModel.v): transition system of clients, their connections and the thread of the server around `serve` of StreamModel.v | invariants over all executions; the order is that in which the server decodes requests; a measure for termination |
| C92 | `binary64` and the functions of ProblemModel.v and GraphSearchModel.v with rounded operations (FloatModel.v) | standard model of rounding errors proved for `binary64`; the invariant of the search with factors counting roundings along the visit of a layer; the minimum over predecessors is exact because rounded sums commute |
| C93 | Search1DModel.v with rounded operations (Float1DModel.v); rows and final choice are shared, they compute no costs | the search minimises the *computed* cost of paths exactly, because rounded sums are monotone; the computed cost of a path is near its cost; every window of a refinement contains the previous schedule, so computed costs never increase |
| C94 | threads as trees of accesses to the cache (look-up, store, clear), the optimiser as a tree of questions; any interleaving and any eviction (WorkCacheModel.v) | invariant: once a call has cleared the cache, everything in it is a value of the common work function, so each thread still denotes the result of the algorithm without a cache; trees are well-founded, hence so are interleavings |
| C95 | writers and readers of bincode 1.3.3 (fixed-width little-endian) for numbers, tuples, options, vectors and enumerations, put together as the derived and hand-written implementations do; panics of `n64` while reading are explicit (WireModel.v) | every combinator of formats preserves: reading what was written gives the value and the rest, and proper prefixes are malformed; prefix-freeness follows |
| C96 | the two searches with the arithmetic of `i32` (panicking or wrapping) and saturating conversions (OverflowModel.v) | invariant: all rows lie between 0 and the bound, so no operation leaves the range of `i32`; then the models agree and optimality carries over from C03 |

## Trusted base

* **Coq 8.16.1's kernel** (and, for a handful of concrete examples, its `vm_compute` reduction). No plugins, no functors,
  no module types, no `Admitted`, no section-less `Variable`/`Hypothesis`.
* **Axioms.** `Print Assumptions` answers *Closed under the global context* for every theorem but two. The exceptions are
  `slo_lb_randomized_competitive` (C90) and `live_slo_randomized_competitive_partial` (C89), which are about logarithms and
  an integral: they depend on the standard library's axioms
  `ClassicalDedekindReals.sig_not_dec`, `ClassicalDedekindReals.sig_forall_dec`,
  `FunctionalExtensionality.functional_extensionality_dep` and `Classical_Prop.classic`. Their integral is Coquelicot's
  `is_RInt` (Riemann integral), which adds no axioms.
  The development loads `Lia`, `Lqa`, `Setoid`, `Ring`, `Field` and `Reals` from the standard library and, in the
  `Expect…` files, Coquelicot. A scan of all constants of the loaded libraries also reports the fields of the modules
  `Coq.Reals.Rdefinitions.RbaseSymbolsImpl` and `Coq.Reals.Rdefinitions.RinvImpl` (definitions of the real numbers sealed
  by a module type in the standard library) and seven names `Coq.ssr.ssrunder.Under_rel.{Under_rel, Under_rel_from_rel, Under_relE, Over_rel,
  over_rel, over_rel_done, under_rel_done}`; these are fields of a module sealed by a module type in the standard library
  (`Coq.ssr.ssrunder`, loaded by the prelude) and no theorem here depends on them.
* **The reading of the Rust source.** The model is a transcription by hand; every definition cites the lines it transcribes
  and says where it simplifies. The Rust compiler, `std`, rayon and the other dependencies are trusted to do what their
  documentation says.
* **Oracles.** These appear as universally quantified functions; a theorem that needs something of them has it as a visible
  hypothesis:
  * NLopt (`find_minimizer`, `minimize`): any function; optimality theorems assume an exact answer for the problem at hand
    (`exact_answer`, `solves`, or the solver hypotheses of `LoadSpec`). Nothing is assumed about inexact answers.
    C81 assumes that a problem without variables is answered by evaluating its objective (`trivial_exact`).
  * numerical integration, root finding: any function (C41 assumes nothing but finiteness; hypotheses are named where used).
  * random numbers: a sample is an argument; statements about probabilities integrate over the sample explicitly (C33, C34, C80, C90).
  * `powf`: any function with the stated monotonicity.
  * rayon: an arbitrary division of the index range (`split` trees for sums, `fold`/`reduce` trees for searches).
  * user closures (hitting costs, norms): arbitrary functions that may panic.

## Modelled and not modelled

| source (`implementation/src`) | model | left out |
|---|---|---|
| `utils.rs`, `value.rs`, `result.rs` | `Num.v`, `CostModel.v` | rng seeding, `total_order` helpers |
| `config.rs`, `schedule.rs`, `vec_wrapper.rs` | `ConvertModel.v`, `HorizonModel.v` | Python conversions, iterators, `Display` |
| `problem.rs` | `ProblemModel.v`, `CostModel.v`, `LoadModel.v` | `Debug`/derive code |
| `cost.rs`, `model/mod.rs` | `CostModel.v`, `ProblemModel.v`, `StreamModel.v` | |
| `convert.rs`, `distance.rs` | `ConvertModel.v`, `LoadModel.v`, `DescentModel.v`, `NormModel.v` | the matrix inversion of nalgebra (any correct one) |
| `verifiers.rs` | `VerifyModel.v` | |
| `breakpoints.rs`, `numerics/quadrature/piecewise.rs` | `PiecewiseModel.v` | the quadrature rule itself |
| `numerics/{convex_optimization,roots,finite_differences}.rs` | `OptimizeModel.v`, `ProbabilisticModel.v` | NLopt, Brent's method, bacon_sci's differentiation (oracles) |
| `numerics/quadrature/mod.rs` | `QuadratureModel.v` | bacon_sci's quadrature rules (oracles) |
| `algorithms/offline/uni_dimensional/optimal_graph_search.rs` | `Search1DModel.v`, `OverflowModel.v` (32-bit integers) | |
| `algorithms/offline/{graph_search.rs, multi_dimensional/{graph_search,optimal_graph_search,approx_graph_search}.rs}` | `GraphSearchModel.v`, `ApproxSearchModel.v`, `OverflowModel.v` (grid of the approximate search in 32-bit integers) | memory release of old layers |
| `algorithms/offline/multi_dimensional/static_{integral,fractional}.rs` | `StaticModel.v`, `DescentModel.v` | |
| `algorithms/offline/multi_dimensional/convex_optimization.rs` | `HorizonModel.v` | |
| `algorithms/capacity_provisioning.rs`, `…/lazy_capacity_provisioning.rs`, `offline/uni_dimensional/capacity_provisioning.rs` | `CapacityModel.v` | |
| `algorithms/online/multi_dimensional/lazy_budgeting/*` | `BudgetModel.v`, `BalancedModel.v` | |
| `algorithms/online/multi_dimensional/horizon_control/*` | `HorizonModel.v` | |
| `algorithms/online/uni_dimensional/randomized.rs` | `RandomizedModel.v` | |
| `algorithms/online/multi_dimensional/{online_balanced_descent/*, online_gradient_descent.rs}`, `…/uni_dimensional/{memoryless, randomly_biased_greedy}.rs` | `DescentModel.v`, `WorkCacheModel.v` (the process-wide cache of work functions of `rbg`) | |
| `algorithms/online/uni_dimensional/probabilistic.rs` | `ProbabilisticModel.v` | (the serialisation of the memory, which loses the density, is in `WireModel.v`) |
| `streaming/*`, `algorithms/online/mod.rs` | `StreamModel.v`, `ClientsModel.v` (connections, concurrent clients), `WireModel.v` (the bytes of inputs of data centres and of responses) | limits of memory while reading, the backlog limit and time-outs of sockets, run-time measurements, logging |
| `model/data_center/*` | `LoadModel.v`, `DataCenterModel.v` | hash functions, Python conversions |
| `bindings/*`, `lib.rs`, `main`-like code | `OfflineModel.v`, `Offline1DModel.v` (solvers of `bindings/data_center/offline.rs`) | Python glue |

Floating-point rounding (except in C92 and C93), overflow to infinity, NaN, integer overflow (except in C96), memory exhaustion, time-outs and non-termination of external code are outside
the model. Loops whose termination is not evident have explicit fuel, and theorems state that enough fuel exists (or that
none is enough).

## Properties and theorems

Every theorem listed here but `slo_lb_randomized_competitive` and `live_slo_randomized_competitive_partial` (see *Axioms* above) is *Closed under the global context*
(`Print Assumptions` stands beneath each in its `…Props.v` or `…Examples.v` file or was run on it).

| id | status | theorems |
|---|---|---|
| C01 1-D graph search is optimal for convex costs | proved | `search_1d_optimal`, `search_1d_rejects`, `search_1d_infinite_capacity_refuted` |
| C02 1-D graph search reports the cost of the schedule it returns | proved | `search_1d_reports_objective` |
| C03 Power-of-two padding keeps 1-D search answers inside the original bounds and optimal | proved | `search_1d_optimal_padded`, `padding_keeps_costs` |
| C04 N-D graph search is optimal for arbitrary costs | partial | `search_nd_optimal_partial`, `search_nd_inverted_refuted`, `search_nd_zero_bound_refuted`, `search_nd_infinite_capacity_refuted` |
| C05 N-D graph search reports the cost of the schedule it returns | partial | `search_nd_grid_optimal_partial`, `schedule_cost_is_objective` |
| C06 Resuming N-D graph search from a cache equals solving from scratch | proved | `search_nd_resume`, `search_nd_grid_resume`, `approx_search_resume`, `resumed_search_skips_cached_slots` |
| C07 Parallel predecessor selection does not depend on thread scheduling | proved | `predecessor_is_first_least`, `search_nd_independent_of_schedule` |
| C08 Objective evaluation does not depend on thread scheduling | proved | `objective_independent_of_schedule`, `movement_independent_of_schedule` |
| C09 Objective function equals the textbook formula | proved | `objective_is_textbook_formula`, `public_objective_functions`, `objective_of_any_schedule`, `movement_directions_differ_by_endpoints`, `sco_inverted_refused` |
| C10 Approximate graph search grid | proved | `approx_values`, `approx_search_optimal_on_grid`, `approx_values_gamma_1_refuted` |
| C11 Static integral solver optimality | partial | `static_optimal_partial`, `static_optimal_separable`, `static_rejects`, `static_alpha_refuted`, `static_convex_refuted`, `static_infeasible_refuted` |
| C12 SSCO to SCO conversion preserves the objective | proved | `into_sco_keeps_objective` |
| C13 SLO to SBLO conversion preserves the cost of every assignment | partial | `into_sblo_keeps_hitting_cost`, `slo_cost_finite_iff_covered`, `into_sblo_keeps_movement`, `into_sblo_rounded_refuted` |
| C14 Continuous relaxation interpolates | proved | `relaxation_on_integers`, `relaxation_is_piecewise_linear`, `relaxation_infinite`, `relaxation_between_neighbours`, `relaxation_is_convex`, `relaxation_one_dimensional`, `relax_then_discretise`, `relax_then_discretise_fields`, `relaxation_keeps_total_cost`, `discretisation_keeps_total_cost` |
| C15 Rounding schedules | proved | `to_i_is_least_above`, `floor_is_greatest_below`, `rounding_keeps_bounds`, `to_i_keeps_feasibility`, `to_then_to_i` |
| C16 Resetting shifts time | proved | `reset_shifts_costs`, `reset_requires_certainty`, `nested_resets`, `objective_splits_at_reset` |
| C17 Online cost functions always answer with the latest applicable information | proved | `registrations_determine_answer`, `cost_function_uses_latest`, `cost_function_without_registration`, `later_information_keeps_earlier_costs` |
| C18 Costs outside the decision space are infinite | proved | `certain_cost_iff_single_sample`, `mean_cost_is_average`, `hit_cost_inside`, `hit_cost_outside`, `hit_cost_wrong_dimension`, `sco_hit_cost_inside`, `sco_hit_cost_outside`, `scalar_decision_space` |
| C19 Raw schedule encoding round-trips | proved | `from_raw_reads_flattened`, `from_raw_inverts`, `from_raw_rejects`, `build_raw_repeats` |
| C20 Data-centre assignment index encoding is a bijection | proved | `index_encoding_bijective` |
| C21 Problem verification accepts exactly well-formed instances | partial | `verify_sco_exact`, `verify_ssco_exact`, `verify_sblo_exact`, `verify_slo_exact_partial`, `verify_online_exact`, `verify_slo_short_hitting_cost_refuted`, `verify_slo_long_hitting_cost_refuted`, `verify_sco_empty_bounds_refuted` |
| C22 Schedule verification accepts exactly feasible schedules | partial | `verify_schedule_exact_partial`, `verify_schedule_accepted`, `verify_schedule_short_config_refuted`, `verify_schedule_long_config_refuted` |
| C23 Lazy capacity provisioning is lazy and feasible | proved | `lcp_step_lazy`, `lcp_step_rejects`, `lcp_runs_lazily`, `lcp_run_bounds` |
| C24 LCP restart time is sound | proved | `lcp_restart_point`, `lcp_restart_sound`, `lcp_run_bounds`, `fractional_restart_refuted` |
| C25 LCP lower and upper bounds bracket | proved | `lcp_bounds_on_optima`, `lcp_bounds_ordered`, `lcp_run_bounds`, `fractional_window_refuted` |
| C26 Backward-recurrent capacity provisioning stays in its bounds and is lazy backwards | proved | `brcp_backward_lazy`, `brcp_optimal`, `brcp_rejects` |
| C27 Lazy budgeting (SLO) always serves the load within the fleet | partial | `slo_lb_serves_load_partial`, `slo_lb_window`, `finite_cost_covers_load`, `slo_lb_free_servers_refuted` |
| C28 Lane encoding round-trips | proved | `lanes_round_trip`, `lanes_of_configuration`, `lanes_ordered` |
| C29 Lazy budgeting (SLO) laziness | partial | `slo_lb_lazy_partial`, `slo_lb_keeps_until_horizon_partial` |
| C30 Algorithm B (SBLO) keeps at least the optimal prefix configuration within bounds | proved | `algb_above_optimum` |
| C31 Algorithm B (SBLO) powers every server down exactly when its idle cost exceeds the switching cost | proved | `algb_lazy`, `algb_powers_down`, `powered_down_once` |
| C32 Lazy budgeting (SBLO) sub-slots | proved | `sblo_lb_sub_slots`, `sub_slot_numbers`, `sub_slot_costs`, `sub_slot_number`, `sub_slot_number_positive`, `sblo_lb_window` |
| C33 Randomised rounding returns a neighbour | proved | `randomized_neighbour`, `randomized_feasible` |
| C34 Randomised rounding is unbiased | partial | `randomized_unbiased_partial`, `randomized_trajectory_partial`, `randomized_probability`, `randomized_distribution`, `randomized_biased_refuted` |
| C35 Streaming produces exactly one configuration per slot | proved | `next_appends_one`, `next_rejects_out_of_step`, `stream_extends_schedule`, `offline_stream_terminates`, `offline_stream_complete`, `offline_stream_succeeds` |
| C36 Streaming can be interrupted and resumed | proved | `stream_resume` |
| C37 Online server handles every request sequence | proved | `server_answers_every_request`, `server_answer_reports_cost`, `server_step`, `server_sequential`, `server_stops` |
| C38 Offline preparation of an online run covers the announced input | partial | `prepare_schedule_partial`, `prepared_in_step_partial`, `prepare_covers_refuted`, `first_request_refuted` |
| C39 Load fractions conserve load | partial | `single_job_type_load_conserved_partial`, `assigned_load_of_job_type`, `load_conservation_refuted` |
| C40 Predicted load sampling yields profiles | partial | `sampled_profiles_partial`, `sampling_equal_sizes`, `sampling_different_sizes_refuted`, `predicted_loads_refuted`, `certain_load_as_prediction_refuted`, `predicted_loads_apply_to_their_slots` |
| C41 Piecewise integration covers the interval | partial | `piecewise_tiles_partial`, `piecewise_exact_partial`, `piecewise_few_breakpoints`, `piecewise_outside_breakpoints`, `piecewise_terminates`, `grid_breakpoints`, `add_breakpoints`, `piecewise_cut_off_refuted`, `half_grid_stuck_refuted`, `infinite_interval_refuted` |
| C42 Energy cost with quotas | partial | `quotas_cost_partial`, `linear_energy_cost`, `quotas_cost_refuted`, `quotas_infinite_demand_refuted` |
| C43 Processor-sharing delay | proved | `average_delay_exact`, `average_delay_monotone` |
| C44 Energy consumption and revenue loss models | proved | `linear_consumption_interpolates`, `simplified_consumption_is_linear`, `nonlinear_consumption_monotone`, `revenue_loss_linear`, `revenue_loss_monotone` |
| C45 Normalised switching cost round-trips | proved | `from_normalized_round_trip`, `switching_cost_components`, `normalized_cost_breaks_even`, `normalized_costs_break_even` |
| C46 Failures dominate when model outputs are combined | partial | `data_center_outputs_over_time`, `data_center_merge_associative`, `combining_is_associative`, `data_center_samples_partial`, `samples_mean_refuted` |
| C47 Data-centre model produces well-formed instances | partial | `bounds_defined`, `generated_ssco_partial`, `generated_ssco_costs`, `generated_sblo`, `generated_sblo_costs`, `generated_sco`, `single_server_cost`, `generated_slo`, `average_cost_partial`, `two_locations_refuted`, `average_slots_refuted` |
| C48 Horizon control uses its prediction window | partial | `rhc_optimal_plan_partial`, `rhc_current_slot`, `afhc_average_partial`, `rhc_window_refuted` |
| C49 Online updates only append information | proved | `updates_append_slots`, `updates_keep_earlier_costs`, `updates_keep_earlier_objective`, `update_requires_window`, `update_sco_appends`, `update_slo_appends`, `update_slo_keeps_earlier_costs`, `update_sblo_keeps_earlier_costs`, `update_advances` |
| C50 LCP is 3-competitive on integral instances | proved | `lcp_three_competitive` |
| C51 Hitting costs of load profiles match the reported assignment | proved | `hitting_cost_matches_assignment`, `wrong_number_of_job_types`, `loads_apply_to_their_slots` |
| C52 SBLO to SSCO conversion preserves the objective | proved | `into_ssco_keeps_objective` |
| C53 Data-centre objective is finite exactly for supported assignments | proved | `objective_finite_iff_supported` |
| C54 Offline convex optimisation is optimal and respects the movement limit | proved | `co_optimal`, `co_inverted` |
| C55 Numerical minimisation returns the best point of the 0.01 grid | proved | `minimize_best_on_grid`, `minimize_near_bounds`, `minimize_reports`, `minimize_failure_panics`, `minimize_bounds_refuted` |
| C56 Root finding | partial | `find_root_interval`, `find_root_partial`, `find_root_refuted` |
| C57 Online balanced descent projects onto a level set | proved | `obd_projects`, `obd_euclidean`, `negative_entropy_value`, `negative_entropy_initial_refuted` |
| C58 Primal online balanced descent balances movement and hitting cost | partial | `pobd_step_partial`, `pobd_balance_refuted` |
| C59 Greedy online balanced descent takes the weighted mean | proved | `gobd_mean` |
| C60 Regularised online balanced descent minimises the regularised cost | proved | `robd_minimizes` |
| C61 Online gradient descent takes a projected gradient step | partial | `ogd_step_partial`, `ogd_boundary_refuted` |
| C62 The memoryless algorithm balances movement and hitting cost | proved | `memoryless_balances` |
| C63 Randomly biased greedy minimises the biased work function | partial | `rbg_minimizes`, `rbg_bias_refuted` |
| C64 The static fractional optimum is optimal among constant schedules | proved | `static_fractional_optimal`, `static_fractional_rejects` |
| C65 Descent algorithms stay within the bounds and reject prediction windows | proved | `answers_within_bounds`, `memoryless_within_bounds`, `windows_rejected` |
| C66 Dual online balanced descent takes a step of balanced descent | proved | `dobd_step` |
| C67 The probabilistic algorithm answers the mean of a density around the minimiser | proved | `probabilistic_starts`, `probabilistic_step`, `probabilistic_mean`, `probabilistic_minimizer` |
| C68 The density of the probabilistic algorithm stays a probability distribution | partial | `probabilistic_nonnegative_partial`, `probabilistic_right_bound_partial`, `probabilistic_left_bound_refuted`, `probabilistic_mass_refuted` |
| C69 The approximate graph search is an approximation scheme | proved | `approx_search_ratio`, `approx_search_scheme`, `approx_values_few`, `load_costs_covered`, `approx_search_ratio_refuted` |
| C70 Numerical integration answers the integral | partial | `integral_bounded`, `integral_to_infinity`, `integral_from_minus_infinity`, `integral_whole_line_partial`, `integral_whole_line_too_small`, `integral_whole_line_refuted`, `piecewise_error_adds_up`, `integral_determined` |
| C71 Numerical derivatives are rounded library answers with defined exceptional cases | proved | `derivative_answers` |
| C72 Solving an offline problem returns the best schedule and its cost | partial | `offline_ssco_optimal_partial`, `offline_ssco_answers`, `offline_rejects`, `offline_sblo_optimal_partial`, `offline_sblo_answers`, `offline_slo_optimal_partial`, `offline_slo_answers`, `offline_slo_single_type`, `offline_ssco_approximate`, `offline_ssco_default`, `offline_sblo_default`, `offline_slo_default`, `offline_sblo_approximate`, `offline_slo_approximate`, `offline_sblo_rejects`, `offline_slo_rejects`, `offline_options_meaning`, `offline_load_ops_lawful`, `offline_static_sblo`, `offline_static_slo`, `offline_static_slo_single`, `offline_static_rejects`, `offline_static_options`, `offline_no_slots_refuted`, `offline_slo_answers_refuted`, `offline_slo_optimal_refuted`, `offline_search_1d_optimal`, `offline_brcp_optimal` |
| C73 The provided distances are norms | proved | `manhattan_is_norm`, `manhattan_scaled_is_norm`, `euclidean_is_norm` |
| C74 The dual norm is the largest inner product with vectors of norm at most 1 | partial | `dual_norm_largest`, `dual_of_manhattan`, `dual_of_euclidean`, `dual_norm_infinite` |
| C75 The Mahalanobis distance | proved | `mahalanobis_value`, `mahalanobis_norm_refuted`, `mahalanobis_staying_refuted` |
| C76 The memoryless algorithm is competitive | proved | `memoryless_three_competitive`, `memoryless_five_competitive`, `memoryless_ratio_three_refuted` |
| C77 Lazy budgeting for balanced load is competitive | proved | `algb_competitive`, `sblo_lb_competitive`, `sub_slots_same_cost`, `additional_servers` |
| C78 Horizon control is competitive | proved | `rhc_competitive`, `rhc_stream_competitive`, `afhc_stream_competitive`, `rhc_window_ratio_refuted`, `afhc_window_ratio_refuted` |
| C79 Lazy budgeting (SLO) is competitive | partial | `slo_lb_competitive_partial` |
| C80 Randomised rounding keeps the cost in expectation | partial | `randomized_rounds_answers`, `randomized_schedules`, `randomized_expected_cost_partial`, `randomized_cost_refuted` |
| C81 Data centres with one kind of server have convex costs, so the one-dimensional algorithms are correct on them | partial | `one_type_cost_partial`, `single_load_counted`, `one_type_convex`, `one_type_convex_fractional`, `consumption_models_convex`, `one_type_search_optimal`, `one_type_brcp_optimal`, `one_type_lcp_competitive`, `one_type_capacity_refuted` |
| C82 Windows and offline optima computed with the numerical optimiser are optimal on the grid of hundredths, and the offline optima are ordered | proved | `window_optimiser_solves`, `offline_fractional_best`, `offline_static_fractional_best`, `rhc_nlopt_competitive`, `afhc_nlopt_competitive`, `offline_optima_ordered`, `one_type_optima_ordered`, `offline_fractional_optimal_refuted` |
| C83 A live session with a data centre follows the day as if it were known, and lazy capacity provisioning is 3-competitive in it after every request | partial | `updates_describe_the_day`, `session_follows_the_day`, `lcp_is_causal`, `live_lcp_competitive`, `session_with_window_refuted`, `session_with_several_loads_refuted` |
| C84 Capacity provisioning for fractional instances with NLopt: backward-recurrent is optimal on the grid, lazy is 3-competitive until it restarts | partial | `offline_brcp_best_on_grid`, `one_type_brcp_best_on_grid`, `fractional_lcp_answers`, `fractional_lcp_competitive_partial`, `restarted_bounds_charge_the_way_back`, `fractional_lcp_unbounded_refuted` |
| C85 Load balancing starts from a feasible assignment | partial | `start_within_bounds`, `start_spares_inactive_types_partial`, `start_spreads_evenly`, `sblo_cost_at_most_even_spread`, `start_with_inactive_last_type`, `sblo_start_panics_refuted`, `sblo_start_infinite_refuted`, `start_of_two_job_types_refuted` |
| C86 Servers and the division of load are optimised together | partial | `cheapest_division_partial`, `joint_optimum_partial`, `joint_optimum_two_types_partial`, `balancing_timeout_refuted` |
| C87 Online algorithms do not look into the future | proved | `lcp_unforeseeing`, `fractional_lcp_unforeseeing`, `memoryless_unforeseeing`, `probabilistic_unforeseeing`, `randomized_unforeseeing`, `randomized_greedy_unforeseeing`, `descent_unforeseeing`, `rbg_unforeseeing`, `rhc_unforeseeing`, `afhc_unforeseeing`, `slo_lazy_budgeting_unforeseeing`, `sblo_lazy_budgeting_unforeseeing` |
| C88 A live session of a descent algorithm reports the cost of its schedule | partial | `sco_updates_charge_early`, `sco_session_charges_early`, `sco_session_reports_the_cost_refuted`, `sco_session_follows_the_day_refuted` |
| C89 A live session of load optimisation stays competitive | partial | `live_sblo_instance`, `live_slo_instance_partial`, `live_slo_serves_partial`, `live_slo_competitive_partial`, `live_slo_randomized_competitive_partial`, `live_sblo_competitive`, `live_slo_competitive_refuted` |
| C90 Randomised lazy budgeting for load optimisation is e/(e-1)-competitive in expectation | proved | `slo_lb_randomized_competitive` |
| C91 Concurrent callers of the server get the answers of some order of their calls | partial | `concurrent_calls_are_sequential`, `concurrent_calls_return`, `concurrent_calls_answered`, `start_listens_refuted`, `server_survives_death_refuted`, `server_unblocked_refuted` |
| C92 Costs computed in floating-point arithmetic are right up to rounding | proved | `binary64_is_nearest`, `binary64_rounds`, `float_objective_accurate`, `float_search_nd_optimal`, `float_search_nd_grid_optimal`, `rounding_factors`, `float_search_independent_of_schedule`, `float_search_resume`, `float_search_without_rounding`, `float_objective_without_rounding`, `float_objective_integers`, `float_search_nd_integers`, `float_objective_independent_of_division_refuted`, `float_search_exactly_optimal_refuted` |
| C93 The one-dimensional search in floating-point arithmetic | partial | `float_search_1d_accurate`, `float_search_1d_near_optimal_partial`, `float_search_1d_without_rounding`, `float_search_1d_near_optimal_refuted` |
| C94 Sessions of randomly biased greedy do not influence each other | partial | `rbg_cache_unnoticed`, `rbg_cache_unnoticed_concurrently_partial`, `rbg_cache_calls_return`, `rbg_cache_unnoticed_concurrently_refuted` |
| C95 What is sent is what arrives | partial | `requests_arrive`, `incomplete_requests_recognised`, `requests_prefix_free`, `responses_arrive`, `response_parts_arrive`, `results_arrive`, `errors_arrive`, `budgeting_memories_arrive`, `maps_arrive`, `reading_panics_only_for_nan_partial`, `requests_read_orderly_refuted`, `memory_arrives_refuted`, `sblo_memory_arrives_refuted` |
| C96 Numbers of servers of any size | partial | `search_1d_within_i32_partial`, `search_1d_machine_optimal_partial`, `search_1d_large_bounds_refuted`, `search_1d_wrapping_refuted`, `approx_search_within_i32_partial`, `approx_search_largest_bound_refuted` |

## Disagreements between the code and the properties

Each is a theorem named `…_refuted` (a concrete instance on which the documented behaviour fails) or is visible in the
hypotheses of a `_partial` theorem.

1. **Randomised rounding** (C34, `randomized_biased_refuted`): steps that decrease across or from an integer are always rounded
   down, because the fractional part of an integer is zero; the expectation is then not the fractional value.
2. **Load fractions** (C39, `load_conservation_refuted`): with several job types only `l_i^2/total` of type i is assigned.
3. **Load-profile sampling** (C40, `predicted_loads_refuted`, `sampling_different_sizes_refuted`): profiles are built per job type
   instead of per sample (transposed), panicking when the sizes differ.
4. **Offline start of streams** (C38, `prepare_covers_refuted`, `first_request_refuted`): the window is subtracted twice.
5. **Receding horizon control** (C48, `rhc_window_refuted`): online instances end in the current slot, so the window is unused;
   averaging fixed horizon control re-plans every window backwards from the current slot.
6. **N-dimensional search with inverted movement** (C04, `search_nd_inverted_refuted`): minimises the non-inverted objective.
7. **N-dimensional search** panics when a bound is 0 (`search_nd_zero_bound_refuted`) and when the cost at full capacity is infinite
   (`search_nd_infinite_capacity_refuted`); the one-dimensional search likewise (`search_1d_infinite_capacity_refuted`).
8. **Approximate search** with gamma = 1 does not terminate (`approx_values_gamma_1_refuted`); for hitting costs that may grow faster
   than the number of servers it has no guarantee, even if they are convex (`approx_search_ratio_refuted`).
9. **Static integral optimum** (C11): alpha is ignored (`static_alpha_refuted`), joint convexity is not enough for the early stop
   (`static_convex_refuted`), and an infeasible first value ends the search (`static_infeasible_refuted`).
10. **Verifiers** (C21, C22): SLO instances with too few/many hitting costs (`verify_slo_short_hitting_cost_refuted`,
    `verify_slo_long_hitting_cost_refuted`), configurations of the wrong length (`verify_schedule_short_config_refuted`,
    `verify_schedule_long_config_refuted`), SCO without bounds (`verify_sco_empty_bounds_refuted`).
11. **Lazy budgeting** with free servers (zero operating or idle cost) panics or never powers down
    (`slo_lb_free_servers_refuted`, `sblo_lb_free_servers_refuted`).
12. **Fractional capacity provisioning** (C24, C25): the restarted objective keeps the full horizon and the window is not used
    (`fractional_restart_refuted`, `fractional_window_refuted`).
13. **Load fractions are rounded to hundredths** (C13, `into_sblo_rounded_refuted`): tight loads then have no feasible distribution.
14. **Piecewise integration** (C41): stops after ten small pieces in total (not in a row) and drops the rest
    (`piecewise_cut_off_refuted`); grids of size other than 1 get stuck (`half_grid_stuck_refuted`); infinite intervals need not finish
    (`infinite_interval_refuted`).
15. **Quotas** (C42, `quotas_cost_refuted`, `quotas_infinite_demand_refuted`): adds energy to unit cost instead of multiplying; infinite
    demand may get a finite cost.
16. **Merging of samples** (C46, `samples_mean_refuted`): pairwise averages, not the mean, for three or more samples.
17. **Generated problems** (C47, `two_locations_refuted`, `average_slots_refuted`): with two locations the switching costs have the wrong
    dimension; SLO costs average the slots 0..T-1.
18. **Certain loads in predictions** (`certain_load_as_prediction_refuted`).
19. **Rounding of optimisation results** (C55, `minimize_bounds_refuted`): answers are rounded to 0.01 and may leave bounds that are
    not multiples of 0.01.
20. **Root finding** (C56, `find_root_refuted`): `ROOT_PRECISION` is 10 (1000 times the precision, instead of a thousandth), so an end
    of the interval is accepted as a root although the function is almost 10 there.
21. **Primal balanced descent** (C58, `pobd_balance_refuted`): as a consequence of 20 the cost of moving is not balanced: it may be 9
    with a hitting cost of 0 and beta = 1, although a balanced configuration exists.
22. **Gradient descent at the bounds** (C61, `ogd_boundary_refuted`): central differences evaluate the cost outside of the bounds, where
    it is infinite; in the initial configuration the step is therefore infinite and its projection arbitrary.
23. **Negative entropy** (C57, `negative_entropy_initial_refuted`): it panics for entries that are not positive, as in the initial
    configuration.
24. **Randomly biased greedy** (C63, `rbg_bias_refuted`): the bias is not kept; a new one is drawn in every slot.
25. **Regularised balanced descent** (C60): `build_parameters` always chooses the second weight to be 0.
26. **Probabilistic algorithm** (C68, `probabilistic_left_bound_refuted`, `probabilistic_mass_refuted`): the function whose root is
    the left end has the wrong sign before the derivative. For hitting costs that fall up to their minimiser it does not change
    its sign, so the left end is always 0 or the minimiser, and the new density does not have mass 1.
27. **Memory of the probabilistic algorithm**: a density is not serialised; the one put in its place panics when it is evaluated
    (`default_p`), so a stream cannot be resumed by another process.
28. **Integration over the whole line** (C70, `integral_whole_line_refuted`): Gauss-Hermite quadrature approximates the integral of
    f(x) exp(-x^2), but f is not multiplied by exp(x^2) (as is done for Gauss-Laguerre quadrature on half lines).
29. **Step of the second derivative** (`second_derivative_step_refuted`): `TOLERANCE.powf(-0.25)` is about 5.6; given the documented
    meaning of the library's argument (a symmetric second difference with this step), the second derivative at 0 of a function that
    is 0 on [-1, 1] is answered as more than 0.2. The exponent was probably meant to be 0.25.
30. **Results of integration are rounded to 0.01** before they are added up or compared, so the exact quadrature assumed in C41 and
    C67 is an idealisation; `piecewise_error_adds_up` bounds the effect by 0.005 per piece.
31. **Solving SLO loses solutions to rounding** (C72, `offline_slo_answers_refuted`, `offline_slo_optimal_refuted`): the fractions of
    the load are rounded to hundredths when an SLO instance is converted. With load 3 and bounds 1 and 2 the only schedule has a
    finite cost in SLO, but solving panics whatever the numerical solver answers; with bounds 2 and 2 the answer costs 12 instead of 9.
32. **Instances without slots** (C72, `offline_no_slots_refuted`) pass verification, but the graph search panics.
33. **The Mahalanobis distance is not a norm** (C75, `mahalanobis_norm_refuted`, `mahalanobis_staying_refuted`) although it has the type
    of one: it lacks the square root, and with a mean other than 0 staying in place has a positive cost.
34. **Memoryless algorithm** (C76, `memoryless_ratio_three_refuted`): the constraint compares `beta |x - prev|` with half of the hitting
    cost, but in the objective a unit of movement costs `beta / 2` (only powering up is charged), so the factor of three known for
    movement charged in both directions is exceeded; five is proved.
35. **Prediction windows do not help horizon control** (C78, `rhc_window_ratio_refuted`, `afhc_window_ratio_refuted`): in a stream, both
    algorithms are given instances that end in the current slot, so their cost exceeds 1 + c/(w+1) times the optimum although the
    window is w.
36. **Cost of randomised rounding** (C80, `randomized_cost_refuted`): as a consequence of the division by zero in `next` (finding on C34),
    a step down from an integer always rounds down, so that the expected cost of the rounded schedule may exceed every multiple of the
    cost of the fractional schedule (two servers down to 2 - 1/N in a slot where less than two servers cost N).
37. **Overloaded servers** (C81, `one_type_capacity_refuted`): as only a part of the load of several job types is counted (finding 2),
    a single server given one and a half times the work it can do in a slot is reported with a finite cost.
38. **Fractional optimum** (C82, `offline_fractional_optimal_refuted`): as the optimiser's arguments are rounded to multiples of 0.01,
    the "optimal" fractional schedule may cost arbitrarily more than a schedule between two multiples, here 100 more than a third of a server.
39. **Live sessions** (C83, `session_with_window_refuted`, `session_with_several_loads_refuted`): the online inputs made by
    `DataCenterOfflineInput::into_online` can only be used without a prediction window and with one source and job type;
    otherwise the first request makes the server fail and stop.
40. **Restarts of fractional lazy capacity provisioning** (C84, `restarted_bounds_charge_the_way_back`,
    `fractional_lcp_unbounded_refuted`): `find_bound` for fractional instances passes `t_end + w` instead of
    `t_end - t_start + w` as the horizon of the restarted instance, so the way back to the configuration of the restart is
    charged too. The bounds then collapse, every slot looks like a restart, and the schedule can alternate between two
    configurations for ever: there is no competitive ratio. The integral version is not affected.
41. **Start of load balancing** (C85, `sblo_start_panics_refuted`, `sblo_start_infinite_refuted`,
    `start_of_two_job_types_refuted`): the comment in `apply_loads` says that inactive server types are assigned a load
    fraction of 0 initially. This fails for the last server type, which gets what the rounded fractions of the others leave.
    With three of four types active this is 0.01 (infinite cost); with six of seven it is -0.02, and the assertion in
    `safe_balancing` panics. With job types of different loads the start violates the constraints as well.
42. **Limits of the optimiser** (C86, `balancing_timeout_refuted`): when NLopt reaches its limit on evaluations or time,
    `optimize` logs "Assuming solution to be infinity" and answers infinity together with the point reached. `apply_loads`
    then asserts that this value equals the energy cost and revenue loss at the point, which panics whenever they are finite.
43. **Powering down in live sessions** (C88, `sco_session_reports_the_cost_refuted`, `sco_session_follows_the_day_refuted`):
    `to` for SCO charges half of the switching costs in the last slot known (`into_sco`), because SCO charges moving in both
    directions. `update` adds further slots, but the charge stays in the slot that was the last one when the session
    started. The costs reported afterwards lack the costs of powering down, and algorithms treat that slot as the last.
44. **Operating costs in live sessions** (C89, `live_slo_competitive_refuted`): `to` for SLO averages the operating cost of a
    server over the slots known at the start, and `update` does not adjust it. A session started without loads uses the
    price of the first slot for ever; the schedule can be five times as expensive as another one although lazy budgeting is
    2-competitive, and the cost reported is not the one the instance of all loads assigns to it.
45. **Concurrent clients of the server** (C91). `start` spawns the thread that binds the socket and returns at once; the bindings
    pass no channel to wait for it, so a first `next` may be refused (`start_listens_refuted`). Answering a client that has gone
    panics inside `catch_unwind`, and then again outside, when the message of the panic is written to the same connection: the
    server ends although the state was fine (`server_survives_death_refuted`). Connections are read one after the other without
    a time limit: a client that connects and sends nothing blocks all others (`server_unblocked_refuted`), and one that dies
    before sending its input stops the server as `stop` does.
46. **Objectives depend on the number of threads** (C92, `float_objective_independent_of_division_refuted`): the costs of the time slots
    are added by `into_par_iter().map(..).sum()` of rayon in an order that depends on the division of work, and sums of floating-point numbers
    depend on their order. Two evaluations of the same schedule may differ in the last places; C08 holds in exact arithmetic, and up to
    rounding (`float_objective_accurate`). The graph search only takes minima in parallel, of sums whose two terms commute, so its
    result is the same bit for bit (`float_search_independent_of_schedule`). Sums that overflow to infinity are not modelled; then
    `find_optimal_predecessor` finds no predecessor of finite cost and `update_paths` stores an empty schedule of cost 0.
47. **Rounding defeats the refinements of the one-dimensional search** (C93, `float_search_1d_near_optimal_refuted`): on the coarse
    rows 0, m/4, .., m one time slot may be so expensive (although cheap in between) that it absorbs the costs of all others; rows of
    those slots are then chosen arbitrarily (the first), and the windows of the refinements no longer reach the optimum. With 8 servers,
    costs 2^60 |x - 3| and then |x - 7| and free switching, the search returns (3, 2) at cost 5 instead of (3, 7) at cost 0. In exact
    arithmetic the same instance is solved (C01). The multi-dimensional search has no such problem (C92).
48. **Sessions of randomly biased greedy share their work functions** (C94, `rbg_cache_unnoticed_concurrently_refuted`): the cache
    `WORK` is one per process and its key is the slot and the point only. If two sessions run in one process (`start` runs each in a
    thread of its own) and one call stores values after another call has cleared the cache, that other call may answer for the wrong
    instance: an instance in which serving is expensive gets the answer 1 instead of 0.
49. **Bytes can end the server** (C95, `requests_read_orderly_refuted`): `n64` panics for NaN in builds with debug assertions, and the
    deserialisation of an input calls it outside of `catch_unwind` (`online.rs:173`), so that one client that sends a NaN ends the
    server for everybody instead of getting an error. Only NaN can do this (`reading_panics_only_for_nan_partial`). Moreover the
    memory of the probabilistic algorithm arrives with a density that panics wherever it is evaluated (`memory_arrives_refuted`),
    and the one of lazy budgeting for balanced load optimisation without its hitting costs (`sblo_memory_arrives_refuted`).
50. **Large bounds overflow** (C96): the one-dimensional graph search computes `e * bound / 4` for e up to 4, so that all bounds above
    2^28 panic in builds with overflow checks (`search_1d_large_bounds_refuted`); without them, it reports success for schedules that
    are far from optimal (`search_1d_wrapping_refuted`, 2^30 servers). The grid of the approximate search is converted with
    saturation, so that its loop does not end if the bound is the largest integer (`approx_search_largest_bound_refuted`).

## Testing the theorems

`seeded/LOG.jsonl` lists edits of the model (realistic bugs) made in a scratch copy, the theorems that no longer prove, and the
theorems that were tightened because an edit had gone unnoticed.
