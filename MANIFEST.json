{
 "claims": [
  {
   "property": "C01",
   "status": "proved",
   "theorems": [
    "search_1d_optimal",
    "search_1d_rejects",
    "search_1d_infinite_capacity_refuted"
   ],
   "note": "Requires a finite cost at full capacity; without it the search may panic (refuted theorem)."
  },
  {
   "property": "C02",
   "status": "proved",
   "theorems": [
    "search_1d_reports_objective"
   ],
   "note": "If every candidate schedule has infinite cost the result is an empty path of infinite cost."
  },
  {
   "property": "C03",
   "status": "proved",
   "theorems": [
    "search_1d_optimal_padded",
    "padding_keeps_costs"
   ],
   "note": ""
  },
  {
   "property": "C04",
   "status": "partial",
   "theorems": [
    "search_nd_optimal_partial",
    "search_nd_inverted_refuted",
    "search_nd_zero_bound_refuted",
    "search_nd_infinite_capacity_refuted"
   ],
   "note": "For the non-inverted objective. With inverted costs the code still minimises and reports the non-inverted objective (refuted theorem). It panics when a later dimension has bound 0 or full capacity has infinite cost (refuted theorems)."
  },
  {
   "property": "C05",
   "status": "partial",
   "theorems": [
    "search_nd_grid_optimal_partial",
    "schedule_cost_is_objective"
   ],
   "note": "The reported cost is the non-inverted objective also for inverted searches, see C04."
  },
  {
   "property": "C06",
   "status": "proved",
   "theorems": [
    "search_nd_resume",
    "search_nd_grid_resume",
    "approx_search_resume",
    "resumed_search_skips_cached_slots"
   ],
   "note": ""
  },
  {
   "property": "C07",
   "status": "proved",
   "theorems": [
    "predecessor_is_first_least",
    "search_nd_independent_of_schedule"
   ],
   "note": ""
  },
  {
   "property": "C08",
   "status": "proved",
   "theorems": [
    "objective_independent_of_schedule",
    "movement_independent_of_schedule"
   ],
   "note": ""
  },
  {
   "property": "C09",
   "status": "proved",
   "theorems": [
    "objective_is_textbook_formula",
    "public_objective_functions",
    "objective_of_any_schedule",
    "movement_directions_differ_by_endpoints",
    "sco_inverted_refused"
   ],
   "note": ""
  },
  {
   "property": "C10",
   "status": "proved",
   "theorems": [
    "approx_values",
    "approx_search_optimal_on_grid",
    "approx_values_gamma_1_refuted"
   ],
   "note": "gamma <= 1 does not terminate (refuted theorem for gamma = 1)."
  },
  {
   "property": "C11",
   "status": "partial",
   "theorems": [
    "static_optimal_partial",
    "static_optimal_separable",
    "static_rejects",
    "static_alpha_refuted",
    "static_convex_refuted",
    "static_infeasible_refuted"
   ],
   "note": "Optimal when costs are unimodal along every nested search (in particular convex in one dimension, or separable); the code ignores alpha and stops too early for general convex costs in two or more dimensions, and answers the zero configuration when nothing is feasible (all refuted)."
  },
  {
   "property": "C12",
   "status": "proved",
   "theorems": [
    "into_sco_keeps_objective"
   ],
   "note": "For alpha = 1; with another alpha the converted problem scales the factor 1/2 movement too."
  },
  {
   "property": "C13",
   "status": "partial",
   "theorems": [
    "into_sblo_keeps_hitting_cost",
    "slo_cost_finite_iff_covered",
    "into_sblo_keeps_movement",
    "into_sblo_rounded_refuted"
   ],
   "note": "Exact distributions: full equivalence. The code rounds fractions to hundredths; into_sblo_rounded_refuted shows that tight loads then have no feasible assignment."
  },
  {
   "property": "C14",
   "status": "proved",
   "theorems": [
    "relaxation_on_integers",
    "relaxation_is_piecewise_linear",
    "relaxation_infinite",
    "relaxation_between_neighbours",
    "relaxation_is_convex",
    "relaxation_one_dimensional",
    "relax_then_discretise",
    "relax_then_discretise_fields",
    "relaxation_keeps_total_cost",
    "discretisation_keeps_total_cost"
   ],
   "note": "Total costs also for fractional problems of any dimension and their discretisation."
  },
  {
   "property": "C15",
   "status": "proved",
   "theorems": [
    "to_i_is_least_above",
    "floor_is_greatest_below",
    "rounding_keeps_bounds",
    "to_i_keeps_feasibility",
    "to_then_to_i"
   ],
   "note": ""
  },
  {
   "property": "C16",
   "status": "proved",
   "theorems": [
    "reset_shifts_costs",
    "reset_requires_certainty",
    "nested_resets",
    "objective_splits_at_reset"
   ],
   "note": "The shifted cost function must be certain; the code panics otherwise (reset_requires_certainty)."
  },
  {
   "property": "C17",
   "status": "proved",
   "theorems": [
    "registrations_determine_answer",
    "cost_function_uses_latest",
    "cost_function_without_registration",
    "later_information_keeps_earlier_costs"
   ],
   "note": ""
  },
  {
   "property": "C18",
   "status": "proved",
   "theorems": [
    "certain_cost_iff_single_sample",
    "mean_cost_is_average",
    "hit_cost_inside",
    "hit_cost_outside",
    "hit_cost_wrong_dimension",
    "sco_hit_cost_inside",
    "sco_hit_cost_outside",
    "scalar_decision_space"
   ],
   "note": ""
  },
  {
   "property": "C19",
   "status": "proved",
   "theorems": [
    "from_raw_reads_flattened",
    "from_raw_inverts",
    "from_raw_rejects",
    "build_raw_repeats"
   ],
   "note": ""
  },
  {
   "property": "C20",
   "status": "proved",
   "theorems": [
    "index_encoding_bijective"
   ],
   "note": ""
  },
  {
   "property": "C21",
   "status": "partial",
   "theorems": [
    "verify_sco_exact",
    "verify_ssco_exact",
    "verify_sblo_exact",
    "verify_slo_exact_partial",
    "verify_online_exact",
    "verify_slo_short_hitting_cost_refuted",
    "verify_slo_long_hitting_cost_refuted",
    "verify_sco_empty_bounds_refuted"
   ],
   "note": "Exact for SCO, SSCO, SBLO, online. For SLO only with one hitting cost per dimension: the code does not check the length and panics otherwise."
  },
  {
   "property": "C22",
   "status": "partial",
   "theorems": [
    "verify_schedule_exact_partial",
    "verify_schedule_accepted",
    "verify_schedule_short_config_refuted",
    "verify_schedule_long_config_refuted"
   ],
   "note": "Exact for configurations of the right dimension, which the code does not check."
  },
  {
   "property": "C23",
   "status": "proved",
   "theorems": [
    "lcp_step_lazy",
    "lcp_step_rejects",
    "lcp_runs_lazily",
    "lcp_run_bounds"
   ],
   "note": ""
  },
  {
   "property": "C24",
   "status": "proved",
   "theorems": [
    "lcp_restart_point",
    "lcp_restart_sound",
    "lcp_run_bounds",
    "fractional_restart_refuted"
   ],
   "note": "Soundness for integral instances; in the fractional variant the restarted objective keeps the full horizon (refuted theorem)."
  },
  {
   "property": "C25",
   "status": "proved",
   "theorems": [
    "lcp_bounds_on_optima",
    "lcp_bounds_ordered",
    "lcp_run_bounds",
    "fractional_window_refuted"
   ],
   "note": "Integral instances with any prediction window. The fractional variant does not optimise over the predicted slots (refuted theorem)."
  },
  {
   "property": "C26",
   "status": "proved",
   "theorems": [
    "brcp_backward_lazy",
    "brcp_optimal",
    "brcp_rejects"
   ],
   "note": "Optimality assumes the convex optimiser answers exactly."
  },
  {
   "property": "C27",
   "status": "partial",
   "theorems": [
    "slo_lb_serves_load_partial",
    "slo_lb_window",
    "finite_cost_covers_load",
    "slo_lb_free_servers_refuted"
   ],
   "note": "For instances with positive operating costs; the numerical solver is assumed to report the value of the objective at its answer and to give a finite cost at full capacity. With an operating cost of 0 the run panics (refuted theorem)."
  },
  {
   "property": "C28",
   "status": "proved",
   "theorems": [
    "lanes_round_trip",
    "lanes_of_configuration",
    "lanes_ordered"
   ],
   "note": ""
  },
  {
   "property": "C29",
   "status": "partial",
   "theorems": [
    "slo_lb_lazy_partial",
    "slo_lb_keeps_until_horizon_partial"
   ],
   "note": "Same assumptions as C27."
  },
  {
   "property": "C30",
   "status": "proved",
   "theorems": [
    "algb_above_optimum"
   ],
   "note": "Streaming algorithm B over any evaluable SBLO instance succeeds, stays within the bounds and is at every slot and dimension at least the last configuration of an optimal schedule of the prefix. The numerical solver is an extensional oracle."
  },
  {
   "property": "C31",
   "status": "proved",
   "theorems": [
    "algb_lazy",
    "algb_powers_down",
    "powered_down_once"
   ],
   "note": "Active servers are those powered up whose idle costs since then do not exceed the switching cost; servers powered down at a slot are exactly those whose idle costs exceed it for the first time; at most once."
  },
  {
   "property": "C32",
   "status": "proved",
   "theorems": [
    "sblo_lb_sub_slots",
    "sub_slot_numbers",
    "sub_slot_costs",
    "sub_slot_number",
    "sub_slot_number_positive",
    "sblo_lb_window"
   ],
   "note": "Whole runs of lazy budgeting for SBLO: sub-slot numbering, even shares summing to the slot's cost, first sub-slot of least hitting cost, number of sub-slots. Servers without idle cost panic (sblo_lb_free_servers_refuted)."
  },
  {
   "property": "C33",
   "status": "proved",
   "theorems": [
    "randomized_neighbour",
    "randomized_feasible"
   ],
   "note": "The relaxation is any step function; samples are arbitrary."
  },
  {
   "property": "C34",
   "status": "partial",
   "theorems": [
    "randomized_unbiased_partial",
    "randomized_trajectory_partial",
    "randomized_probability",
    "randomized_distribution",
    "randomized_biased_refuted"
   ],
   "note": "Holds for steps that rise, end at an integer or stay below the next integer. For all other steps the code always rounds down (division by frac = 0), proved in general as randomized_biased_refuted."
  },
  {
   "property": "C35",
   "status": "proved",
   "theorems": [
    "next_appends_one",
    "next_rejects_out_of_step",
    "stream_extends_schedule",
    "offline_stream_terminates",
    "offline_stream_complete",
    "offline_stream_succeeds"
   ],
   "note": ""
  },
  {
   "property": "C36",
   "status": "proved",
   "theorems": [
    "stream_resume"
   ],
   "note": "Stated for streaming against a known horizon; the step between the two runs is the update of the problem (verified as in the code)."
  },
  {
   "property": "C37",
   "status": "proved",
   "theorems": [
    "server_answers_every_request",
    "server_answer_reports_cost",
    "server_step",
    "server_sequential",
    "server_stops"
   ],
   "note": "Requests are modelled after decoding (TCP and JSON are not modelled)."
  },
  {
   "property": "C38",
   "status": "partial",
   "theorems": [
    "prepare_schedule_partial",
    "prepared_in_step_partial",
    "prepare_covers_refuted",
    "first_request_refuted"
   ],
   "note": "The code subtracts the window twice: the prepared schedule covers max(1,T-2w) instead of T-w slots, and if 1 <= T <= w every first request fails; both disagreements are proved in general. The announced behaviour holds for w = 0."
  },
  {
   "property": "C39",
   "status": "partial",
   "theorems": [
    "single_job_type_load_conserved_partial",
    "assigned_load_of_job_type",
    "load_conservation_refuted"
   ],
   "note": "Holds for one job type; for several job types the code assigns only l_i^2/total (proved exactly, and refuted)."
  },
  {
   "property": "C40",
   "status": "partial",
   "theorems": [
    "sampled_profiles_partial",
    "sampling_equal_sizes",
    "sampling_different_sizes_refuted",
    "predicted_loads_refuted",
    "certain_load_as_prediction_refuted",
    "predicted_loads_apply_to_their_slots"
   ],
   "note": "The code samples per job type instead of per profile: what it does is proved, the property itself is refuted."
  },
  {
   "property": "C41",
   "status": "partial",
   "theorems": [
    "piecewise_tiles_partial",
    "piecewise_exact_partial",
    "piecewise_few_breakpoints",
    "piecewise_outside_breakpoints",
    "piecewise_terminates",
    "grid_breakpoints",
    "add_breakpoints",
    "piecewise_cut_off_refuted",
    "half_grid_stuck_refuted",
    "infinite_interval_refuted"
   ],
   "note": "The pieces are contiguous, do not overlap and lie in the interval; they cover it unless ten pieces on one side were smaller than the precision, where the code stops whatever is left (refuted as stated: PiecewiseExamples.piecewise_cut_off_refuted). Exact without restriction for fewer than ten breakpoints inside the interval."
  },
  {
   "property": "C42",
   "status": "partial",
   "theorems": [
    "quotas_cost_partial",
    "linear_energy_cost",
    "quotas_cost_refuted",
    "quotas_infinite_demand_refuted"
   ],
   "note": "Order of the sources and amounts drawn proved. The documented cost is refuted: the code adds the energy drawn to the unit cost instead of multiplying (energy_cost.rs:158); an infinite demand has finite cost."
  },
  {
   "property": "C43",
   "status": "proved",
   "theorems": [
    "average_delay_exact",
    "average_delay_monotone"
   ],
   "note": "Exact rationals."
  },
  {
   "property": "C44",
   "status": "proved",
   "theorems": [
    "linear_consumption_interpolates",
    "simplified_consumption_is_linear",
    "nonlinear_consumption_monotone",
    "revenue_loss_linear",
    "revenue_loss_monotone"
   ],
   "note": "powf is an oracle."
  },
  {
   "property": "C45",
   "status": "proved",
   "theorems": [
    "from_normalized_round_trip",
    "switching_cost_components",
    "normalized_cost_breaks_even",
    "normalized_costs_break_even"
   ],
   "note": ""
  },
  {
   "property": "C46",
   "status": "partial",
   "theorems": [
    "data_center_outputs_over_time",
    "data_center_merge_associative",
    "combining_is_associative",
    "data_center_samples_partial",
    "samples_mean_refuted"
   ],
   "note": "Combination over time proved; samples are averaged pairwise, so for three or more samples the result is not the mean."
  },
  {
   "property": "C47",
   "status": "partial",
   "theorems": [
    "bounds_defined",
    "generated_ssco_partial",
    "generated_ssco_costs",
    "generated_sblo",
    "generated_sblo_costs",
    "generated_sco",
    "single_server_cost",
    "generated_slo",
    "average_cost_partial",
    "two_locations_refuted",
    "average_slots_refuted"
   ],
   "note": "Accepted exactly for one location; with more, switching costs have the wrong dimension and verification fails. SLO costs average the slots 0..T-1."
  },
  {
   "property": "C48",
   "status": "partial",
   "theorems": [
    "rhc_optimal_plan_partial",
    "rhc_current_slot",
    "afhc_average_partial",
    "rhc_window_refuted"
   ],
   "note": "RHC and AFHC are proved to use optimal plans (exact optimiser) for the slots up to the end of the instance they receive, from the previous / remembered configurations; the averaging, memory and bounds are proved in full. The window t..t+w of the statement is refuted: online instances end in slot t, so RHC only optimises the current slot. The optimiser is any one that is exact among the configurations satisfying a predicate P, with constraints violated by at most a tolerance; C82 instantiates it with NLopt as this library calls it (P: multiples of 0.01, tolerance 0.001)."
  },
  {
   "property": "C49",
   "status": "proved",
   "theorems": [
    "updates_append_slots",
    "updates_keep_earlier_costs",
    "updates_keep_earlier_objective",
    "update_requires_window",
    "update_sco_appends",
    "update_slo_appends",
    "update_slo_keeps_earlier_costs",
    "update_sblo_keeps_earlier_costs",
    "update_advances"
   ],
   "note": ""
  },
  {
   "property": "C50",
   "status": "proved",
   "theorems": [
    "lcp_three_competitive"
   ],
   "note": ""
  },
  {
   "property": "C51",
   "status": "proved",
   "theorems": [
    "hitting_cost_matches_assignment",
    "wrong_number_of_job_types",
    "loads_apply_to_their_slots"
   ],
   "note": "Solver is an oracle."
  },
  {
   "property": "C52",
   "status": "proved",
   "theorems": [
    "into_ssco_keeps_objective"
   ],
   "note": "Solver is an oracle."
  },
  {
   "property": "C53",
   "status": "proved",
   "theorems": [
    "objective_finite_iff_supported"
   ],
   "note": "For the linear energy-cost model with positive prices and any consumption model."
  },
  {
   "property": "C54",
   "status": "proved",
   "theorems": [
    "co_optimal",
    "co_inverted"
   ],
   "note": "Relative to an exact constrained optimiser (NLopt is an oracle). The optimiser is any one that is exact among the configurations satisfying a predicate P, with constraints violated by at most a tolerance; C82 instantiates it with NLopt as this library calls it (P: multiples of 0.01, tolerance 0.001)."
  },
  {
   "property": "C55",
   "status": "proved",
   "theorems": [
    "minimize_best_on_grid",
    "minimize_near_bounds",
    "minimize_reports",
    "minimize_failure_panics",
    "minimize_bounds_refuted"
   ],
   "note": "Optimality relative to an ideal optimiser (exact_nlopt, shown to be satisfiable by a grid search); bounds that are not multiples of 0.01 can be left by up to 0.005."
  },
  {
   "property": "C56",
   "status": "partial",
   "theorems": [
    "find_root_interval",
    "find_root_partial",
    "find_root_refuted"
   ],
   "note": "The accepted absolute error at the ends is 10, so the answer need not be near a root."
  },
  {
   "property": "C57",
   "status": "proved",
   "theorems": [
    "obd_projects",
    "obd_euclidean",
    "negative_entropy_value",
    "negative_entropy_initial_refuted"
   ],
   "note": "On the 0.01 grid, relative to an ideal optimiser; level sets up to its tolerance 0.001. The square root may have an error delta. With negative entropy no step can be taken from the initial configuration."
  },
  {
   "property": "C58",
   "status": "partial",
   "theorems": [
    "pobd_step_partial",
    "pobd_balance_refuted"
   ],
   "note": "The level only balances up to the error 10 accepted by root finding."
  },
  {
   "property": "C59",
   "status": "proved",
   "theorems": [
    "gobd_mean"
   ],
   "note": ""
  },
  {
   "property": "C60",
   "status": "proved",
   "theorems": [
    "robd_minimizes"
   ],
   "note": "The second regulariser (distance to the minimiser) never has a positive weight."
  },
  {
   "property": "C61",
   "status": "partial",
   "theorems": [
    "ogd_step_partial",
    "ogd_boundary_refuted"
   ],
   "note": "Only if the previous configuration is inside the bounds by the step of finite differences: at the bounds the gradient is infinite."
  },
  {
   "property": "C62",
   "status": "proved",
   "theorems": [
    "memoryless_balances"
   ],
   "note": ""
  },
  {
   "property": "C63",
   "status": "partial",
   "theorems": [
    "rbg_minimizes",
    "rbg_bias_refuted"
   ],
   "note": "For the bias given as memory; the code returns no memory, so the bias is drawn anew in every slot."
  },
  {
   "property": "C64",
   "status": "proved",
   "theorems": [
    "static_fractional_optimal",
    "static_fractional_rejects"
   ],
   "note": ""
  },
  {
   "property": "C65",
   "status": "proved",
   "theorems": [
    "answers_within_bounds",
    "memoryless_within_bounds",
    "windows_rejected"
   ],
   "note": ""
  },
  {
   "property": "C66",
   "status": "proved",
   "theorems": [
    "dobd_step"
   ],
   "note": ""
  },
  {
   "property": "C67",
   "status": "proved",
   "theorems": [
    "probabilistic_starts",
    "probabilistic_step",
    "probabilistic_mean",
    "probabilistic_minimizer"
   ],
   "note": "The external optimiser and Brent's method keep to the bounds they are given; the upper bound is a multiple of 0.01."
  },
  {
   "property": "C68",
   "status": "partial",
   "theorems": [
    "probabilistic_nonnegative_partial",
    "probabilistic_right_bound_partial",
    "probabilistic_left_bound_refuted",
    "probabilistic_mass_refuted"
   ],
   "note": "Densities stay non-negative and the right end balances up to the error of root finding. The left end does not (wrong sign of the derivative), so the mass is not 1."
  },
  {
   "property": "C69",
   "status": "proved",
   "theorems": [
    "approx_search_ratio",
    "approx_search_scheme",
    "approx_values_few",
    "load_costs_covered",
    "approx_search_ratio_refuted"
   ],
   "note": "approx_search_ratio_refuted: without the growth condition no ratio holds, even for convex costs."
  },
  {
   "property": "C70",
   "status": "partial",
   "theorems": [
    "integral_bounded",
    "integral_to_infinity",
    "integral_from_minus_infinity",
    "integral_whole_line_partial",
    "integral_whole_line_too_small",
    "integral_whole_line_refuted",
    "piecewise_error_adds_up",
    "integral_determined"
   ],
   "note": "Holds for bounded intervals and half lines. Over the whole line the weights of the Gauss-Hermite rule are not undone, so the answer is the integral of f(x) exp(-x^2) instead (integral_whole_line_refuted). integral_determined: the specification of the integral is unambiguous."
  },
  {
   "property": "C71",
   "status": "proved",
   "theorems": [
    "derivative_answers"
   ],
   "note": "second_derivative_step_refuted: the step of the second derivative is TOLERANCE^(-1/4) > 5, so the answer is not local."
  },
  {
   "property": "C72",
   "status": "partial",
   "theorems": [
    "offline_ssco_optimal_partial",
    "offline_ssco_answers",
    "offline_rejects",
    "offline_sblo_optimal_partial",
    "offline_sblo_answers",
    "offline_slo_optimal_partial",
    "offline_slo_answers",
    "offline_slo_single_type",
    "offline_ssco_approximate",
    "offline_ssco_default",
    "offline_sblo_default",
    "offline_slo_default",
    "offline_sblo_approximate",
    "offline_slo_approximate",
    "offline_sblo_rejects",
    "offline_slo_rejects",
    "offline_options_meaning",
    "offline_load_ops_lawful",
    "offline_static_sblo",
    "offline_static_slo",
    "offline_static_slo_single",
    "offline_static_rejects",
    "offline_static_options",
    "offline_no_slots_refuted",
    "offline_slo_answers_refuted",
    "offline_slo_optimal_refuted",
    "offline_search_1d_optimal",
    "offline_brcp_optimal"
   ],
   "note": "An answer is given exactly if the instance has a slot and full capacity has a finite cost in every slot; otherwise solving panics. For SLO the schedule is the cheapest among those for which the numerical solver finds an assignment of the load; as fractions are rounded to hundredths, cheaper schedules can be missed (offline_slo_optimal_refuted) or no answer be given (offline_slo_answers_refuted). Missing: inverted movement (C04)."
  },
  {
   "property": "C73",
   "status": "proved",
   "theorems": [
    "manhattan_is_norm",
    "manhattan_scaled_is_norm",
    "euclidean_is_norm"
   ],
   "note": "Over exact rationals. The square root is any function within e of the exact root; the laws of the Euclidean norm hold up to multiples of e."
  },
  {
   "property": "C74",
   "status": "partial",
   "theorems": [
    "dual_norm_largest",
    "dual_of_manhattan",
    "dual_of_euclidean",
    "dual_norm_infinite"
   ],
   "note": "For an ideal optimiser that respects the rounding to hundredths and the tolerance of constraints of the code. dual_of_manhattan is exact; dual_of_euclidean is within the rounding and the tolerance. Missing: real optimisers, which are only nearly optimal."
  },
  {
   "property": "C75",
   "status": "proved",
   "theorems": [
    "mahalanobis_value",
    "mahalanobis_norm_refuted",
    "mahalanobis_staying_refuted"
   ],
   "note": "As a norm it does not qualify: it is the square of a distance, and measured from the mean (mahalanobis_norm_refuted, mahalanobis_staying_refuted)."
  },
  {
   "property": "C76",
   "status": "proved",
   "theorems": [
    "memoryless_three_competitive",
    "memoryless_five_competitive",
    "memoryless_ratio_three_refuted"
   ],
   "note": "For an exact optimiser on the grid of hundredths (exact_nlopt). For the objective of the problem the factor of three of the literature is not reached, since the constraint of the code uses the full switching cost where half of it is paid per unit of movement (memoryless_ratio_three_refuted)."
  },
  {
   "property": "C77",
   "status": "proved",
   "theorems": [
    "algb_competitive",
    "sblo_lb_competitive",
    "sub_slots_same_cost",
    "additional_servers"
   ],
   "note": "The ratio is that of the literature. Load assignments are assumed to be best among those in hundredths (assigns_best), for the instance and for that of its sub-slots; the numbers of sub-slots must be positive, which fails for servers without idle cost (sblo_lb_free_servers_refuted)."
  },
  {
   "property": "C78",
   "status": "proved",
   "theorems": [
    "rhc_competitive",
    "rhc_stream_competitive",
    "afhc_stream_competitive",
    "rhc_window_ratio_refuted",
    "afhc_window_ratio_refuted"
   ],
   "note": "For optimisers that are exact on the problems of the run. The literature's ratio 1+c/(w+1), which improves with the prediction window, fails for both algorithms when streamed, because they are given instances that end in the current slot (rhc_window_ratio_refuted, afhc_window_ratio_refuted). The optimiser is any one that is exact among the configurations satisfying a predicate P, with constraints violated by at most a tolerance; C82 instantiates it with NLopt as this library calls it (P: multiples of 0.01, tolerance 0.001)."
  },
  {
   "property": "C79",
   "status": "partial",
   "theorems": [
    "slo_lb_competitive_partial"
   ],
   "note": "For one type of servers (d = 1), where the factor is 2; the factor 2d for several types is not proved. For every schedule whose objective function is evaluated by the SLO problem itself; assumes that evaluating the converted hitting costs succeeds."
  },
  {
   "property": "C80",
   "status": "partial",
   "theorems": [
    "randomized_rounds_answers",
    "randomized_schedules",
    "randomized_expected_cost_partial",
    "randomized_cost_refuted"
   ],
   "note": "Proved for trajectories whose steps either rise, or end in an integer, or stay below the next integer. For all other steps the code always rounds down (see C34); then the expected cost may exceed every multiple of the fractional cost (randomized_cost_refuted)."
  },
  {
   "property": "C81",
   "status": "partial",
   "theorems": [
    "one_type_cost_partial",
    "single_load_counted",
    "one_type_convex",
    "one_type_convex_fractional",
    "consumption_models_convex",
    "one_type_search_optimal",
    "one_type_brcp_optimal",
    "one_type_lcp_competitive",
    "one_type_capacity_refuted"
   ],
   "note": "Complete for one source and one job type (single_load_counted). With several, the costs are those of only a part of the loads (finding 2), so overloaded servers may be reported as feasible (one_type_capacity_refuted); convexity, optimality and the ratio hold for the costs so computed. The optimiser is assumed to evaluate the objective of problems without variables (trivial_exact), and to be exact for backward-recurrent capacity provisioning."
  },
  {
   "property": "C82",
   "status": "proved",
   "theorems": [
    "window_optimiser_solves",
    "offline_fractional_best",
    "offline_static_fractional_best",
    "rhc_nlopt_competitive",
    "afhc_nlopt_competitive",
    "offline_optima_ordered",
    "one_type_optima_ordered",
    "offline_fractional_optimal_refuted"
   ],
   "note": "NLopt is an oracle assumed exact (exact_nlopt, met by the exhaustive search brute of OptimizeBrute.v). Optimality among all fractional schedules, rather than those of hundredths, is refuted (offline_fractional_optimal_refuted). The static integral algorithm is compared through whatever it answers; when it is optimal is C11."
  },
  {
   "property": "C83",
   "status": "partial",
   "theorems": [
    "updates_describe_the_day",
    "session_follows_the_day",
    "lcp_is_causal",
    "live_lcp_competitive",
    "session_with_window_refuted",
    "session_with_several_loads_refuted"
   ],
   "note": "Proved without a prediction window and with one load per slot (one source and one job type). With a prediction window, or with several sources or job types, load profiles handed over as DataCenterOfflineInput::into_online does are refused: the first request fails (session_with_window_refuted, session_with_several_loads_refuted). The minimiser needs to be right only about problems without variables (trivial_exact)."
  },
  {
   "property": "C84",
   "status": "partial",
   "theorems": [
    "offline_brcp_best_on_grid",
    "one_type_brcp_best_on_grid",
    "fractional_lcp_answers",
    "fractional_lcp_competitive_partial",
    "restarted_bounds_charge_the_way_back",
    "fractional_lcp_unbounded_refuted"
   ],
   "note": "Backward-recurrent capacity provisioning is proved in full. Lazy capacity provisioning is proved as long as it does not restart, i.e. does not suspect an optimum to pass through the bounds of an earlier slot. After a restart the bounds optimise the cost of the remaining slots plus the way back to the configuration of the restart (restarted_bounds_charge_the_way_back), and no ratio holds: on a valid instance the schedule alternates between 0 and 1 for ever although staying at 0 costs 11 in total (fractional_lcp_unbounded_refuted, for every exact optimiser)."
  },
  {
   "property": "C85",
   "status": "partial",
   "theorems": [
    "start_within_bounds",
    "start_spares_inactive_types_partial",
    "start_spreads_evenly",
    "sblo_cost_at_most_even_spread",
    "start_with_inactive_last_type",
    "sblo_start_panics_refuted",
    "sblo_start_infinite_refuted",
    "start_of_two_job_types_refuted"
   ],
   "note": "Proved for all server types but the last one, and for the last one if all job types have the same load and the even part is a multiple of 0.01. Otherwise the rounding of fractions lets the last, inactive server type get a remainder: the start then has infinite cost (three of four types active), or evaluating it panics (six of seven types active), although the configuration covers the load; see finding 41."
  },
  {
   "property": "C86",
   "status": "partial",
   "theorems": [
    "cheapest_division_partial",
    "joint_optimum_partial",
    "joint_optimum_two_types_partial",
    "balancing_timeout_refuted"
   ],
   "note": "The theorems also give the reported energy costs, revenue loss and shares. Shares are in hundredths, as stored by the code, and the optimiser is assumed to find the best of them; for more than two types also that it evaluates its objective only where the constraints hold (elsewhere the code panics, see C85). If the optimiser reaches a limit on evaluations or time at a division with finite cost, load balancing panics (`balancing_timeout_refuted`). Several locations are excluded because the verifier rejects the instances (their switching costs have the wrong length), several job types because loads are not conserved (C39)."
  },
  {
   "property": "C87",
   "status": "proved",
   "theorems": [
    "lcp_unforeseeing",
    "fractional_lcp_unforeseeing",
    "memoryless_unforeseeing",
    "probabilistic_unforeseeing",
    "randomized_unforeseeing",
    "randomized_greedy_unforeseeing",
    "descent_unforeseeing",
    "rbg_unforeseeing",
    "rhc_unforeseeing",
    "afhc_unforeseeing",
    "slo_lazy_budgeting_unforeseeing",
    "sblo_lazy_budgeting_unforeseeing"
   ],
   "note": "The numerical libraries are oracles which use nothing of a function but its values and answer alike when called alike (limits on time could break this). The random numbers drawn in slot t are the same in both runs. If an algorithm fails in one of the slots, it fails in the same slot for both instances."
  },
  {
   "property": "C88",
   "status": "partial",
   "theorems": [
    "sco_updates_charge_early",
    "sco_session_charges_early",
    "sco_session_reports_the_cost_refuted",
    "sco_session_follows_the_day_refuted"
   ],
   "note": "The claim is false of the code: the SCO instance charges half of the costs of switching in the slot that was the last one when the session started, and updates do not move this charge. Proved is the exact relation: the reported cost plus half of the switching costs of the servers running now is the cost of the schedule for the loads so far plus half of the switching costs of the servers running in that slot. With regularised online balanced descent, the reported cost can be too low, and the servers are powered down in that slot although they would be kept running if the day were known."
  },
  {
   "property": "C89",
   "status": "partial",
   "theorems": [
    "live_sblo_instance",
    "live_slo_instance_partial",
    "live_slo_serves_partial",
    "live_slo_competitive_partial",
    "live_slo_randomized_competitive_partial",
    "live_sblo_competitive",
    "live_slo_competitive_refuted"
   ],
   "note": "Proved in full for balanced-load optimisation. For load optimisation with constant costs the claims are false with respect to the instance of all loads: operating costs stay those averaged over the slots known at the start. The partial theorems hold with respect to these costs; the ratios (2, and e/(e-1) in expectation for the randomised algorithm) are proved for one type of servers."
  },
  {
   "property": "C90",
   "status": "proved",
   "theorems": [
    "slo_lb_randomized_competitive"
   ],
   "note": "Stated for one type of servers and real arithmetic of sample_gamma; the floating-point number kept in the memory enters only through the whole numbers of slots it stands for (`draws`). Uses the standard library's axioms for real numbers."
  },
  {
   "property": "C91",
   "status": "partial",
   "theorems": [
    "concurrent_calls_are_sequential",
    "concurrent_calls_return",
    "concurrent_calls_answered",
    "start_listens_refuted",
    "server_survives_death_refuted",
    "server_unblocked_refuted"
   ],
   "note": "Order and termination are proved for all interleavings and deaths; answers once the server listens, for every result received before anybody stops the server or dies. The rest is false of the code: start returns before the server listens, a caller that dies can end the server for everybody, and a silent caller blocks the others (finding 45)."
  },
  {
   "property": "C92",
   "status": "proved",
   "theorems": [
    "binary64_is_nearest",
    "binary64_rounds",
    "float_objective_accurate",
    "float_search_nd_optimal",
    "float_search_nd_grid_optimal",
    "rounding_factors",
    "float_search_independent_of_schedule",
    "float_search_resume",
    "float_search_without_rounding",
    "float_objective_without_rounding",
    "float_objective_integers",
    "float_search_nd_integers",
    "float_objective_independent_of_division_refuted",
    "float_search_exactly_optimal_refuted"
   ],
   "note": "Costs are numbers of the format whose products with alpha do not underflow; sums do not overflow. What is lost by rounding is stated by the two refuted theorems: the objective function depends on the division of work (finding 46), and the schedule found need not be exactly optimal."
  },
  {
   "property": "C93",
   "status": "partial",
   "theorems": [
    "float_search_1d_accurate",
    "float_search_1d_near_optimal_partial",
    "float_search_1d_without_rounding",
    "float_search_1d_near_optimal_refuted"
   ],
   "note": "Feasibility and the accuracy of the report hold for all bounds; near-optimality holds among all schedules for the bounds 1, 2 and 4, and among schedules on quarters of the bound otherwise. It fails for the bound 8, whatever the factor (finding 47). With integral costs and sums up to 2^53 the result is optimal."
  },
  {
   "property": "C94",
   "status": "partial",
   "theorems": [
    "rbg_cache_unnoticed",
    "rbg_cache_unnoticed_concurrently_partial",
    "rbg_cache_calls_return",
    "rbg_cache_unnoticed_concurrently_refuted"
   ],
   "note": "Proved for calls one after the other, and for interleaved calls whose instances agree. For sessions of different instances in one process it is false: the key of the cache names only the slot and the point (finding 48)."
  },
  {
   "property": "C95",
   "status": "partial",
   "theorems": [
    "requests_arrive",
    "incomplete_requests_recognised",
    "requests_prefix_free",
    "responses_arrive",
    "response_parts_arrive",
    "results_arrive",
    "errors_arrive",
    "budgeting_memories_arrive",
    "maps_arrive",
    "reading_panics_only_for_nan_partial",
    "requests_read_orderly_refuted",
    "memory_arrives_refuted",
    "sblo_memory_arrives_refuted"
   ],
   "note": "Proved for requests and responses. False in two respects: bytes that hold a NaN make the server panic while reading (finding 49), and the memories of the probabilistic algorithm and of lazy budgeting for balanced load optimisation arrive without their density and hitting costs."
  },
  {
   "property": "C96",
   "status": "partial",
   "theorems": [
    "search_1d_within_i32_partial",
    "search_1d_machine_optimal_partial",
    "search_1d_large_bounds_refuted",
    "search_1d_wrapping_refuted",
    "approx_search_within_i32_partial",
    "approx_search_largest_bound_refuted"
   ],
   "note": "Proved for bounds of up to 2^28 (one-dimensional) and below 2^31 - 1 (approximate search); false beyond (finding 50). Integers of the other algorithms are unbounded in their models."
  }
 ]
}