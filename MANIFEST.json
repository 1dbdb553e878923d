{
 "claims": [
  {
   "property": "C01",
   "status": "proved",
   "theorems": [
    "C01_recombination"
   ],
   "note": "all seven operators, any gene type, any draws"
  },
  {
   "property": "C02",
   "status": "proved",
   "theorems": [
    "C02_segment_structure"
   ],
   "note": ""
  },
  {
   "property": "C03",
   "status": "proved",
   "theorems": [
    "C03_multipoint_alternates_refuted",
    "C03_multipoint_actual",
    "C03_multipoint_alternates_iff_first_cut_odd"
   ],
   "note": "the documented alternation is refuted for even first cuts, and the exact rule is proved"
  },
  {
   "property": "C04",
   "status": "proved",
   "theorems": [
    "C04_ordered_permutation"
   ],
   "note": ""
  },
  {
   "property": "C05",
   "status": "proved",
   "theorems": [
    "C05_pmx_permutation"
   ],
   "note": ""
  },
  {
   "property": "C06",
   "status": "proved",
   "theorems": [
    "C06_pmx_returns_or_panics_refuted"
   ],
   "note": "the expected-to-fail claim is refuted: parents for which no amount of fuel suffices"
  },
  {
   "property": "C07",
   "status": "proved",
   "theorems": [
    "C07_ppx_precedence"
   ],
   "note": ""
  },
  {
   "property": "C08",
   "status": "proved",
   "theorems": [
    "C08_apply_pairs_consecutively",
    "C08_children_fitness"
   ],
   "note": ""
  },
  {
   "property": "C09",
   "status": "proved",
   "theorems": [
    "C09_uniform_masks_vary_refuted",
    "C09_uniform_parameterized_state_refuted",
    "C09_bias_one_copies"
   ],
   "note": "the expected independence is refuted; what the code does is proved"
  },
  {
   "property": "C10",
   "status": "proved",
   "theorems": [
    "C10_permuting_mutations",
    "C10_mutation_keeps_fitness"
   ],
   "note": ""
  },
  {
   "property": "C11",
   "status": "proved",
   "theorems": [
    "C11_flipbit"
   ],
   "note": ""
  },
  {
   "property": "C12",
   "status": "proved",
   "theorems": [
    "C12_inversion_segment"
   ],
   "note": ""
  },
  {
   "property": "C13",
   "status": "proved",
   "theorems": [
    "C13_reversing_adjacent_swaps"
   ],
   "note": ""
  },
  {
   "property": "C14",
   "status": "proved",
   "theorems": [
    "C14_seeded_mutation_reproducible",
    "C14_interchange_reproducible_refuted",
    "C14_interchange_never_reproducible",
    "C14_interchange_own_rng"
   ],
   "note": "refuted for Interchange, proved for the others"
  },
  {
   "property": "C15",
   "status": "proved",
   "theorems": [
    "C15_selection_counts",
    "C15_random_reaches_every_selection",
    "C15_random_repeats_itself"
   ],
   "note": "Tournament for non-NaN fitness; Diverge of SUS treated in C20"
  },
  {
   "property": "C16",
   "status": "proved",
   "theorems": [
    "C16_distinct_selection"
   ],
   "note": ""
  },
  {
   "property": "C17",
   "status": "proved",
   "theorems": [
    "C17_tournament",
    "C17_every_group_possible",
    "C17_full_tournament_is_max",
    "C17_any_population",
    "C17_nan_participant_panics",
    "C17_ceil_group_size_refuted"
   ],
   "note": "floor size proved, documented ceil size refuted"
  },
  {
   "property": "C18",
   "status": "proved",
   "theorems": [
    "C18_rank",
    "C18_rank_every_draw_possible",
    "C18_rank_winner_is_fitter"
   ],
   "note": ""
  },
  {
   "property": "C19",
   "status": "proved",
   "theorems": [
    "C19_roulette_full",
    "C19_roulette_short"
   ],
   "note": "rounding included (Flocq)"
  },
  {
   "property": "C20",
   "status": "proved",
   "theorems": [
    "C20_sus_result",
    "C20_sus_terminates",
    "C20_sus_always_returns_refuted",
    "C20_sus_terminates_always_refuted"
   ],
   "note": "result shape and termination proved; that it always returns is refuted"
  },
  {
   "property": "C21",
   "status": "proved",
   "theorems": [
    "C21_weak_parent",
    "C21_weak_parent_panics"
   ],
   "note": ""
  },
  {
   "property": "C22",
   "status": "proved",
   "theorems": [
    "C22_weak_parent_elitism_refuted",
    "C22_minimum_always_discarded"
   ],
   "note": "the expected elitism is refuted; that the minimum of four is always dropped is proved"
  },
  {
   "property": "C23",
   "status": "proved",
   "theorems": [
    "C23_both_parents_and_noop",
    "C23_size_change_panics",
    "C23_size_change_stops_run"
   ],
   "note": ""
  },
  {
   "property": "C24",
   "status": "proved",
   "theorems": [
    "C24_run_returns_best_ever",
    "C24_no_nan_in_shown_populations",
    "C24_run_returns"
   ],
   "note": ""
  },
  {
   "property": "C25",
   "status": "proved",
   "theorems": [
    "C25_probe_protocol",
    "C25_second_run_starts_at_zero_refuted"
   ],
   "note": "for a fresh solver; for a second run on the same solver the metrics claim is refuted"
  },
  {
   "property": "C26",
   "status": "proved",
   "theorems": [
    "C26_new_best_strictly_improving",
    "C26_new_best_iff_improvement",
    "C26_best_fit_is_minimum"
   ],
   "note": ""
  },
  {
   "property": "C27",
   "status": "proved",
   "theorems": [
    "C27_shown_populations_evaluated"
   ],
   "note": ""
  },
  {
   "property": "C28",
   "status": "proved",
   "theorems": [
    "C28_termination"
   ],
   "note": ""
  },
  {
   "property": "C29",
   "status": "proved",
   "theorems": [
    "C29_random_points",
    "C29_bit_strings",
    "C29_random_permutations",
    "C29_random_points_repeats_itself"
   ],
   "note": ""
  },
  {
   "property": "C30",
   "status": "proved",
   "theorems": [
    "C30_points_within_constraints",
    "C30_default_points_half_open",
    "C30_half_open_refuted",
    "C30_overflowing_range_refuted"
   ],
   "note": "closed interval, default half-open range, and the two refutations"
  },
  {
   "property": "C31",
   "status": "proved",
   "theorems": [
    "C31_generic_builder",
    "C31_preset_builders",
    "C31_realvalued_rejects_zero_refuted",
    "C31_preset_rates"
   ],
   "note": "the claim of the preset builders that invalid parameters are rejected is refuted for RealValuedBuilder in release builds"
  },
  {
   "property": "C32",
   "status": "proved",
   "theorems": [
    "C32_generation_interval",
    "C32_every_is_arithmetic_progression",
    "C32_first_threshold_zero",
    "C32_interval_zero",
    "C32_huge_interval_refuted",
    "C32_elapsed_time"
   ],
   "note": "for intervals that do not overflow usize; the overflow case is refuted"
  },
  {
   "property": "C33",
   "status": "proved",
   "theorems": [
    "C33_aggregated_order",
    "C33_aggregated_each_probe_sees_all",
    "C33_add_probe_order"
   ],
   "note": ""
  },
  {
   "property": "C34",
   "status": "proved",
   "theorems": [
    "C34_visited_and_unvisited_partition",
    "C34_tour",
    "C34_stuck_ant_stays",
    "C34_new_ants_usable"
   ],
   "note": ""
  },
  {
   "property": "C35",
   "status": "proved",
   "theorems": [
    "C35_ant_system_tours"
   ],
   "note": ""
  },
  {
   "property": "C36",
   "status": "proved",
   "theorems": [
    "C36_canonical_ants_tours",
    "C36_exploiting_ants_tours",
    "C36_ant_colony_system_paths",
    "C36_always_tours_refuted"
   ],
   "note": ""
  },
  {
   "property": "C37",
   "status": "proved",
   "theorems": [
    "C37_updates_keep_symmetry",
    "C37_ant_system_deposits",
    "C37_elitist_deposits",
    "C37_ant_colony_system_deposits",
    "C37_other_edges_only_evaporate"
   ],
   "note": "bit-exact; the deposit formula for tours of at least three places"
  },
  {
   "property": "C38",
   "status": "proved",
   "theorems": [
    "C38_best_tour_within_bounds",
    "C38_bounds_checked",
    "C38_best_tour_value",
    "C38_never_above_upper_bound",
    "C38_lower_bound_refuted"
   ],
   "note": ""
  },
  {
   "property": "C39",
   "status": "proved",
   "theorems": [
    "C39_overall_best_of_history",
    "C39_overall_best_monotone",
    "C39_overall_best_from_the_start",
    "C39_iteration_best",
    "C39_nan_hides_best"
   ],
   "note": "maximality for comparable (non-NaN) fitness; a NaN can hide the best"
  },
  {
   "property": "C40",
   "status": "proved",
   "theorems": [
    "C40_run_protocol",
    "C40_iteration_limit",
    "C40_iteration_limit_terminates",
    "C40_time_limit",
    "C40_no_solutions_panics"
   ],
   "note": ""
  },
  {
   "property": "C41",
   "status": "proved",
   "theorems": [
    "C41_cost_accuracy",
    "C41_starting_place",
    "C41_direction",
    "C41_cheaper_is_shorter",
    "C41_grading",
    "C41_edges_of_closed_path",
    "C41_whole_weights",
    "C41_rotation_refuted"
   ],
   "note": "rotation and reversal invariance for whole-number weights with totals up to 2^53; refuted for general floats, where the difference is bounded by one rounding per edge"
  },
  {
   "property": "C42",
   "status": "proved",
   "theorems": [
    "C42_personal_bests",
    "C42_swarm_best",
    "C42_swarm_best_never_worsens"
   ],
   "note": ""
  },
  {
   "property": "C43",
   "status": "proved",
   "theorems": [
    "C43_positions_any_order",
    "C43_velocities_any_interleaving",
    "C43_runs_any_interleaving",
    "C43_generation_whatever_the_schedule"
   ],
   "note": "the draws are those of the worker threads generators; a schedule is any permutation of (worker, particle) pairs"
  },
  {
   "property": "C44",
   "status": "proved",
   "theorems": [
    "C44_generation_limit",
    "C44_stops_at_first_check_met",
    "C44_time_limit_counts_from_construction",
    "C44_interval_policy",
    "C44_recorded_generations",
    "C44_elapsed_policy",
    "C44_interval_zero_panics"
   ],
   "note": "whole-second clock readings are an oracle"
  },
  {
   "property": "C45",
   "status": "proved",
   "theorems": [
    "C45_best_of_all_values_seen",
    "C45_first_particle_nan_sticks",
    "C45_particle_nan_sticks",
    "C45_best_of_all_values_seen_refuted"
   ],
   "note": ""
  },
  {
   "property": "C46",
   "status": "proved",
   "theorems": [
    "C46_bounds_and_shape",
    "C46_final_population"
   ],
   "note": "no claim when lower > upper"
  },
  {
   "property": "C47",
   "status": "proved",
   "theorems": [
    "C47_bound_handling",
    "C47_clamp_refuted"
   ],
   "note": "the run of C47_clamp_refuted uses powf = 1"
  },
  {
   "property": "C48",
   "status": "proved",
   "theorems": [
    "C48_first_generation"
   ],
   "note": ""
  },
  {
   "property": "C49",
   "status": "proved",
   "theorems": [
    "C49_reported_values",
    "C49_value_of_position_refuted"
   ],
   "note": ""
  },
  {
   "property": "C50",
   "status": "proved",
   "theorems": [
    "C50_default_constants",
    "C50_builder",
    "C50_parameters",
    "C50_size_above_25_panics",
    "C50_size_and_dimension_refuted",
    "C50_build_succeeds",
    "C50_constants"
   ],
   "note": ""
  },
  {
   "property": "C51",
   "status": "proved",
   "theorems": [
    "C51_groups",
    "C51_best_in_last_group"
   ],
   "note": "order and extreme groups for finite non-negative fitness"
  },
  {
   "property": "C52",
   "status": "proved",
   "theorems": [
    "C52_generation_dataflow"
   ],
   "note": ""
  },
  {
   "property": "C53",
   "status": "proved",
   "theorems": [
    "C53_realvalued_solver_runs",
    "C53_bitstring_solver_runs"
   ],
   "note": "The fitness function need not be defined (may be NaN) outside the chromosomes of the configured length (and, for real vectors, outside [0,1))."
  },
  {
   "property": "C54",
   "status": "proved",
   "theorems": [
    "C54_realvalued_solver_invents_no_coordinate"
   ],
   "note": ""
  },
  {
   "property": "C55",
   "status": "proved",
   "theorems": [
    "C55_default_tournament_prefers_the_best_refuted"
   ],
   "note": "the expected preference is refuted: the best individual is never selected"
  },
  {
   "property": "C56",
   "status": "proved",
   "theorems": [
    "C56_whole_goodness_never_stuck",
    "C56_never_stuck_refuted"
   ],
   "note": ""
  },
  {
   "property": "C57",
   "status": "proved",
   "theorems": [
    "C57_zero_goodness_needs_zero_draw",
    "C57_never_zero_goodness_refuted"
   ],
   "note": ""
  },
  {
   "property": "C58",
   "status": "proved",
   "theorems": [
    "C58_exploitation_takes_the_best",
    "C58_rate_checked"
   ],
   "note": ""
  },
  {
   "property": "C59",
   "status": "proved",
   "theorems": [
    "C59_ants_never_panic",
    "C59_ant_system_never_panics",
    "C59_infinite_total_panics"
   ],
   "note": ""
  },
  {
   "property": "C60",
   "status": "proved",
   "theorems": [
    "C60_ant_system_run",
    "C60_ant_colony_system_run"
   ],
   "note": ""
  },
  {
   "property": "C61",
   "status": "proved",
   "theorems": [
    "C61_run_never_fails"
   ],
   "note": ""
  },
  {
   "property": "C62",
   "status": "proved",
   "theorems": [
    "C62_local_updates",
    "C62_local_update_total",
    "C62_symmetry_refuted"
   ],
   "note": ""
  },
  {
   "property": "C63",
   "status": "proved",
   "theorems": [
    "C63_goodness_elementwise",
    "C63_small_heuristic_panics",
    "C63_oversized_heuristic_misread",
    "C63_heuristic_from_weights",
    "C63_cost_of_cities"
   ],
   "note": "powf is an arbitrary function"
  },
  {
   "property": "C64",
   "status": "proved",
   "theorems": [
    "C64_shape_never_changes",
    "C64_movement_rule",
    "C64_initial_positions_within_bounds",
    "C64_default_bounds_within",
    "C64_initial_positions_within_bounds_refuted",
    "C64_positions_stay_within_bounds_refuted"
   ],
   "note": ""
  },
  {
   "property": "C65",
   "status": "proved",
   "theorems": [
    "C65_configuration",
    "C65_build",
    "C65_build_and_run",
    "C65_build_and_run_for_a_time"
   ],
   "note": ""
  },
  {
   "property": "C66",
   "status": "proved",
   "theorems": [
    "C66_records",
    "C66_records_with_policy"
   ],
   "note": "writing the file is not modelled"
  },
  {
   "property": "C67",
   "status": "proved",
   "theorems": [
    "C67_movement",
    "C67_reported_position",
    "C67_least_objective_refuted"
   ],
   "note": "powf and powi are arbitrary functions"
  },
  {
   "property": "C68",
   "status": "proved",
   "theorems": [
    "C68_run_succeeds",
    "C68_distances_total",
    "C68_distance_panics",
    "C68_small_population_panics",
    "C68_from_config",
    "C68_from_config_bounds"
   ],
   "note": ""
  },
  {
   "property": "C69",
   "status": "proved",
   "theorems": [
    "C69_interval_policy",
    "C69_interval_zero",
    "C69_interval_overflow",
    "C69_elapsed_policy",
    "C69_elapsed_first",
    "C69_elapsed_zero",
    "C69_records",
    "C69_records_of_a_run"
   ],
   "note": "clock readings are an oracle; writing the file is not modelled"
  },
  {
   "property": "C70",
   "status": "proved",
   "theorems": [
    "C70_minimum_nonempty",
    "C70_minimum_any",
    "C70_minimum_atleast2",
    "C70_dixon_price",
    "C70_trid",
    "C70_qing",
    "C70_powell"
   ],
   "note": "exact real arithmetic; powell for the dimensions it accepts"
  },
  {
   "property": "C71",
   "status": "proved",
   "theorems": [
    "C71_minimum_two",
    "C71_minimum_four"
   ],
   "note": "exact real arithmetic"
  },
  {
   "property": "C72",
   "status": "proved",
   "theorems": [
    "C72_wrong_documented_minimum",
    "C72_wrong_documented_minimum_n",
    "C72_no_lower_bound",
    "C72_actual_minimum",
    "C72_undefined",
    "C72_power_sum"
   ],
   "note": "exact real arithmetic; the tolerance of each refuted claim is in the statement"
  },
  {
   "property": "C73",
   "status": "proved",
   "theorems": [
    "C73_never_return",
    "C73_shekel_never_returns",
    "C73_rana_pinter_panic"
   ],
   "note": "for any arithmetic"
  },
  {
   "property": "C74",
   "status": "proved",
   "theorems": [
    "C74_never_nan_never_negative",
    "C74_exactly_zero",
    "C74_limits"
   ],
   "note": "IEEE-754 binary64 with round to nearest; vectors of at most 2^53 coordinates for sum_squares and dixon_price"
  },
  {
   "property": "C75",
   "status": "proved",
   "theorems": [
    "C75_dimensions",
    "C75_bartels_conn_rejects_its_documented_dimension"
   ],
   "note": "for any arithmetic; deb1/deb3 on the empty vector: overflow checks on"
  },
  {
   "property": "C76",
   "status": "proved",
   "theorems": [
    "C76_approximate_minima",
    "C76_styblinski_tang_digits"
   ],
   "note": "exact real arithmetic"
  },
  {
   "property": "C77",
   "status": "proved",
   "theorems": [
    "C77_wordmax"
   ],
   "note": ""
  },
  {
   "property": "C78",
   "status": "proved",
   "theorems": [
    "C78_boltzmann_prefers_low_fitness",
    "C78_boltzmann_cools",
    "C78_alpha_one_panics"
   ],
   "note": "libm exp and powf are arbitrary functions, assumed monotone where the statement says so"
  },
  {
   "property": "C79",
   "status": "proved",
   "theorems": [
    "C79_published_formulas",
    "C79_shifted_formulas",
    "C79_not_the_published_function"
   ],
   "note": "exact real arithmetic"
  },
  {
   "property": "C80",
   "status": "proved",
   "theorems": [
    "C80_decoded_schedule_feasible"
   ],
   "note": "examples/jssp; usize additions that overflow panic, times at most 2^50 so that they are exact as f64"
  },
  {
   "property": "C81",
   "status": "proved",
   "theorems": [
    "C81_placed_as_early_as_possible",
    "C81_no_operation_can_start_earlier"
   ],
   "note": ""
  },
  {
   "property": "C82",
   "status": "proved",
   "theorems": [
    "C82_fitness_is_a_makespan"
   ],
   "note": ""
  },
  {
   "property": "C83",
   "status": "proved",
   "theorems": [
    "C83_evaluation_depends_on_genes_only",
    "C83_evaluating_again_changes_nothing"
   ],
   "note": ""
  },
  {
   "property": "C84",
   "status": "proved",
   "theorems": [
    "C84_zero_durations_may_hang",
    "C84_recorded_schedule_may_be_longer"
   ],
   "note": "refutations with witness instances"
  },
  {
   "property": "C85",
   "status": "proved",
   "theorems": [
    "C85_replacement",
    "C85_replacement_panics",
    "C85_random_replacement"
   ],
   "note": ""
  },
  {
   "property": "C86",
   "status": "proved",
   "theorems": [
    "C86_crossover",
    "C86_genes_stay_valid",
    "C86_crossover_panics",
    "C86_share"
   ],
   "note": ""
  },
  {
   "property": "C87",
   "status": "proved",
   "theorems": [
    "C87_instance",
    "C87_generation"
   ],
   "note": "reading and tokenising the file is not modelled"
  },
  {
   "property": "C88",
   "status": "proved",
   "theorems": [
    "C88_run",
    "C88_best_of_all_generations"
   ],
   "note": "selection and time limit are arbitrary; probes and metrics are not part of this loop"
  },
  {
   "property": "C89",
   "status": "proved",
   "theorems": [
    "C89_distance_values",
    "C89_symmetric",
    "C89_self_zero",
    "C89_nonnegative"
   ],
   "note": "powi(_, 2) is the product of the number with itself; sqrt is the correctly rounded square root"
  },
  {
   "property": "C90",
   "status": "proved",
   "theorems": [
    "C90_decoding",
    "C90_decoding_reachable",
    "C90_rules_determine_schedule"
   ],
   "note": "fresh individuals of any valid shop; every reachable individual of a standard shop"
  },
  {
   "property": "C91",
   "status": "proved",
   "theorems": [
    "C91_local_optimum"
   ],
   "note": "one critical path, the one found by the search; other critical paths are not claimed"
  },
  {
   "property": "C92",
   "status": "proved",
   "theorems": [
    "C92_probes_only_watch",
    "C92_csv_files",
    "C92_json_file",
    "C92_printed_lines",
    "C92_probes_never_fail",
    "C92_nothing_written_before_the_end",
    "C92_json_out_of_order_panics"
   ],
   "note": "File operations are assumed to succeed; the text of numbers in the files is not modelled (rows are records)."
  },
  {
   "property": "C93",
   "status": "proved",
   "theorems": [
    "C93_build",
    "C93_build_panics",
    "C93_build_with_args",
    "C93_iteration_limit",
    "C93_stdout_probe"
   ],
   "note": "The type-level flag HasArgs is rendered as two build functions."
  },
  {
   "property": "C94",
   "status": "proved",
   "theorems": [
    "C94_solver_runs",
    "C94_solver_defaults",
    "C94_random_search_runs",
    "C94_bad_call",
    "C94_delay_factor_is_ignored",
    "C94_selection_prefers_the_worse"
   ],
   "note": "Times, log formatting and file tokenising are not modelled. Selection and replacement shares are exact up to a population of 2^50."
  },
  {
   "property": "C95",
   "status": "proved",
   "theorems": [
    "C95_solver_log",
    "C95_random_search_log",
    "C95_best_never_gets_worse",
    "C95_mean_distance_of_one"
   ],
   "note": "The diversity column is always 0 in the code and left out; hash and times of the final record are left out."
  },
  {
   "property": "C96",
   "status": "proved",
   "theorems": [
    "C96_solution_string",
    "C96_string_determines_schedule",
    "C96_reported_fitness_may_be_too_small"
   ],
   "note": "Includes a refutation: C96_reported_fitness_may_be_too_small. The unstable sort is modelled as insertion sort; the comparison is a strict total order on the operations of an evaluated individual, so the result does not depend on the algorithm."
  },
  {
   "property": "C97",
   "status": "proved",
   "theorems": [
    "C97_arguments_before_file",
    "C97_errors"
   ],
   "note": "Reading the JSON file is an arbitrary function."
  },
  {
   "property": "C98",
   "status": "proved",
   "theorems": [
    "C98_cities_in_square",
    "C98_cities_are_the_draws",
    "C98_cost_matrix",
    "C98_nearly_metric",
    "C98_heuristic"
   ],
   "note": ""
  },
  {
   "property": "C99",
   "status": "proved",
   "theorems": [
    "C99_tour_cost",
    "C99_grade",
    "C99_best_is_shortest"
   ],
   "note": ""
  },
  {
   "property": "C100",
   "status": "proved",
   "theorems": [
    "C100_pure_instance",
    "C100_best_ever",
    "C100_number_of_evaluations",
    "C100_only_required",
    "C100_evaluated_once",
    "C100_run_returns"
   ],
   "note": "C100_pure_instance connects this model with the one used for C24 - C28."
  },
  {
   "property": "C101",
   "status": "proved",
   "theorems": [
    "C101_weak_parent_returns_initial_best",
    "C101_weak_parent_fitness_rises",
    "C101_noop_keeps_initial_population"
   ],
   "note": "A finding about the crate: the documentation example and examples/ga.rs use WeakParent with the minimising solver."
  },
  {
   "property": "C102",
   "status": "proved",
   "theorems": [
    "C102_random_search_experiment",
    "C102_unsupported_problem_panics"
   ],
   "note": "coco-rs is represented by its contract (uniform draws from [0,1), a fixed objective function, length checks); loggers and observers are not represented"
  },
  {
   "property": "C103",
   "status": "proved",
   "theorems": [
    "C103_genetic_experiment",
    "C103_one_run_up_to_dimension_40",
    "C103_points_in_region",
    "C103_region_left_when_ranges_differ",
    "C103_program_ends"
   ],
   "note": "whole program coco/src/main.rs with the solver of GaEvalModel, whose fitness function changes the state of the problem; the last theorem but one refutes the claim for unequal ranges"
  },
  {
   "property": "C104",
   "status": "proved",
   "theorems": [
    "C104_lines_of_a_run",
    "C104_reading_the_log",
    "C104_outside_a_run"
   ],
   "note": "the fields of the lines are represented, not their text"
  },
  {
   "property": "C105",
   "status": "proved",
   "theorems": [
    "C105_permutations_throughout",
    "C105_permutation_solver_returns"
   ],
   "note": "Safety for every selection and replacement; termination for the selections that always fill the pool, if the fitness is not NaN on permutations. The PMX repair loop is given at least as many rounds as there are genes."
  },
  {
   "property": "C106",
   "status": "proved",
   "theorems": [
    "C106_lost_genes_never_return",
    "C106_no_new_genes",
    "C106_built_from_the_initial_population",
    "C106_convergence_is_final"
   ],
   "note": "Holds for every gene type and every generator; no condition on chromosome lengths."
  },
  {
   "property": "C107",
   "status": "proved",
   "theorems": [
    "C107_bit_string_solvers",
    "C107_real_vector_solvers",
    "C107_points_stay_in_the_search_space"
   ],
   "note": "Every combination of the library operators except the order-based crossovers (C105) and the selections whose pool size depends on the fitness values (C19-C22). The fitness may be NaN outside the search space."
  },
  {
   "property": "C108",
   "status": "proved",
   "theorems": [
    "C108_two_variables",
    "C108_other_numbers_of_variables",
    "C108_any_dimension",
    "C108_further_formulas"
   ],
   "note": "The functions are computed over exact reals (num_R); the published formulas are written out in the theorems. C108_further_formulas gives the formulas of eight functions on which publications differ."
  },
  {
   "property": "C109",
   "status": "proved",
   "theorems": [
    "C109_formulas_of_the_code",
    "C109_not_the_published_functions"
   ],
   "note": "Formulas the code computes for all arguments, and for each function a point where the published formula has another value."
  },
  {
   "property": "C110",
   "status": "proved",
   "theorems": [
    "C110_only_the_order_of_fitness_matters",
    "C110_rescaling_fitness_changes_nothing"
   ],
   "note": "The two runs are compared step by step; the crossovers, mutations and generators never look at fitness. Example: fails for RouletteWheel."
  },
  {
   "property": "C111",
   "status": "proved",
   "theorems": [
    "C111_only_the_order_of_values_matters"
   ],
   "note": "Whole of build and execute, including the schedule of worker threads."
  },
  {
   "property": "C112",
   "status": "proved",
   "theorems": [
    "C112_only_the_order_of_brightness_matters"
   ],
   "note": "A counterexample shows that the order of values alone does not suffice."
  },
  {
   "property": "C113",
   "status": "proved",
   "theorems": [
    "C113_permutation_solvers",
    "C113_bit_string_solvers",
    "C113_real_vector_solvers"
   ],
   "note": "SUS is left out because it may panic for any fitness values (C20); Boltzmann is proved for weights given by any oracle exp that is finite and non-negative on the values met."
  },
  {
   "property": "C114",
   "status": "proved",
   "theorems": [
    "C114_ga_bsc",
    "C114_ga_rvc",
    "C114_ga_ackley",
    "C114_ga"
   ],
   "note": "The streams of the operators of ga.rs are modelled separately (assemble); the probes, which only print, are left out. libm enters through the contract decent_libm. A finding: the examples maximise or return initial individuals while their messages claim minima and maxima the other way round."
  },
  {
   "property": "C115",
   "status": "proved",
   "theorems": [
    "C115_ff_example",
    "C115_ff_logging_example",
    "C115_pso_example"
   ],
   "note": "three theorems, one per program; printed text is represented by the printed values, file errors are left out"
  },
  {
   "property": "C116",
   "status": "proved",
   "theorems": [
    "C116_rounds",
    "C116_beginnings",
    "C116_decay",
    "C116_decay_to",
    "C116_unwalked_edges_keep"
   ],
   "note": "C116_rounds covers ants that get stuck; the edge by edge theorems ask that every ant got to the end"
  },
  {
   "property": "C117",
   "status": "proved",
   "theorems": [
    "C117_exponential_sums",
    "C117_fixed_sums",
    "C117_any_dimension",
    "C117_gulf_research_and_langermann"
   ],
   "note": "exact real arithmetic reading (num_R); the formulas are those of the code, the text says where the published ones differ"
  },
  {
   "property": "C118",
   "status": "proved",
   "theorems": [
    "C118_unequal_lengths_panic",
    "C118_second_parent_shorter",
    "C118_second_parent_longer",
    "C118_empty_parents",
    "C118_number_of_cuts",
    "C118_ordered_any_parents",
    "C118_ordered_length_refuted",
    "C118_ppx_any_parents"
   ],
   "note": "equal lengths of the children of Ordered crossover refuted"
  },
  {
   "property": "C119",
   "status": "proved",
   "theorems": [
    "C119_identical_parents",
    "C119_converged_pool"
   ],
   "note": ""
  },
  {
   "property": "C120",
   "status": "proved",
   "theorems": [
    "C120_roulette_share"
   ],
   "note": "The interval of draws is exhibited for every individual; hypotheses: total exact fitness >= 2^-900, at most 2^40 individuals, float total finite."
  },
  {
   "property": "C121",
   "status": "proved",
   "theorems": [
    "C121_rates",
    "C121_uniform_half"
   ],
   "note": "The draws are counted exactly; the independence of the draws is a property of the generator."
  },
  {
   "property": "C122",
   "status": "proved",
   "theorems": [
    "C122_rank_draws",
    "C122_rank_wins",
    "C122_rank_r_draws",
    "C122_groups",
    "C122_tournament_wins"
   ],
   "note": "Counted over index pairs and groups; that all are equally likely is the contract of rand."
  },
  {
   "property": "C123",
   "status": "proved",
   "theorems": [
    "C123_stretches"
   ],
   "note": "gen_range(0.0..=total) is modelled as any float of that range, so the theorem locates the drawn number rather than counting draws."
  },
  {
   "property": "C124",
   "status": "proved",
   "theorems": [
    "C124_sus_copies"
   ],
   "note": "For calls that return (C20 says when a call may panic or not return)."
  },
  {
   "property": "C125",
   "status": "proved",
   "theorems": [
    "C125_every_permutation_alike",
    "C125_every_bit_string_alike",
    "C125_points_spread_evenly"
   ],
   "note": "The shuffle is the one of rand 0.8 (Fisher-Yates, modelled in Rng.v); draws below n are raw values modulo n."
  },
  {
   "property": "C126",
   "status": "proved",
   "theorems": [
    "C126_random_selection",
    "C126_cuts",
    "C126_shuffle",
    "C126_segments"
   ],
   "note": "UniqueRandom, Tournament groups and MultiPoint rely on rand's index sampling, which is modelled as an arbitrary choice of distinct positions, so nothing is claimed about their chances here."
  },
  {
   "property": "C127",
   "status": "proved",
   "theorems": [
    "C127_update_keeps_range",
    "C127_tour_fitness",
    "C127_run"
   ],
   "note": "Rules: Ant System, elitist, min-max, ant colony system update; the run theorem is for the Ant System behaviour with an iteration limit."
  },
  {
   "property": "C128",
   "status": "proved",
   "theorems": [
    "C128_colony_keeps_range",
    "C128_run"
   ],
   "note": "Decay and DecayTo local updates, all four update rules, canonical and exploiting ants."
  },
  {
   "property": "C129",
   "status": "proved",
   "theorems": [
    "C129_largest_draw",
    "C129_flip_bit",
    "C129_interchange",
    "C129_reversing",
    "C129_inversion",
    "C129_one_is_not_enough"
   ],
   "note": "existence of draws; targets are arbitrary lists of the same length (FlipBit) or permutations with repeated genes allowed (the others)"
  },
  {
   "property": "C130",
   "status": "proved",
   "theorems": [
    "C130_initial_velocities",
    "C130_initial_velocities_refuted",
    "C130_initial_swarm",
    "C130_run",
    "C130_default_solver",
    "C130_always_finite_refuted"
   ],
   "note": "C130_run is the bound for every run; C130_default_solver the default solver for 300 generations; C130_initial_velocities and its _refuted companion settle the initial range; C130_always_finite_refuted is a run with all positions NaN."
  },
  {
   "property": "C131",
   "status": "proved",
   "theorems": [
    "C131_single_point",
    "C131_two_point",
    "C131_multi_point",
    "C131_uniform",
    "C131_uniform_parameterized",
    "C131_shuffle",
    "C131_ordered",
    "C131_pmx",
    "C131_ppx",
    "C131_the_last_gene",
    "C131_parents_unchanged",
    "C131_ppx_begins_like_a_parent",
    "C131_ppx_all_precedence_preserving_children_refuted"
   ],
   "note": "an equivalence for each of the nine operators; the corollaries on the last gene, unchanged parents and the first gene; the claim that Ppx reaches all precedence-preserving children is refuted"
  },
  {
   "property": "C132",
   "status": "proved",
   "theorems": [
    "C132_an_ant_can_make_every_tour",
    "C132_ant_system",
    "C132_ant_colony_system",
    "C132_local_updates",
    "C132_positive_goodness_refuted"
   ],
   "note": "for single ants, Ant System colonies and Ant Colony System colonies; the claim for arbitrary positive goodness is refuted. The model lets the wheel draw any number of its closed range"
  },
  {
   "property": "C133",
   "status": "proved",
   "theorems": [
    "C133_pso_csv",
    "C133_pso_json",
    "C133_pso_run",
    "C133_ff_csv",
    "C133_ff_json",
    "C133_ff_run",
    "C133_aco_csv",
    "C133_aco_json",
    "C133_aco_runs",
    "C133_crash",
    "C133_crash_ff",
    "C133_crash_aco",
    "C133_same_file",
    "C133_later_probes_write_nothing",
    "C133_write_cities",
    "C133_ga_probes"
   ],
   "note": "On a disk where each file may refuse creation or fail on writes. The expectation that a finished search always returns its result is refuted (C133_pso_run, C133_ff_run: a file that cannot be created loses it). The text of numbers is not modelled; a file on which a write failed is just Damaged."
  },
  {
   "property": "C134",
   "status": "proved",
   "theorems": [
    "C134_ant_system",
    "C134_elitist",
    "C134_ant_colony_system",
    "C134_max_min_possible",
    "C134_max_min_value",
    "C134_square",
    "C134_two_places",
    "C134_one_place",
    "C134_longer_tours"
   ],
   "note": "Arbitrary paths, exact success and panic conditions; closes the gap of C37 for tours of one or two places. The exact MAX-MIN value is stated for symmetric matrices."
  },
  {
   "property": "C135",
   "status": "proved",
   "theorems": [
    "C135_grading",
    "C135_from_path",
    "C135_decay",
    "C135_decay_to"
   ],
   "note": "possible_or_panic is \"succeeds with the stated result iff the condition holds, and panics otherwise\"."
  },
  {
   "property": "C136",
   "status": "proved",
   "theorems": [
    "C136_run_never_fails",
    "C136_one_place_fails"
   ],
   "note": "Any goodness operator with whole-number values on square matrices; Decay and DecayTo with any floats."
  },
  {
   "property": "C137",
   "status": "proved",
   "theorems": [
    "C137_bit_strings_any_future",
    "C137_bit_strings_any_history",
    "C137_permutations_any_future",
    "C137_permutations_any_history",
    "C137_default_bit_string_solver",
    "C137_any_result",
    "C137_any_fitness_in_one_generation"
   ],
   "note": "Every list of populations of the right size and shape is shown to be a history of a run, by draws computed from it; for assembled solvers with separate streams and for the default bit string solver with one stream. Interchange is covered on permutations."
  },
  {
   "property": "C138",
   "status": "proved",
   "theorems": [
    "C138_random_and_unique_random",
    "C138_rank_excludes_nothing",
    "C138_tournament",
    "C138_zero_fitness_never_selected",
    "C138_first_with_zero_fitness_possible"
   ],
   "note": "Both directions for the five comparison or index based operators; for RouletteWheel and StochasticUniversalSampling the members of fitness zero. Tournament: populations without NaN fitness (C17 says what happens otherwise)."
  },
  {
   "property": "C139",
   "status": "proved",
   "theorems": [
    "C139_every_schedule_can_be_matched",
    "C139_optimum_can_be_drawn",
    "C139_populations_that_can_be_drawn",
    "C139_shipped_constant_may_miss_the_optimum"
   ],
   "note": "Matching schedules and drawing the optimum for all shops with a long enough window (starts no later, operation by operation; fitness at most the makespan); a shop where, with the shipped constant 1.5, no recorded schedule is optimal, over all reachable individuals."
  },
  {
   "property": "C140",
   "status": "proved",
   "theorems": [
    "C140_measured_benchmarks",
    "C140_any_number_of_generations",
    "C140_small_preset_panics",
    "C140_large_preset_returns"
   ],
   "note": "All five benchmark bodies as programs of the firefly model; total for the measured ones and the large preset, panic for the small preset, for all draws."
  },
  {
   "property": "C141",
   "status": "proved",
   "theorems": [
    "C141_small",
    "C141_medium",
    "C141_small_can_panic",
    "C141_medium_can_panic"
   ],
   "note": "Both alternatives occur; the panics are shown for some draws of the first ant and any other ants."
  }
 ]
}