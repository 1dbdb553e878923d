# Formal model of ecrs-org/ecrs in Rocq (Coq 8.16.1)

Source: `/repo` (Rust crate `ecrs`: genetic algorithm `src/ga*`, ant colony `src/aco*`,
particle swarm `src/pso*`, firefly `src/ff*`, benchmark functions `src/test_functions`,
example job-shop solver `examples/jssp`).  The code is read as text, never run.

## Layout

* `rocq/theories/Base.v`, `F64.v`, `Rng.v` – outcome monad (`Ok | Panic | Diverge`), IEEE-754 binary64
  (the standard library's executable `SpecFloat`), the RNG contract.
* `rocq/theories/*Model.v` – the model, function by function, each definition citing file and lines.
* `rocq/theories/*Spec.v` – small, model-independent vocabulary used by the statements.
* `rocq/theories/*Proofs.v` – lemmas.
* `rocq/theories/Props*.v` – the property theorems only, each closed by `exact ...` and followed by
  `Print Assumptions`, with a non-vacuity `Example` beside it.

## Modelling conventions

* **Panics are values.** `outcome A := Ok a | Panic | Diverge`.  Index out of range, `assert!`, `unwrap`
  on `None`, empty `gen_range`, ... are modelled as `Panic`.  `while` loops that are not structurally
  bounded run on explicit fuel and yield `Diverge` when it is exhausted; theorems either exclude
  `Diverge` for sufficient fuel or prove that no fuel suffices.
* **`&mut self`** becomes returning the new state.
* **f64** is `spec_float` with `prec=53, emax=1024`: `+ - * /` are the IEEE operations with
  round-to-nearest-even, comparison is `SFcompare` (`None` on NaN), `as usize` saturates with NaN -> 0.
  `sqrt` is the correctly rounded square root (`SFsqrt`); `powf`, `exp`, `cos`, ... are arbitrary functions (oracles),
  because libm results are not specified.
* **RNG**: the state is an infinite stream of natural numbers; all theorems quantify over all streams.  What
  the `rand` crate computes from them is modelled by contract: `gen_range(a..b)` is any value in `a..b`
  (panics if empty), `gen::<f64>()` is any `k*2^-53` (`k < 2^53`), `Uniform(0,1)` any `k*2^-52`
  (`k < 2^52`), `shuffle` is Fisher-Yates, `index::sample` any sequence of distinct indices, ...
  Cloning an RNG returns the same stream without advancing the original (value-type RNG); for
  `ThreadRng` the clone shares the state: where it matters both are modelled.
* **Time** is an oracle (sequence of measured durations).
* `usize` is unbounded unless the property is about overflow.

## Trusted base

Coq's kernel (8.16.1); the reading of the code recorded in the comments; the contract for `rand` above.
No axioms are added.  The output of `Print Assumptions` is listed per group at the end of this file.

## What is modelled and what is not

| source | model | left out |
|--------|-------|----------|
| `src/ga.rs`, `src/ga/individual.rs`, `operators/fitness.rs`, `timer.rs` | GaModel (pure f64 fitness), GaEvalModel (any individual type, stateful fitness), IndividualModel | the process clock (any readings), `Display`/`Debug` text |
| `src/ga/operators/crossover/**` | CrossoverModel | – |
| `src/ga/operators/mutation/**` | MutationModel | – |
| `src/ga/operators/selection/**`, `src/ga/value_provider/**` | SelectionModel | – |
| `src/ga/operators/replacement/**` | ReplacementModel | – |
| `src/ga/population/**` | PopulationModel | – |
| `src/ga/builder/**`, `src/ga/builder.rs` | BuilderModel | setters that only store a value are record updates |
| `src/ga/probe/**` | ProbeModel | `csv_probe.rs`, `json_probe.rs` (their `Probe` implementations are commented out; what their constructors do to the disk: FileModel) |
| `src/aco.rs`, `src/aco/**` | AcoModel, AcoProbeModel (probes, builder), AcoTspGenModel (`util.rs`), FileModel (files) | the text of numbers in files |
| `src/pso.rs`, `src/pso/**` | PsoModel, FileModel (files) | the text of numbers in files |
| `src/ff.rs`, `src/ff/**` | FfModel, FileModel (files) | the text of numbers in files |
| `src/test_functions/mod.rs` | TfModel | – |
| `examples/jssp/**` | JsspModel, JsspMainModel | the command-line parser (clap), reading of files (their text is an input), md5 of run names, dates, the text of log lines other than the fields |
| `coco/src/**` | CocoModel | coco-rs and the C library (a contract stands for them), loggers, observers |
| `examples/ga*.rs`, `examples/pso_multiple_probes.rs`, `examples/ff*.rs` | whole programs: ExampleModel (C114), PsoExampleModel, FfExampleModel (C115) | text layout of what is printed |
| `benches/ff_bench.rs` | FfBenchModel | the measured bodies; criterion is not modelled |
| `benches/aco_bench.rs` | AcoBenchModel | the measured bodies; criterion is not modelled |
| `tests/**` | – | not part of the library |

## Per-property plan

| id | modelled | how it is proved |
|----|----------|------------------|
| C01 | 7 crossover operators' `apply_single` over any gene type and any draws | induction over the loops; pointwise spec |
| C02 | SinglePoint, FixedPoint, TwoPoint | children equal the `take/drop` expression |
| C03 | MultiPoint | refuted by a witness (even first cut); what the code really does proved in full |
| C04 | OrderedCrossover | NoDup/Permutation reasoning on the filter it computes |
| C05 | Pmx with fuel | the repair loop follows an injective chain, hence terminates within `len` steps |
| C06 | Pmx | refuted: parents for which no fuel suffices |
| C07 | Ppx | invariant: child = merge of the remaining subsequences; precedence preserved |
| C08 | `apply` of all operators | induction over pairs, generic in `apply_single` |
| C09 | Uniform, UniformParameterized with value RNG | the mask is a function of the unchanged RNG: refutation of independence |
| C10-C13 | mutation operators | induction over loops |
| C14 | mutation operators with own + thread RNG | reproducibility proved for three, refuted for Interchange |
| C15-C20 | selection operators | induction; Flocq rounding lemmas for the roulette wheel |
| C21-C23 | replacement operators | sort of four; refutation of elitism |
| C24-C28 | `GeneticSolver::run`, generic in all operators, clock oracle | loop invariant over the event trace |
| C52 | the same | induction over the main loop |
| C29-C30 | population generators | counts/shape; Flocq for the closed interval, refutation of the half-open one |
| C31 | GA builders | case analysis over all setter sequences |
| C53-C55 | preset builders composed with the operators and `GeneticSolver::run` | `well_behaved` instance, invariant over all shown populations, Flocq bound on the tournament size |
| C32-C33 | probing policy, aggregated probes | state machine against the trace specification |
| C34-C36 | ants and ant behaviours | visited/unvisited partition invariant |
| C37-C39, C51 | pheromone updates, best policies | matrix lemmas, induction over histories |
| C40-C41 | ACO loop, grading | trace induction; whole-number weights are added exactly (Flocq); for other non-negative weights induction over the edges with Flocq's relative error of an addition |
| C56-C59 | one ant step: roulette wheel, exploitation | Flocq bounds on the partial sums and differences of the wheel |
| C60-C61 | the whole travelling salesman solver assembled from the parts | invariant over all iterations |
| C62-C63 | local updates, goodness, heuristic and cost matrices | elementwise specification |
| C42-C45, C64-C66 | PSO: particles, swarm, run, builder, probes; rayon loops as schedules of (worker, particle) pairs, one generator per worker | invariant over generations (`evolution`), permutation of the update order, Flocq for the initial bounds |
| C46-C50, C67-C69 | firefly: run, movement, builder, population, distances, probes; one arbitrary stream of draws for all pool threads | history of populations (`ff_protocol`, `moved`), induction over generations and events; refutations with witness runs |
| C78 | Boltzmann weights with arbitrary powf and exp | monotonicity of rounded division, addition and multiplication through Flocq |
| C70-C77, C79 | all 148 test functions, as functions over an abstract arithmetic (`Class Num`), read over exact reals (`num_R`, partial) or over binary64 with oracle libm (`num_f64`) | evaluation lemmas turn each function into a real expression, then `nra`/sums of squares/trigonometric bounds; loops by induction; shape theorems by case analysis for any `Num` |
| C80-C81 | `examples/jssp`: `evaluate_individual` up to the local search (schedule generation with delays), on N times and nat positions, with fuel | invariant over the scheduling loop (`JsspSchedProofs.Inv`): placed operations, their finish times, machine reservations, graph shape; every candidate start that fits is considered |
| C82-C83 | local search: critical distances by depth first search, blocks, swaps, undo | the operations form a disjunctive graph (`JsspGraphProofs`): acyclic with longest-path ranks; swapping the ends of a critical block keeps it acyclic when durations are positive; every accepted swap decreases the makespan; `evaluate_same` shows that all fields that matter are overwritten |
| C84 | the same | witness shops; the endless depth first search is proved by induction on the fuel |
| C85-C88 | crossover, replacement, provider, instance parsing, the solver loop with arbitrary selection | list lemmas, invariant `rated` over generations |
| C89 | the two distance functions over IEEE-754 numbers | structural induction; Flocq for non-negativity |
| C90 | the scheduling loop with its feasible sets, delays and tie breaking | the loop invariant also records the time of every placement (`traced`); names of operations turn it into `placed_by_priority`; uniqueness by induction over the prefix of the order |
| C91 | the local search loop (blocks, exchange, undo) | `local_search_spec` returns the route and the failed exchanges of the last round (`optimum`); longest-path equations give the makespan of machine orders: late starts attain it, rank induction gives the lower bound |
| C92-C93 | ACO probes (records pushed, files written), the main loop interleaved with an arbitrary probe, ACO builder | induction over the protocol of C40; case analysis over setter sequences |
| C94-C95 | `examples/jssp/main.rs`, `config.rs`, `cli.rs`, `problem/probe.rs`, `selection.rs`: the whole program from the arguments to the log, with concrete operators and one stream of draws | the run is followed population by population (`logged` invariant in `JsspMainProofs`, `run_log`); Flocq for the shares 0.1 and 0.2 of the population; monotonicity in the fuel |
| C96 | the solution string of the probe | the comparison is a strict total order; induction along the string shows that its replay is the recorded schedule; witness run for the refutation |
| C97 | `Config::try_from` and `PartialConfig` | closed form of the configuration |
| C98 | `AcoTspGenModel.v` models `generate_tsp_cost` (draws in order x, y; the retry of rand's float sampling is shown unreachable); `AcoTspGenSpec.v` gives the square, coinciding places and the Euclidean distance over the reals | all coordinates are multiples of 2^-98 below 100, so no square underflows; the four roundings are bounded by Flocq's relative error theorem; triangle inequality from the standard library's plane geometry |
| C99 | the same files, `tour_length` over the reals | induction over the closed path with a running-sum invariant (the sum saturates below 2^70, so no bound on the number of cities is needed); better grade implies shorter tour up to rounding |
| C100 | GaEvalModel: `GeneticSolver::run` over any individual type, fitness value and state; fitness a state transformer | induction over the main loop with invariants for the best individual, the number and the list of evaluated individuals; `pure_run` shows GaModel's run is the instance with the crate's individuals |
| C101 | GaModel's `run` with any operators and ReplacementModel's `weak_parent` or `noop` | one step of the loop of WeakParent replaces the middle of the list by `family`, which raises both extremes; composed over the step list, the populations of a run (`run_flow`), and finally `final_best` |
| C102 | CocoModel: `random_search`, `restarts`, `run_experiment`, with coco-rs's Problem and RandomState as a contract | induction on the budget and on the suite; the range of a point by real-number reasoning on the rounded operations |
| C103 | CocoModel: the solver of `ecrs_ga_search` as an instance of GaEvalModel's `g_run` with the concrete operators | C100's `total_run` and `count_run` with an invariant on the evaluated points; induction on the restarts; the refutation for unequal ranges by computing a whole run |
| C104 | GaLogModel: `stdout_probe` fed with the callbacks of GaModel's `run` | induction on the main loop, generation by generation; then induction on the lines |
| C105 | GaAssembleModel: GaModel's `config` filled with the library's operators (`assemble`), each with its own stream | permutations are preserved by each operator (C04, C05, C07, C10); invariant over GaProofs' generation-by-generation description of a run; termination through `well_behaved` |
| C106 | the same `assemble` | "made of genes of generation i" is an invariant of crossover, mutation and replacement; induction on the generations after i |
| C107 | the same `assemble`, with BitStrings / RandomPoints | length is preserved by each operator; `well_behaved` instance for every combination |
| C108 | the same functions over `num_R` as C70-C79 | published formulas written out in the theorem; evaluation lemmas + `ring`/`field`; loops by induction |
| C109 | the same | the same, plus a point at which the published formula has another value |
| C110 | GaAssembleModel's `run`, under two fitness functions | lockstep relation between the two runs (same chromosomes, each fitness field either the one function's or the other's), preserved by each operator |
| C111 | PsoModel `build_and_run`, under two objectives | the same for particles, swarm and worker schedule |
| C112 | FfModel `ff_run`, under two objectives | the same for populations and brightness vectors |
| C113 | GaAssembleModel `assemble` with every operator family | `fills_pool` for every selection (RouletteWheel through a bound on the sum in real numbers, Boltzmann through its weights), `live_K` for the even case; for the odd case the crossover of the unpaired parent fails before any replacement |
| C114 | ExampleModel: the mains of the four genetic examples, from builder calls to the result | interval arithmetic with integer ends (IntervalProofs) shows that the fitness functions are finite on the boxes; then C53's end-to-end lemmas, `run_best`, and C101 and C113 for ga.rs |
| C115 | PsoExampleModel and FfExampleModel: the mains, the stdout and CSV probes, the files written | C44 (run of the built swarm) and C68 (firefly run) give the histories; the probes are folded over the interval policy's events; sign and interval arithmetic bound the values |
| C116 | AcoModel: the rounds of `AntColonySystemAB`, `Decay`, `DecayTo` | the sequence of partial path lists is a chain in which each list extends a sublist of the one before; a chain that loses no ant consists of the beginnings of the final paths; edge counts by induction along the chain |
| C117 | TfModel: the ~25 functions computing sums or undefined somewhere, over `num_R` (exact reals, `None` where a real operation is undefined) | each loop is turned into a finite sum (`Sum m n`), each term evaluated by rewriting with the definedness conditions in the hypotheses; gulf_research and langermann by following the failing operation |
| C118 | the crossover models of C01-C07 | a fold over loci panics as soon as one locus is outside a parent; surplus genes never read (fold extensionality); exact length of the ordered child; PPX by the invariant that everything scanned is in the child |
| C119 | the same | position-wise recombination, kept segments, and a permutation that keeps all precedences is the identity |
| C120 | `roulette_wheel` | the thresholds total*k/2^53 grow with k, so the draws up to each cumulative sum form an initial segment; its length follows from the relative error of one multiplication and of the left-to-right additions (Flocq) |
| C121 | mutation operators, `uniform`, `uniform_parameterized` | k/2^w < rate (or <=) is k < ceil(rate 2^w) (or k <= floor); Interchange additionally gets a specification as a sequence of exchanges |
| C122 | `rank`, `rank_r`, tournament groups | explicit lists of winning pairs and groups, counted by induction (Pascal's rule) |
| C123 | `ant_step`, `spin` | each subtraction has a relative error of at most 2^-53, also among subnormal numbers; induction over the iteration order |
| C124 | `sus` | the float prefix sums and the pointers are within a relative rounding factor of the exact ones, which pins the number of pointers up to each member to two neighbouring values |
| C125 | `random_permutations_generate`, `bit_strings_generate`, `random_points_generate` | the last position of a shuffle decides its first draw, induction; rounding of `(end-start)*u+start` against the exact value, and monotonicity in the draw |
| C126 | `random_sel`, `single_point`, `two_point`, `shuffle_xo`, `ordered`, `pmx` | the structure theorems of C01-C05 with the cuts computed from the draws |
| C127 | the four update rules, `path_cost`, `aco_run` over `tsp (ant_system op)` | error bounds of evaporation and of sums of deposits (relative error 2^-53 a step) give an invariant range; induction over the iterations with C35, C59 |
| C128 | `ant_colony_system`, `decay`, `decay_to`, `aco_run` | the same invariant range through every round of local updates (error bound of one decay step), then the run induction of C127 for a general behaviour |
| C129 | MutationModel (FlipBit, Interchange, Reversing, Inversion over arbitrary draw streams) | constructing the streams: the draw 0 fires and 2^52 - 1 does not; one pass of Interchange settles the places from left to right; a pass of Reversing carries one gene to the end, one of Inversion brings one gene to its place (induction over the target); the outcomes of one application by cases |
| C130 | PsoModel (swarm_generate, pso_run); PsoRangeSpec: `within`, `swarm_within`, `growth` | one step of a coordinate over the reals with the rounding error of each operation, induction over generations; the default growth is at most 9.51 and 9.51^300 * 20 <= 2^1000 by integer arithmetic; the counterexamples by computation |
| C131 | CrossoverModel (all single applications); XoverReachSpec: `can_breed`; CrossoverSpec: `cut_once`, `cut_twice`, `follows`, `order_child`, `partially_mapped_child`, `taking_turns` | one direction from the structure theorems of C01-C07 and C126, the other by giving the draws: the wanted cut positions themselves, the extreme draws for a wanted mask, an arrangement that numbers the exchanged places last for Shuffle; the mapping child of a segment is unique |
| C132 | AcoModel (ant_start, ant_step, ant_system, ant_colony_system); AcoReachSpec: `goodness_within`, `resolved`, `may_explore`, `partial_tour` | the middle of the stretch of a place, computed in binary64, stays in the stretch despite the rounding of the sums (C123); every non-negative number has a bit pattern; induction along the tour, backwards over the draws; counterexample by the rounding-free first subtraction |
| C133 | `FileModel`: the probes of PSO, FF and ACO composed with a disk on which each file may refuse creation or fail on writes; callbacks that panic keep the disk; `write_cities_csv`; the constructors of the GA file probes | case analysis over the device on top of the closed forms of the records (C44, C69, C92); crash points are prefixes of the callback sequence without its last element |
| C134 | AcoModel: as_update, elitist_update, acs_update, mmas_update | the fold over the windows of the closed path succeeds or panics by induction; hits on windows = number of moves |
| C135 | AcoModel: path_length_inverse, from_path, decay, decay_to | induction over the fold of reads and writes; a read inside succeeds, outside panics |
| C136 | AcoModel: ant_colony_system, acs_step; AcoRunModel: aco_run | invariant (matrix shape, ants usable, best is a tour) kept by every iteration, each iteration succeeds by C129-style whole-number sampling; the run by induction on the iterations |
| C137 | GaModel: run; GaAssembleModel: assemble; MutationModel; ReplacementModel; BuilderModel: preset_run_config | the draws that make FlipBit (Interchange) turn any chromosome into any given one are written out and laid one after the other on the stream; induction on the remaining generations |
| C138 | SelectionModel: all operators | a stream is built that draws the wanted positions (Rank: each against itself; Tournament: a group of unbeaten members with the winner last); the other direction from the C15-C17 specifications; adding a zero leaves every f64 comparison of the cumulative fitness as it was |
| C139 | JsspModel (decoder, generation) | Priorities by the rank of the operations in the given schedule, delay genes 1 - 2^-52 (`JsspReachProofs`, `JsspWindowProofs` for the rounding of the window). Induction over the placing order given by C90: time stays 0, the operations placed before are exactly those that the schedule starts earlier, so each one fits at its place and starts no later. Negative part (`JsspMissProofs`): while a first operation is unplaced time stands still at 0, so an operation whose predecessor ends after 1.5 waits for all of them. |
| C140 | FfBenchModel (benches/ff_bench.rs) over FfModel | The run theorems of C46, C49, C67 and C68 for the default configuration with the changed fields (`FfBenchProofs`). |
| C141 | AcoBenchModel (benches/aco_bench.rs) over AcoModel | The distances and the heuristic are checked by computation, then the range theorem of C127 with B = 128 and F = 4/5; libm's `powf` is only assumed to square [0, 2^k] into [0, 4^k]. |

## What `Print Assumptions` lists

Regenerate with `tools/assumptions.py` (needs a finished build). Only axioms of Coq's standard library occur; they enter through
the real numbers (used to state what rounding does, and for the exact reading of the test functions) and through Flocq's use of them.
Whole-library scans also list the fields of the standard library's module types behind `Reals` (`Rdefinitions.RbaseSymbolsImpl`) and
`ssreflect` (`ssrunder.Under_rel`); no theorem depends on these as axioms.

**Closed under the global context** (302 theorems): C01_recombination, C02_segment_structure, C03_multipoint_actual, C03_multipoint_alternates_iff_first_cut_odd, C03_multipoint_alternates_refuted, C04_ordered_permutation, C05_pmx_permutation, C06_pmx_returns_or_panics_refuted, C07_ppx_precedence, C08_apply_pairs_consecutively, C08_children_fitness, C09_bias_one_copies, C09_uniform_masks_vary_refuted, C09_uniform_parameterized_state_refuted, C10_mutation_keeps_fitness, C10_permuting_mutations, C11_flipbit, C12_inversion_segment, C13_reversing_adjacent_swaps, C14_interchange_never_reproducible, C14_interchange_own_rng, C14_interchange_reproducible_refuted, C14_seeded_mutation_reproducible, C15_random_reaches_every_selection, C15_random_repeats_itself, C16_distinct_selection, C17_any_population, C17_every_group_possible, C18_rank, C18_rank_every_draw_possible, C18_rank_winner_is_fitter, C19_roulette_short, C20_sus_always_returns_refuted, C20_sus_result, C21_weak_parent, C21_weak_parent_panics, C22_minimum_always_discarded, C22_weak_parent_elitism_refuted, C23_both_parents_and_noop, C23_size_change_panics, C23_size_change_stops_run, C24_no_nan_in_shown_populations, C24_run_returns, C24_run_returns_best_ever, C25_probe_protocol, C25_second_run_starts_at_zero_refuted, C26_best_fit_is_minimum, C26_new_best_iff_improvement, C26_new_best_strictly_improving, C27_shown_populations_evaluated, C28_termination, C29_bit_strings, C29_random_permutations, C29_random_points, C29_random_points_repeats_itself, C30_half_open_refuted, C30_overflowing_range_refuted, C31_generic_builder, C31_preset_builders, C31_realvalued_rejects_zero_refuted, C32_elapsed_time, C32_every_is_arithmetic_progression, C32_first_threshold_zero, C32_generation_interval, C32_huge_interval_refuted, C32_interval_zero, C33_add_probe_order, C33_aggregated_each_probe_sees_all, C33_aggregated_order, C34_new_ants_usable, C34_stuck_ant_stays, C34_tour, C34_visited_and_unvisited_partition, C35_ant_system_tours, C36_always_tours_refuted, C36_ant_colony_system_paths, C37_ant_colony_system_deposits, C37_ant_system_deposits, C37_elitist_deposits, C37_other_edges_only_evaporate, C38_bounds_checked, C38_lower_bound_refuted, C39_iteration_best, C39_nan_hides_best, C39_overall_best_from_the_start, C39_overall_best_monotone, C39_overall_best_of_history, C40_iteration_limit, C40_iteration_limit_terminates, C40_no_solutions_panics, C40_run_protocol, C40_time_limit, C41_edges_of_closed_path, C41_grading, C41_rotation_refuted, C42_personal_bests, C42_swarm_best, C42_swarm_best_never_worsens, C43_generation_whatever_the_schedule, C43_positions_any_order, C43_runs_any_interleaving, C43_velocities_any_interleaving, C44_elapsed_policy, C44_generation_limit, C44_interval_policy, C44_interval_zero_panics, C44_recorded_generations, C44_stops_at_first_check_met, C44_time_limit_counts_from_construction, C45_best_of_all_values_seen, C45_best_of_all_values_seen_refuted, C45_first_particle_nan_sticks, C45_particle_nan_sticks, C46_bounds_and_shape, C46_final_population, C47_bound_handling, C47_clamp_refuted, C48_first_generation, C49_reported_values, C49_value_of_position_refuted, C50_build_succeeds, C50_builder, C50_parameters, C50_size_above_25_panics, C50_size_and_dimension_refuted, C52_generation_dataflow, C56_never_stuck_refuted, C57_never_zero_goodness_refuted, C58_exploitation_takes_the_best, C58_rate_checked, C59_infinite_total_panics, C62_local_update_total, C62_local_updates, C62_symmetry_refuted, C63_cost_of_cities, C63_goodness_elementwise, C63_heuristic_from_weights, C63_oversized_heuristic_misread, C63_small_heuristic_panics, C64_initial_positions_within_bounds_refuted, C64_movement_rule, C64_positions_stay_within_bounds_refuted, C64_shape_never_changes, C65_build, C65_build_and_run, C65_build_and_run_for_a_time, C65_configuration, C66_records, C66_records_with_policy, C67_least_objective_refuted, C67_movement, C67_reported_position, C68_distance_panics, C68_distances_total, C68_from_config, C68_from_config_bounds, C68_run_succeeds, C68_small_population_panics, C69_elapsed_first, C69_elapsed_policy, C69_elapsed_zero, C69_interval_overflow, C69_interval_policy, C69_interval_zero, C69_records, C69_records_of_a_run, C73_never_return, C73_rana_pinter_panic, C73_shekel_never_returns, C74_limits, C75_bartels_conn_rejects_its_documented_dimension, C75_dimensions, C84_recorded_schedule_may_be_longer, C84_zero_durations_may_hang, C85_replacement_panics, C86_crossover, C86_crossover_panics, C86_genes_stay_valid, C87_instance, C89_distance_values, C89_self_zero, C89_symmetric, C90_rules_determine_schedule, C92_csv_files, C92_json_file, C92_json_out_of_order_panics, C92_nothing_written_before_the_end, C92_printed_lines, C92_probes_never_fail, C92_probes_only_watch, C93_build, C93_build_panics, C93_build_with_args, C93_iteration_limit, C93_stdout_probe, C94_bad_call, C94_delay_factor_is_ignored, C94_selection_prefers_the_worse, C95_mean_distance_of_one, C97_arguments_before_file, C97_errors, C100_best_ever, C100_evaluated_once, C100_number_of_evaluations, C100_only_required, C100_pure_instance, C100_run_returns, C101_noop_keeps_initial_population, C101_weak_parent_fitness_rises, C101_weak_parent_returns_initial_best, C104_lines_of_a_run, C104_outside_a_run, C104_reading_the_log, C105_permutations_throughout, C106_built_from_the_initial_population, C106_convergence_is_final, C106_lost_genes_never_return, C106_no_new_genes, C110_only_the_order_of_fitness_matters, C110_rescaling_fitness_changes_nothing, C111_only_the_order_of_values_matters, C112_only_the_order_of_brightness_matters, C115_ff_example, C115_ff_logging_example, C116_beginnings, C116_decay, C116_decay_to, C116_rounds, C116_unwalked_edges_keep, C118_empty_parents, C118_number_of_cuts, C118_ordered_any_parents, C118_ordered_length_refuted, C118_ppx_any_parents, C118_second_parent_longer, C118_second_parent_shorter, C118_unequal_lengths_panic, C119_converged_pool, C119_identical_parents, C122_groups, C122_rank_draws, C122_rank_wins, C122_tournament_wins, C125_every_bit_string_alike, C125_every_permutation_alike, C126_cuts, C126_random_selection, C126_segments, C126_shuffle, C129_interchange, C129_inversion, C129_one_is_not_enough, C130_always_finite_refuted, C131_multi_point, C131_ordered, C131_parents_unchanged, C131_pmx, C131_ppx, C131_ppx_all_precedence_preserving_children_refuted, C131_ppx_begins_like_a_parent, C131_shuffle, C131_single_point, C131_the_last_gene, C131_two_point, C131_uniform, C133_aco_csv, C133_aco_json, C133_aco_runs, C133_crash, C133_crash_aco, C133_crash_ff, C133_ff_csv, C133_ff_json, C133_ff_run, C133_ga_probes, C133_later_probes_write_nothing, C133_pso_csv, C133_pso_json, C133_pso_run, C133_same_file, C133_write_cities, C134_ant_colony_system, C134_ant_system, C134_elitist, C134_longer_tours, C134_max_min_possible, C134_one_place, C134_square, C134_two_places, C135_decay, C135_decay_to, C135_from_path, C135_grading, C136_one_place_fails, C138_first_with_zero_fitness_possible, C138_random_and_unique_random, C138_rank_excludes_nothing, C138_zero_fitness_never_selected, C140_any_number_of_generations, C140_large_preset_returns, C140_measured_benchmarks, C140_small_preset_panics.

**`Classical_Prop.classic`** (5 theorems): C37_updates_keep_symmetry, C38_best_tour_value, C38_best_tour_within_bounds, C60_ant_system_run, C134_max_min_value.

**`ClassicalDedekindReals.sig_forall_dec`, `FunctionalExtensionality.functional_extensionality_dep`** (2 theorems): C17_ceil_group_size_refuted, C130_initial_velocities_refuted.

**`ClassicalDedekindReals.sig_forall_dec`, `ClassicalDedekindReals.sig_not_dec`, `Classical_Prop.classic`, `FunctionalExtensionality.functional_extensionality_dep`** (164 theorems): C15_selection_counts, C17_full_tournament_is_max, C17_nan_participant_panics, C17_tournament, C19_roulette_full, C20_sus_terminates, C20_sus_terminates_always_refuted, C30_default_points_half_open, C30_points_within_constraints, C31_preset_rates, C36_canonical_ants_tours, C36_exploiting_ants_tours, C38_never_above_upper_bound, C41_cheaper_is_shorter, C41_cost_accuracy, C41_direction, C41_starting_place, C41_whole_weights, C50_constants, C50_default_constants, C51_best_in_last_group, C51_groups, C53_bitstring_solver_runs, C53_realvalued_solver_runs, C54_realvalued_solver_invents_no_coordinate, C55_default_tournament_prefers_the_best_refuted, C56_whole_goodness_never_stuck, C57_zero_goodness_needs_zero_draw, C59_ant_system_never_panics, C59_ants_never_panic, C60_ant_colony_system_run, C61_run_never_fails, C64_default_bounds_within, C64_initial_positions_within_bounds, C70_dixon_price, C70_minimum_any, C70_minimum_atleast2, C70_minimum_nonempty, C70_powell, C70_qing, C70_trid, C71_minimum_four, C71_minimum_two, C72_actual_minimum, C72_no_lower_bound, C72_power_sum, C72_undefined, C72_wrong_documented_minimum, C72_wrong_documented_minimum_n, C74_exactly_zero, C74_never_nan_never_negative, C76_approximate_minima, C76_styblinski_tang_digits, C77_wordmax, C78_alpha_one_panics, C78_boltzmann_cools, C78_boltzmann_prefers_low_fitness, C79_not_the_published_function, C79_published_formulas, C79_shifted_formulas, C80_decoded_schedule_feasible, C81_no_operation_can_start_earlier, C81_placed_as_early_as_possible, C82_fitness_is_a_makespan, C83_evaluating_again_changes_nothing, C83_evaluation_depends_on_genes_only, C85_random_replacement, C85_replacement, C86_share, C87_generation, C88_best_of_all_generations, C88_run, C89_nonnegative, C90_decoding, C90_decoding_reachable, C91_local_optimum, C94_random_search_runs, C94_solver_defaults, C94_solver_runs, C95_best_never_gets_worse, C95_random_search_log, C95_solver_log, C96_reported_fitness_may_be_too_small, C96_solution_string, C96_string_determines_schedule, C98_cities_are_the_draws, C98_cities_in_square, C98_cost_matrix, C98_heuristic, C98_nearly_metric, C99_best_is_shortest, C99_grade, C99_tour_cost, C102_random_search_experiment, C102_unsupported_problem_panics, C103_genetic_experiment, C103_one_run_up_to_dimension_40, C103_points_in_region, C103_program_ends, C103_region_left_when_ranges_differ, C105_permutation_solver_returns, C107_bit_string_solvers, C107_points_stay_in_the_search_space, C107_real_vector_solvers, C108_any_dimension, C108_further_formulas, C108_other_numbers_of_variables, C108_two_variables, C109_formulas_of_the_code, C109_not_the_published_functions, C113_bit_string_solvers, C113_permutation_solvers, C113_real_vector_solvers, C114_ga, C114_ga_ackley, C114_ga_bsc, C114_ga_rvc, C115_pso_example, C117_any_dimension, C117_exponential_sums, C117_fixed_sums, C117_gulf_research_and_langermann, C120_roulette_share, C121_rates, C121_uniform_half, C122_rank_r_draws, C123_stretches, C124_sus_copies, C125_points_spread_evenly, C127_run, C127_tour_fitness, C127_update_keeps_range, C128_colony_keeps_range, C128_run, C129_flip_bit, C129_largest_draw, C129_reversing, C130_default_solver, C130_initial_swarm, C130_initial_velocities, C130_run, C131_uniform_parameterized, C132_an_ant_can_make_every_tour, C132_ant_colony_system, C132_ant_system, C132_local_updates, C132_positive_goodness_refuted, C136_run_never_fails, C137_any_fitness_in_one_generation, C137_any_result, C137_bit_strings_any_future, C137_bit_strings_any_history, C137_default_bit_string_solver, C137_permutations_any_future, C137_permutations_any_history, C138_tournament, C139_every_schedule_can_be_matched, C139_optimum_can_be_drawn, C139_populations_that_can_be_drawn, C139_shipped_constant_may_miss_the_optimum, C141_medium, C141_medium_can_panic, C141_small, C141_small_can_panic.
