import json
P=[]
def p(id,title,statement,quant,why,*anchors):
    P.append(dict(id=id,title=title,statement=statement,quantifier=quant,why_tests_cant=why,anchors=list(anchors)))
XO='src/ga/operators/crossover/impls/'
MU='src/ga/operators/mutation/impls.rs'
SE='src/ga/operators/selection/impls.rs'
RE='src/ga/operators/replacement/impls.rs'
W='Tests sample a few random seeds and a few chromosome sizes; the claim is over all of them.'
p('C01','Point/uniform/shuffle crossover children are position-wise recombinations',
  'For SinglePoint, TwoPoint, MultiPoint, FixedPoint, Uniform, UniformParameterized and Shuffle, when both parents have the same length and the operator does not panic, both children have that length and at every locus l the pair (child1[l], child2[l]) is either (p1[l], p2[l]) or (p2[l], p1[l]): no gene is invented, lost or moved to another locus.',
  'all gene types, all equal-length parent pairs, all RNG outcomes, all operator parameters',W,
  XO+'single_point.rs:apply_single',XO+'two_point.rs:apply_single',XO+'multi_point.rs:apply_single',XO+'fixed_point.rs:apply_single',XO+'uniform.rs:apply_single',XO+'uniform_parameterized.rs:apply_single',XO+'shuffle.rs:apply_single')
p('C02','SinglePoint, FixedPoint and TwoPoint children have the documented segment structure',
  'SinglePoint/FixedPoint: there is one cut c with child1 = p1[..c] ++ p2[c..] and child2 = p2[..c] ++ p1[c..] (c is the configured cut for FixedPoint, and c < len for SinglePoint). TwoPoint: there are a <= b < len with child1 = p1[..a] ++ p2[a..b] ++ p1[b..] and child2 the mirror image.',
  'all equal-length non-empty parent pairs, all RNG outcomes, all fixed cut points',W,XO+'single_point.rs:apply_single',XO+'fixed_point.rs:apply_single',XO+'two_point.rs:apply_single')
p('C03','MultiPoint alternates parents at every cut point',
  'The documentation says MultiPoint works analogously to SinglePoint/TwoPoint: the source parent of child 1 switches exactly at each of the k distinct sorted cut points. The code satisfies this exactly when the smallest cut point is odd; for an even smallest cut point the children alternate at all cut points but that one (with k = 1 they are copies of the parents), because the prefix loop swaps the parents once per locus.',
  'all parents, all sets of distinct cut points','The parity of the first cut decides; a random test only sees a recombination of both parents and passes.',XO+'multi_point.rs:apply_single')
p('C04','Ordered crossover maps permutations to permutations and keeps the substring',
  'For parents that are permutations of one another without repeated genes, OrderedCrossover never panics; each child is a permutation of the parents, carries the chosen substring of its first parent at the same indices, and the remaining genes appear in the order of the second parent.',
  'all gene types with decidable equality, all duplicate-free parent pairs, all begin<=end<=len',W,XO+'ordered.rs:create_child',XO+'ordered.rs:apply_single')
p('C05','PMX terminates and maps permutations to permutations',
  'For duplicate-free parents that are permutations of one another, Pmx never panics and its inner repair loop always terminates; each child is a permutation of the parents, carries the substring of its first parent at the same indices, and outside the substring every gene of the second parent that is not in the substring stays at its own place, and a gene that is in it is replaced by the gene its mapping chain (from the place of the gene in the substring to the gene of the second parent there, again and again) ends with.',
  'all duplicate-free parent pairs, all begin<=end<=len','Termination of the chain-following loop and bijectivity need an argument over every permutation pair.',XO+'pmx.rs:create_child',XO+'pmx.rs:apply_single')
p('C06','PMX on inputs with repeated or foreign genes',
  'Outside its precondition Pmx must not silently loop: it either returns or panics. (Expected to fail on the code: there are equal-length parents for which the loop never terminates.)',
  'all equal-length parent pairs','A hanging test is not evidence of non-termination; the divergence must hold for every number of steps.',XO+'pmx.rs:create_child')
p('C07','PPX maps permutations to permutations and preserves precedence',
  'For duplicate-free parents that are permutations of one another, Ppx never panics; each child is a permutation of the parents, and every gene that precedes another in BOTH parents precedes it in the child. The i-th gene of a child is the first gene, not yet in the child, of the parent chosen by the i-th of the random bits drawn, which both children share with the parents interchanged.',
  'all duplicate-free parent pairs, all take-masks',W,XO+'ppx.rs:create_child',XO+'ppx.rs:apply_single')
p('C08','Crossover apply pairs parents consecutively and preserves the count',
  'For every crossover operator, apply on a mating pool of even size 2k returns exactly 2k children, where children 2i and 2i+1 are the pair produced from parents 2i and 2i+1; on an odd pool it panics. The children carry the not-yet-evaluated fitness f64::MIN, except that the children of FixedPoint keep the fitness of the parent at the same position.',
  'all pool sizes and contents, all RNG outcomes',W,XO+'*.rs:apply')
p('C09','Seedable uniform-crossover RNG does not advance',
  'With a value-type RNG (cloneable PRNG passed by with_rng) a user expects independent masks per pair. (Expected to fail: Uniform and UniformParameterized clone the RNG and never advance it, so every pair of every generation gets the same mask.)',
  'all cloneable RNG states, all mating pools','Independence/dependence between successive applications is a property of all histories.',XO+'uniform.rs:apply_single',XO+'uniform_parameterized.rs:apply_single')
p('C10','Permuting mutations only permute genes',
  'Interchange, Reversing, Inversion and Identity leave the chromosome a permutation of itself (same length, same multiset of genes); Identity leaves it unchanged and a rate of 0 leaves it unchanged for Interchange and Reversing.',
  'all chromosomes, all rates, all RNG outcomes',W,MU+':Interchange',MU+':Reversing',MU+':Inversion',MU+':Identity')
p('C11','FlipBit flips exactly the drawn loci',
  'After FlipBit each gene is negated iff the draw for its locus is below the mutation rate and otherwise unchanged; rate 0 is the identity and rate 1 is the complement; length is preserved.',
  'all bit strings, all rates (any f64), all RNG outcomes',W,MU+':FlipBit')
p('C12','Inversion reverses exactly one segment',
  'When it fires, Inversion picks from <= to < len and the result is prefix ++ reverse(segment from..=to) ++ suffix; when the draw exceeds the rate nothing changes; on an empty chromosome it panics if it fires.',
  'all chromosomes, all rates, all RNG outcomes',W,MU+':Inversion')
p('C13','Reversing is a sequence of adjacent swaps',
  'Reversing performs, for i = 1..len-1 in order, a swap of loci i-1 and i iff the i-th draw is below the rate; with rate >= 1 the result is the left rotation by one.',
  'all chromosomes, rates and draws',W,MU+':Reversing')
p('C14','A seeded mutation operator is reproducible',
  'An operator built with with_rng(seeded) applied to the same input in the same RNG state yields the same output whatever other randomness exists in the process. This holds for Identity, FlipBit, Reversing and Inversion, and fails for Interchange, which draws the partner locus from thread_rng(): whenever it exchanges anything in a chromosome of distinct genes, some other state of the thread RNG gives another result.',
  'all chromosomes, RNG states and ambient thread-RNG states','A test would have to compare over all ambient RNG states.',MU+':Interchange')
p('C15','Selection returns references into the population, in the requested number',
  'Random, UniqueRandom, Rank, RankR, Tournament and Boltzmann return exactly the requested number of references, each to a member of the population, or panic; StochasticUniversalSampling likewise; RouletteWheel returns at most the requested number.',
  'all populations, sizes, fitness values (incl. NaN/inf), RNG outcomes',W,SE)
p('C16','UniqueRandom and Boltzmann never select one individual twice',
  'The returned references are pairwise distinct positions of the population; UniqueRandom panics iff more individuals are requested than exist.',
  'all populations, sizes and RNG outcomes',W,SE+':UniqueRandom',SE+':Boltzmann')
p('C17','Tournament returns the highest-fitness member of each drawn group',
  'Each selected individual has fitness >= every participant of its tournament, a group of distinct members of size max(1, floor(size_factor * n)); with size_factor = 1 every selected individual is a maximum of the whole population. The documented size ceil(size_factor*n) is not what the code computes.',
  'all populations with comparable fitness, all size factors in [0,1], all RNG outcomes',W,SE+':Tournament')
p('C18','Rank keeps the fitter of two random individuals',
  'Each selected individual is one of two drawn members and its fitness is >= the other one\'s whenever they are comparable; the first wins ties.',
  'all populations, RNG outcomes',W,SE+':Rank')
p('C19','RouletteWheel selects a full mating pool of positive-fitness populations',
  'With every fitness positive and finite and total finite, every spin of the wheel selects an individual whose cumulative-fitness interval contains the threshold, so exactly the requested number is returned (floating-point rounding included); in general the result may be short when the total is NaN or negative.',
  'all populations, all RNG outcomes, IEEE-754 arithmetic','Rounding of cumulative sums over arbitrary populations cannot be exhausted.',SE+':RouletteWheel')
p('C20','Stochastic universal sampling result has exactly the requested size or panics; order is population order',
  'Selected positions are non-decreasing in population order; each individual is selected once per pointer falling in its interval; the result has exactly the requested number or the call panics.',
  'all populations, counts and first-pointer draws',W,SE+':StochasticUniversalSampling')
p('C21','WeakParent keeps the two highest-fitness of each family of four',
  'For equal even sizes and comparable fitness, WeakParent returns a population of the same size in which each pair (2i,2i+1) consists of the two largest-fitness individuals of {parents 2i,2i+1} U {children 2i,2i+1}, larger first, and together with the discarded ones forms a permutation of the four.',
  'all even-size populations/children, all fitness orderings',W,RE+':WeakParent')
p('C22','Replacement preserves the best solution of the solver (elitism)',
  'Since GeneticSolver treats the minimum as best, a user expects WeakParent not to discard the best-so-far individual. (Expected to fail: WeakParent keeps the maxima, so the minimum may be discarded and is when all four differ.)',
  'all populations','Orientation mismatch between solver and operator shows only as slow convergence in tests.',RE+':WeakParent','src/ga.rs:find_best_individual')
p('C23','BothParents and Noop',
  'BothParents returns exactly the children, Noop returns exactly the old population, and neither requires children fitness; the solver panics after replacement iff the new population size differs from the configured one.',
  'all populations',W,RE+':BothParents',RE+':Noop','src/ga.rs:run')
p('C24','run returns the best individual ever evaluated',
  'GeneticSolver::run returns Some(b), where b is one of the individuals of the initial population or some generation shown to the probe and b.fitness <= the fitness of every individual of every one of those populations (fitness values comparable).',
  'all operators, fitness functions, RNG/clock behaviours, generation limits','Quantifies over every operator implementation and every run.','src/ga.rs:GeneticSolver::run')
p('C25','Probe callback protocol of the GA',
  'The sequence of callbacks of every terminating run is: on_start; on_initial_population_created; on_new_best; then for each generation g = 1,2,.. on_iteration_start, on_new_generation, on_best_fit_in_generation, at most one on_new_best, on_iteration_end; and finally exactly one on_end. metrics.generation is 0 before the loop, g during generation g.',
  'all runs','Order of callbacks over all runs and operator choices.','src/ga.rs:GeneticSolver::run','src/ga/probe.rs:Probe')
p('C26','on_new_best events are strictly improving and end with the result',
  'Successive individuals passed to on_new_best have strictly decreasing fitness; on_new_best fires in generation g iff that generation\'s best is strictly better than everything before; the last one is the individual passed to on_end and returned by run.',
  'all runs',W,'src/ga.rs:GeneticSolver::run')
p('C27','Populations shown to probes are fully evaluated',
  'Every individual of every population passed to on_initial_population_created, on_new_generation and on_end carries fitness equal to the fitness function of its chromosome, and every such generation has exactly population_size individuals.',
  'all runs, all pure fitness functions, all operators',W,'src/ga.rs:eval_pop','src/ga.rs:run')
p('C28','Termination of the GA',
  'run performs at most generation_limit generations; it stops at the first generation after which the elapsed time is >= max_duration, and performs exactly generation_limit generations if that never happens; at least one generation is performed when generation_limit >= 1 even if max_duration is zero.',
  'all clocks, limits, operators',W,'src/ga.rs:run')
p('C29','Population generators produce the requested number and shape',
  'RandomPoints/BitStrings/RandomPermutations generate exactly count individuals of exactly dim genes; permutations are permutations of the given genes.',
  'all counts, dims, RNG outcomes',W,'src/ga/population/impls.rs','src/ga/population/tools.rs')
p('C30','Generated points respect their constraints',
  'Each coordinate of a generated point lies in the closed interval [start, end] of its range whenever end - start does not overflow, and in the half-open range [0, 1) for the default constraints. The documented half-open claim fails in general (a draw below 1 may round up to end), and a range whose width overflows yields infinite coordinates.',
  'all finite ranges, all draws in [0,1)','Rounding corner cases are missed by random draws.','src/ga/population/tools.rs:generate_with_constraints')
p('C31','Builder: explicit parameters win, defaults fill the rest, missing operators are rejected',
  'For GenericBuilder, build succeeds iff fitness, mutation, crossover, selection, replacement, population generator and probe were all set, and the resulting parameters are the last value set by the user or the default (100, usize::MAX, Duration::MAX); otherwise it panics with the error of the first missing item. RealValued/BitString builders need only fitness and dimension.',
  'all sequences of setter calls','Every order and repetition of setter calls.','src/ga/builder.rs','src/ga/builder/generic.rs','src/ga/builder/realvalued.rs','src/ga/builder/bitstring.rs')
p('C32','GA generation-interval policy logs exactly the documented iterations',
  'With interval >= 1 and first_threshold t >= 1, in a run over generations 1..n the wrapped probe sees iteration events exactly for generations t, t+interval, t+2*interval, ...; within an iteration all four iteration callbacks are forwarded or none is.',
  'all intervals, thresholds, run lengths',W,'src/ga/probe/probing_policy.rs:GenerationInterval','src/ga/probe/policy_driven_probe.rs')
p('C33','Aggregated probe forwards every event to every probe in insertion order',
  'For any list of probes and any event sequence, each contained probe observes exactly the same event sequence, and for each event the probes are called in the order they were added (GA, PSO and FF aggregated probes).',
  'all probe lists and event sequences',W,'src/ga/probe/aggregated_probe.rs','src/pso/probe/aggregated_probe.rs','src/ff/probe/aggregated_probe.rs')
p('C34','Ants build Hamiltonian tours',
  'An ant of size n driven through clear, chose_staring_place and n-1 go_to_next_place steps that does not get stuck has a path that is a permutation of 0..n-1, for both CanonicalAnt and ExploitingAnt; the visited and unvisited places always partition 0..n-1; a stuck ant repeats its last place and stays stuck.',
  'all goodness matrices (incl. NaN), hash orders, RNG outcomes, sizes',W,'src/aco/tsp/ant.rs')
p('C35','AntSystemAB returns only complete tours',
  'Every path returned by AntSystemAB::simulate_ants is a permutation of 0..n-1, the paths are those of the ants up to the first stuck one, in order. (All ants after the first stuck one are discarded, which a user would not expect.)',
  'all colonies, matrices, RNG outcomes',W,'src/aco/tsp/ants_behaviour.rs:AntSystemAB')
p('C36','AntColonySystemAB returns only complete tours, with CanonicalAnts always, with ExploitingAnts for goodness above f64::MIN',
  'Every path returned by AntColonySystemAB::simulate_ants is a permutation of 0..n-1 when the ants are CanonicalAnts, whatever the goodness (NaN and infinities included), and for ExploitingAnts when no goodness is NaN or at most f64::MIN. In general the paths have n places and are permutations or repeat the place before last in the last position; the unconditional claim is false (an exploiting ant meeting NaN in its last step).',
  'all colonies, matrices, RNG outcomes','Needs an ant to get stuck exactly in the last step.','src/aco/tsp/ants_behaviour.rs:AntColonySystemAB')
p('C37','Pheromone updates keep a symmetric matrix symmetric and touch only tour edges',
  'AntSystemPU, ElitistAntSystemPU, AntColonySystemPU and MMAntSystemPU preserve symmetry of the pheromone matrix exactly (bit for bit); entries of edges on no depositing tour are just scaled by (1 - evaporation_rate).',
  'all matrices, solutions, rates; IEEE-754 arithmetic',W,'src/aco/tsp/pheromone.rs')
p('C38','Max-min ant system: the best tour is kept within the bounds, everything below the upper bound, but not above the lower bound',
  'After MMAntSystemPU every edge of the best tour is in [lower_bound, upper_bound] and equals the clamped sum of the evaporated value and the fitness, in both directions; all other edges are just evaporated, so that values never exceed the upper bound once they are within it. That every value is at least lower_bound is false: evaporation pushes the other edges below it.',
  'all matrices, solutions, rates','The violation needs several evaporation steps on an edge outside the best tour.','src/aco/tsp/pheromone.rs:MMAntSystemPU')
p('C39','Best policies',
  'After any history of update_best calls OverallBest holds the highest-fitness solution of all iterations (or the empty default if none exceeded 0), its fitness never decreases; IterationBest holds a maximal solution of the last non-empty iteration.',
  'all histories of solution lists with comparable fitness',W,'src/aco/tsp/pheromone/best_policy.rs')
p('C40','ACO main loop',
  'With IterationCond(k) run performs exactly k iterations; the probe sees, per iteration, on_iteration_start, on_current_best (a maximum-fitness solution of that iteration), on_pheromone_update, on_iteration_end, and finally on_end once; an iteration with no solution panics.',
  'all colonies, graders, update rules, limits',W,'src/aco.rs','src/aco/termination_condition.rs')
p('C41','Tour grading',
  'PathLengthInverse gives each solution fitness 1/(sum of the weights of its closed tour edges) and leaves paths untouched; over exact arithmetic the cost is invariant under rotation, and under reversal for symmetric weights. With non-negative weights every finite computed cost is the exact length up to a relative error of 2^-53 per edge, so rotating or reversing a tour changes the computed cost by rounding only.',
  'all paths and weight matrices',W,'src/aco/tsp.rs:PathLengthInverse')
p('C42','PSO personal and global bests',
 "At every generation of every run each particle's best_position_value equals the objective at its best_position, a position it has visited, and - unless it started at a NaN - is <= every comparable value at a position it has visited; the swarm's best value equals the objective at the swarm's best position, which some particle has visited, and - unless the first particle started at a NaN - is <= every comparable particle best and never increases.",
 'all objectives, coefficients, bounds, RNG outcomes, swarm sizes, dimensions, schedules, termination conditions, generations', W, 'src/pso/swarm.rs','src/pso/particle.rs','src/pso.rs')
p('C43','PSO parallel updates are schedule independent',
 "Positions after the parallel position update do not depend on the order in which rayon processes the particles. The velocity update (and the whole run) depends only on which particles each worker thread processes and in which order it does, not on how the threads interleave; under every schedule each particle is processed exactly once, by the velocity rule with factors in [0, 1], and nothing panics.",
 'all schedules, numbers of workers, swarms, draws', 'Schedules cannot be enumerated by tests.', 'src/pso/swarm.rs:update_velocities','src/pso/swarm.rs:update_positions')
p('C44','PSO termination and probe protocol',
 "With GenerationLimit(n) run never fails, performs exactly n generations and the probe sees on_begin, on_new_generation for 1..n in order, on_end(n); any condition stops the run at the first check that is met; TimeLimit measures from its construction, so a run started later than the limit performs no generation. With PolicyDrivenProbe and GenerationInterval(k), k >= 1, the wrapped probe records generations 0, k, 2k, ... and the final one exactly once each, likewise for ElapsedTime with the due generations; GenerationInterval(0) panics at the first generation.",
 'all limits, intervals, clocks, wrapped probes, runs', W, 'src/pso.rs:run','src/pso/termination_condition.rs','src/pso/probe/policy_driven_probe.rs','src/pso/probe/probing_policy.rs')
p('C45','PSO with NaN objective values',
 "If no particle starts at a NaN, the swarm's best value is at every generation <= every comparable value any particle has seen. If the first particle starts at a NaN, the swarm's best position never changes and its value is NaN at every generation whatever the others find; if another particle starts at a NaN, its best stays there, so its later finds are lost.",
 'all objectives, runs and schedules', 'Needs NaN at exactly the first particle.', 'src/pso/swarm.rs:generate','src/pso/swarm.rs:update_best_position','src/pso/particle.rs:update_position')
p('C46','Firefly positions stay within the search bounds',
  'With lower_bound <= upper_bound, after every generation each coordinate is NaN or within [lower_bound, upper_bound], every reported position is that of a firefly, and the number of fireflies and the dimension of each never change.',
  'all objectives, distances, distributions, RNG outcomes, generations; IEEE-754',W,'src/ff.rs:run')
p('C47','Firefly bound handling',
  'A candidate coordinate that is NaN or strictly between the bounds is kept, one above goes to the upper bound, one at or below the lower bound goes to the lower bound, and one exactly equal to the upper bound goes to the lower bound; so the handling is not a clamp (shown by a run).',
  'all candidates, all bounds','Exact equality with the bound is never hit by random tests.','src/ff.rs:run')
p('C48','Firefly first generation',
  'In generation 0 the flight length is divided by zero: every firefly that sees a brighter one ends with each coordinate at a bound or NaN, whatever the distance, the distribution and the parameters.',
  'all populations, objectives, distributions, draws','Visible only in the first generation; tests check final values.','src/ff.rs:run')
p('C49','Firefly best reporting',
  'The values given to on_current_best never increase over the run; each is f64::MAX or the objective at a position reported up to then, and is not above the objective at any position reported up to then. Value and position of one report need not belong together (shown by a run).',
  'all runs',W,'src/ff.rs:run')
p('C50','Firefly builder',
  'build always succeeds and every field is the value set last (set_config resets all parameters) or the documented default; the population is the default one of 25 points in two dimensions unless set_population is called, whatever set_population_size and set_dimensions say, so that a population size above 25 makes run panic. The default constants are the binary64 numbers nearest to 0.01, 0.97 and 0.99, and e within 2^-52.',
  'all sequences of setter calls',W,'src/ff/builder.rs','src/ff.rs:run')
p('C51','Group-wise pheromone update partitions the solutions by fitness',
  'PartFromEvalPU hands every solution to exactly one sub-update, in order, and a solution of higher fitness never goes to a lower group; sub-updates see groups of the last call only.',
  'all solution lists, group counts; IEEE-754',W,'src/aco/pheromone.rs:PartFromEvalPU')
p('C52','Each generation is made from the previous one by the configured operators',
  'Generation g+1 shown to the probe is obtained from generation g by exactly one call of selection on the evaluated population, one crossover of the selected individuals in selection order, one mutation of each child in order, evaluation of the children iff replacement asks for it, one replacement of (old population, children) and evaluation; the initial population is the generated one, evaluated; on_end shows the last population.',
  'all operators, all runs','Data flow between operators over all operator implementations.','src/ga.rs:GeneticSolver::run')
p('C53','Preset solvers run to completion for even populations and cannot run for odd ones',
  'A solver built by Builder::with_rvc() or with_bsc() with any accepted sequence of setter calls, a fitness function that never returns NaN and an even population size (at most 2^53) never panics: run returns a result for every outcome of the random draws and every clock. With an odd population size run always panics in the first generation (the crossover asserts an even mating pool).',
  'all setter sequences, fitness functions, random draws, clocks, generation limits','Needs all draws of all operators over unbounded runs; odd sizes are accepted by the builder.','src/ga/builder/realvalued.rs:build','src/ga/builder/bitstring.rs:build','src/ga.rs:run','src/ga/operators/crossover/impls/single_point.rs')
p('C54','The default real-valued solver only recombines initial coordinates',
  'In a run of a solver built by Builder::with_rvc() every coordinate of every individual ever shown to the probe is, bit for bit, a coordinate of some individual of the initial population, all of which lie in [0, 1). (So the default solver cannot reach any other value, whatever the fitness function.)',
  'all runs, fitness functions, draws',W,'src/ga/builder/realvalued.rs:build','src/ga/operators/mutation/impls.rs:Interchange','src/ga/operators/crossover/impls/single_point.rs')
p('C55','The default selection prefers better individuals',
  'GeneticSolver treats the smallest fitness as best, so a user expects the default tournament to prefer it. (Fails: with at least 10 individuals the strictly best individual of a generation is never selected as a parent, whatever the draws.)',
  'all populations of at least 10, all draws','Tests of Tournament never look at the direction used by the solver.','src/ga/operators/selection/impls.rs:Tournament','src/ga/builder/realvalued.rs:build','src/ga.rs:find_best_individual')
p('C56','Ants always complete their tour when goodness is whole, but not in general',
  'With whole-number goodness whose row totals stay within 2^53, an ant of either kind completes a tour of all n places from any draws. For general positive finite goodness it may not: rounding in the wheel can leave the ant at its place (stuck), and AntSystemAB then drops it and all later ants.',
  'all sizes, goodness matrices, draws, hash orders','Needs a draw in the last few ulps of the wheel.','src/aco/tsp/ant.rs','src/aco/tsp/ants_behaviour.rs')
p('C57','A place of zero goodness is chosen by the wheel only with a draw of exactly zero',
  'When a canonical ant draws a positive random number, the chosen place has a non-zero goodness (or the ant is stuck); with a draw of exactly 0.0 a place of zero goodness can be chosen.',
  'all goodness rows, hash orders, draws','A zero draw has probability around 2^-53.','src/aco/tsp/ant.rs:CanonicalAnt')
p('C58','An exploiting step goes to a place of greatest goodness',
  'When the exploitation draw falls below the rate, the ant goes to an unvisited place whose goodness is maximal among the unvisited ones.',
  'all goodness rows, hash orders, rates',W,'src/aco/tsp/ant.rs:ExploitingAnt')
p('C59','Ants do not panic on moderate goodness',
  'With finite non-negative goodness up to 2^900 no ant step panics, whatever the draws; a row total that overflows to infinity does panic.',
  'all matrices, ants, draws',W,'src/aco/tsp/ant.rs')
p('C60','Every best reported by a travelling-salesman run is a correctly graded tour',
  'In a run built from AntSystemAB (any goodness) or AntColonySystemAB (goodness above f64::MIN), PathLengthInverse and any of the four pheromone updates, every solution passed to on_current_best is a permutation of 0..n-1 whose fitness is 1 over the sum of its closed-tour weights; with AntSystemAB every pheromone reported is symmetric when the initial one is.',
  'all sizes, weights, goodness functions, update rules and rates, termination conditions, draws','A whole-run invariant over every schedule of draws.','src/aco.rs','src/aco/tsp.rs','src/aco/tsp/ants_behaviour.rs','src/aco/tsp/pheromone.rs')
p('C61','A travelling-salesman run with whole-number goodness never fails',
  'With IterationCond(k), at least one ant, square matrices of matching size and whole-number goodness, an Ant System run with any of the four update rules finishes without panic after exactly k iterations.',
  'all sizes, weights, update rules, draws, k','Every draw of every ant in every iteration.','src/aco.rs','src/aco/tsp.rs')
p('C62','Local updates change exactly the last edges, in one direction',
  'Decay and DecayTo multiply (and top up) exactly the entries (s, r) where s, r are the last two places of a partial path, once per path and in order; everything else is unchanged. They therefore do not preserve symmetry.',
  'all matrices, rates, path lists',W,'src/aco/tsp/local_update.rs')
p('C63','Goodness, heuristic and city-cost matrices are built elementwise',
  'CanonicalGoodness yields p^alpha * h^beta for each entry when the heuristic has the size of the pheromone, panics when it is smaller and silently combines wrong entries when it has more rows; create_heuristic_from_weights inverts each non-zero weight and keeps zeros; the cost matrix of generate_tsp_cost is symmetric with the Euclidean distance of each pair of cities.',
  'all matrices, city lists',W,'src/aco/tsp/goodness.rs','src/aco/tsp/util.rs')
p('C64','PSO movement, shape and bounds',
 "At every generation the swarm has the configured number of particles, all of the configured dimension, and each particle moves by x' = x + v', v' = w v + c1 r1 (p - x) + c2 r2 (g - x) with factors in [0, 1] drawn per coordinate, p its own and g the swarm's best before the generation. Initial positions lie within [lower_bound, upper_bound] whenever (upper - lower) + lower does not round above upper, in particular for the default bounds; otherwise they may exceed upper_bound by rounding. During a run the bounds are not enforced: positions can leave them.",
 'all objectives, coefficients, bounds, draws, schedules, generations; IEEE-754', W, 'src/pso/particle.rs','src/pso/swarm.rs')
p('C65','PSO builder',
 "For every sequence of setter calls each parameter is the last value set or the documented default (three setters share the termination condition); build succeeds iff the particle count is not 0 and then every particle has the configured dimension, the configured objective's value and itself as best; build().run() with a generation limit n never fails and performs n generations; with a time limit it stops at the first check at which the limit has passed.",
 'all setter sequences, draws, schedules', W, 'src/pso/builder.rs','src/pso.rs:PSOAlgorithmCfg')
p('C66','PSO Json and Csv records',
 "After a run the Json and Csv probes have written one record per generation 0..n in order, each with the swarm's best position of that generation and the objective's value there (Csv: the value only), values never increasing once comparable; under GenerationInterval(k) exactly the records 0, k, 2k, ... and n.",
 'all runs and intervals', W, 'src/pso/probe/json_probe.rs','src/pso/probe/csv_probe.rs')
p('C67','Firefly movement rule and reported firefly',
  'In every generation each firefly flies from its old position towards the brighter firefly with the greatest index among the first population_size, or walks at random when none is brighter; brightness is 1/objective and the randomness after j generations is alfa0 times delta j times. The reported position is that of the brightest of the first population_size if one has positive brightness, else of the first; so with negative objectives it need not be the one of least objective (shown by a run).',
  'all runs, objectives, distances, draws',W,'src/ff.rs:run','src/ff.rs:move_firefly')
p('C68','Firefly runs succeed or panic',
  'A run over a non-empty population of points of one dimension, at least as many as population_size, with a distance defined on them, succeeds with exactly max_generations iterations; an empty population or one smaller than population_size panics. from_config gives population_size points of the configured dimension with coordinates in [lower, upper), and panics on an empty or infinite range.',
  'all populations, configurations, draws',W,'src/ff.rs:run','src/ff/population.rs','src/ff/auxiliary.rs')
p('C69','Firefly probes',
  'Behind GenerationInterval(k, t) any probe sees on_start, on_end and exactly the callbacks of the iterations t, t+k, t+2k, ...; behind ElapsedTime exactly those of the iterations at which interval seconds have passed since the last logged one or since construction + first_threshold, so that nothing is logged before first_threshold + interval, and with interval 0 everything is logged. Once the next number of GenerationInterval would pass 2^32 it panics in debug builds, and in release builds it wraps round and logs the next iteration too. JsonProbe and CsvProbe write one record per logged iteration with its number and the reported value (and position).',
  'all runs, all wrapped probes, all clock readings','Data flow through stateful policies for all run lengths.','src/ff/probe/probing_policy.rs','src/ff/probe/json_probe.rs','src/ff/probe/csv_probe.rs','src/ff/probe/policy_driven_probe.rs')
TF='src/test_functions/mod.rs'
p('C70','Documented minima of the functions of any dimension',
  'For every number of dimensions, sphere, rastrigin, ackley, griewank, zakharov, sum_squares, sum_of_powers, rotated_hyper_ellipsoid, xin_she_yang_2, brown, schumer_steiglitz, chung_reynolds, alpine, salomon and powell_sum have their global minimum 0 at the origin, levy and rosenbrock at (1, ..., 1), quintic at (-1, ..., -1) and (2, ..., 2), pathological, trigonometric1, powell, powell2 at the origin, dixon_price, trid and qing at the documented points with the documented values: no point has a smaller value. exponential has the minimum -1 at the origin.',
  'all numbers of dimensions n and all vectors of reals','A statement about every point of R^n for every n; sampling points cannot exclude a smaller value.',TF)
p('C71','Documented minima of the functions of two and four variables',
  'beale, booth, bohachevsky 1-3, bukin 4 and 6, three_hump_camel, drop_wave, easom, freudenstein_roth, goldstein_price, himmelblau (3, 2), levy_n13, leon, matyas, parsopoulos, periodic, price 1, 2, 4, rotated_ellipse 1-2, schaffer 1-2 and colville have exactly the documented minimum at the documented point; miele_cantrell wherever it has a value.',
  'all points of the plane (of R^4)','As C70: a universally quantified inequality over the reals.',TF)
p('C72','Test functions that contradict their documentation',
  'For 36 functions the documented global minimum is not one: the value at the documented point is another (biggs_exp 2-6, brent, cube, branin, chen_bird, ...), no point has a value that small (ackley3, keane, paviani, ...), smaller values exist (giunta, trecanni, deb1), the function is unbounded below (adijman, bukin_2, six_hump_camel, schwefel, damavandi, ...) or has no real value there at all (ackley2, perm functions, csendes).',
  'all tolerances up to the stated one, all points','Absence of any point with the documented value, or of any lower bound, is not observable by finitely many evaluations.',TF)
p('C73','Test functions that cannot be evaluated',
  'de_jong_n5, devilliers_glasser1, hartmann_3d, hartmann_4d, hartmann_6d, shekel, shekel_default, stretched_v_sine_wave and trid10 panic for every argument; rana and pinter panic for every non-empty vector.',
  'all vectors, all numbers','A test shows the panic for the vectors tried only.',TF)
p('C74','Floating-point values of sums of squares are comparable',
  'For every vector of finite f64 coordinates with an admissible number of dimensions, sphere, sum_squares, rotated_hyper_ellipsoid, chung_reynolds, schumer_steiglitz, qing, rosenbrock, dixon_price, powell2, booth, himmelblau, price1, leon and bukin_4 return a number that is not NaN and not negative, so comparing individuals by it never panics; at the documented minimum (sphere, rosenbrock, ...) the result is exactly 0.0. For other functions this fails: matyas is NaN at (1e200, 1e200).',
  'all vectors of finite f64, all dimensions, any libm','All bit patterns of all coordinates, including those whose squares overflow.',TF)
p('C75','Number of dimensions accepted by each test function',
  'Each test function either returns or panics depending on the number of coordinates only: the functions of 2, 3, 4, 5, 6, 10 and 99 variables accept exactly that number, others every non-empty vector, every vector of at least two (four) coordinates, or every vector; powell panics on multiples of four, and bartels_conn accepts three coordinates although it is documented (and defined) for two.',
  'all vectors of all lengths, all numbers including NaN','All lengths and all values of the coordinates.',TF)
p('C76','Minima documented by decimal approximations',
  'zirilli and zettl take the documented value at the documented point up to its last digit, and no smaller value beyond it anywhere; styblinski_tang lies within 0.000005 n of -39.166165 n at the documented point and nowhere below, so the documented -39.16599 n is off in the fourth digit.',
  'all points; all dimensions for styblinski_tang','As C70.',TF)
p('C77','wordmax counts the true genes',
  'wordmax is the number of true genes of the chromosome: at most its length, with equality exactly for the chromosome without false genes.',
  'all chromosomes','All lengths and all words.',TF)
p('C78','Boltzmann weights: lower fitness is preferred, more so in later generations',
  'For any monotone exp and positive temperature an individual with a lower fitness has at least the weight of one with a higher fitness (rounding and overflow included); the weight of an individual with fitness >= 0 does not increase with the generation number. With alpha = 1, which is accepted, an individual of fitness 0 makes every selection panic.',
  'all populations, fitness values, generations, any monotone libm','Monotonicity of a composed floating-point computation over all inputs.','src/ga/operators/selection/impls.rs:Boltzmann')
p('C79','Test functions of any dimension compute the published formulas',
  'For every vector of every dimension, sphere, sum_squares, powell_sum, rotated_hyper_ellipsoid, rastrigin, griewank, ackley, zakharov, styblinski_tang, schwefel, michalewicz, rosenbrock and trid are, computed exactly, the published functions of those names. dixon_price and sum_of_powers are not: the code weighs the i-th term of the former with i - 1 instead of i and raises the i-th coordinate of the latter to the power i instead of i + 1.',
  'all real vectors of all dimensions','Equality of two functions at every point and in every dimension.',TF)
p('C80','Job shop: decoded schedules are feasible',
  'Whatever the genes of an individual, once its evaluation ends the finish times it records describe a feasible schedule: the operations of a job follow each other in order, no machine performs two operations at once, and the reported fitness is at most the makespan of that schedule. This holds for fresh individuals of every valid shop and, for standard shops (positive durations, consecutive operations on different machines), for every individual that can exist during a run.',
  'all shops, all gene vectors, all delay constants from 0 to 1000, all individuals reachable by evaluation and crossover',W,
  'examples/jssp/problem/fitness.rs: evaluate_individual, update_delay_feasibles_and_highest_prior_op','examples/jssp/problem.rs: Machine::is_idle, reserve')
p('C81','Job shop: decoded schedules are active',
  'The recorded schedule arises by placing the operations one after the other, each at the earliest time at which its predecessor in the job is finished and its machine is free; consequently no single operation can be moved to an earlier time without violating feasibility.',
  'all valid shops, gene vectors and delay constants',W,
  'examples/jssp/problem/fitness.rs: evaluate_individual')
p('C82','Job shop: the fitness is the makespan of a feasible schedule',
  'For standard shops evaluation always ends, never panics, leaves the genes alone, and its fitness is exactly the makespan of some feasible schedule; it is at least the work of every machine and of every job, at most the total work of the shop, and at most the makespan of the recorded schedule.',
  'all standard shops and all individuals that can exist during a run',W,
  'examples/jssp/problem/fitness.rs: evaluate_individual, local_search, calculate_critical_distance, swap_ops')
p('C83','Job shop: evaluation depends on the genes only',
  'For standard shops the result of evaluating an individual (the individual afterwards and the fitness) is the same as for a fresh individual with the same genes, whatever was evaluated in it or its ancestors before; evaluating an evaluated individual again changes nothing.',
  'all standard shops, all histories of evaluations and crossovers',W,
  'examples/jssp/problem/individual.rs: reset','examples/jssp/problem.rs: Operation::reset, Machine::reset')
p('C84','Job shop: limits of the evaluation',
  'Two things users might expect do not hold: with operations of duration zero the evaluation of a valid individual can run forever (a swap on a tie makes the graph cyclic), and the finish times recorded in an individual need not be those of the schedule whose makespan is its fitness (local search improves the fitness without updating them).',
  'existence of shops and genes for which no amount of time suffices / the recorded makespan is larger',W,
  'examples/jssp/problem/fitness.rs: local_search, calculate_critical_distance')
p('C85','Job shop: elitist replacement',
  'The next population consists of the floor(elite_rate*n) best individuals of the old one, then children in order, then floor(sample_rate*n) fresh random individuals; its size is n. It panics exactly when the shares exceed n, when both shares are empty, or when there are too few children. The random replacement returns n fresh individuals.',
  'all rates, populations, children and draws',W,
  'examples/jssp/problem/replacement.rs: JsspReplacement::apply, ReplaceWithRandomPopulation::apply')
p('C86','Job shop: crossover swaps genes by position',
  'For every pair of parents and every position the two genes stay (draw at most 0.6) or are swapped; genes stay valid; children keep everything else of their parent and are marked for evaluation. An odd number of parents or a second parent with fewer genes makes it panic.',
  'all parents and draws',W,
  'examples/jssp/problem/crossover.rs: JsspCrossover::apply_single, apply')
p('C87','Job shop: instances and fresh individuals',
  'Reading an instance gives every operation exactly one position, with its duration, machine, the preceding operations of its job and an edge to the next one (the last one to the sink); the source has an edge to the first operation of every job. Generated individuals have two genes from 0 to 1 per operation and an empty schedule.',
  'all shops without empty jobs, all draws',W,
  'examples/jssp/parse.rs: try_from','examples/jssp/problem/population.rs: JsspPopProvider::new, generate')
p('C88','Job shop: the solver',
  'For standard shops, rates that leave room, and any selection that gives an even and sufficient number of positions, every run ends without panicking; every individual of the final population and the result are evaluated individuals whose fitness is what evaluating their genes afresh gives and is the makespan of a feasible schedule; the result is at least as good as every individual of every population of the run.',
  'all standard shops, parameters, selection operators, time limits, numbers of generations and draws',W,
  'src/ga.rs: run, eval_pop, find_best_individual','examples/jssp/main.rs: run_with_config')
p('C89','Firefly: the distance functions',
  'For points of the same dimension cartesian_distance is the square root of the squares, and taxi_measure_distance the sum of the absolute values, of the differences of the coordinates, added from the first dimension to the last; both give exactly the same number when the points are exchanged; the distance of a point with finite coordinates to itself is 0; and between points with finite coordinates the result is never negative and never NaN, even when an intermediate result overflows.',
  'all dimensions and all coordinates',W,
  'src/ff/auxiliary.rs: cartesian_distance, taxi_measure_distance')
p('C90','Job shop example: which schedule a chromosome stands for',
  'Evaluating an individual places the operations one by one, each as early as its job and its machine allow. Time starts at 0 and stands still while some unplaced operation is eligible, i.e. its job predecessor is placed and finishes within the delay window of the current step (gene n+g, times the delay constant, times the longest duration); otherwise it moves to the first later finish time at which one is eligible. Among the eligible operations the one with the highest priority gene is placed; ties go to the operation that comes first. These rules determine the order and all start times.',
  'all valid shops, all genes, all delay constants from 0 to 1000; for standard shops all individuals that occur during a run',W,
  'examples/jssp/problem/fitness.rs: JsspFitness::evaluate_individual, update_delay_scheduled_set, update_feasibles, delay_for_g')
p('C91','Job shop example: the local search ends in a local optimum',
  'After the evaluation the individual stores, for every machine, an order of all its operations. The makespan of these orders (the shortest of all schedules that follow them) is at most that of the orders in which the operations were placed; there is a critical path, cut into blocks of consecutive operations on one machine, such that neither exchanging the first two operations of a block (other than the first block) nor the last two of a block (other than the last block) gives orders with a shorter makespan. The fitness is the smaller of this makespan and the makespan of the decoded schedule.',
  'all standard shops, all individuals that occur during a run',W,
  'examples/jssp/problem/fitness.rs: local_search, determine_critical_path, determine_critical_blocks, swap_ops, determine_makespan')
p('C92','What the ant colony probes record','A probe never influences a run: the run with it ends in the same pheromone and state, and the probe gets exactly the callbacks of the run in order. After a finished run CsvProbe has written best.csv with, for each iteration k = 1, 2, ... and each place of the best path of that iteration, the row (place, next place around the circle, k), and pheromone.csv with every entry (i, j, k, value) of the pheromone after each iteration, row by row; JsonProbe has written one record per iteration with the rows of the pheromone after it and its best solution; StdoutProbe has printed the iteration number, the best fitness and a separator per iteration and END last. The three never make a run fail. A run that stops anywhere before its last callback has written no file. JsonProbe panics on a best solution or pheromone before any iteration start.','all colonies, graders, update rules, termination conditions, start pheromones and runs; all crash points','Tests run a couple of iterations of one solver; the claim is over every run and every point at which it may stop.','src/aco/probe/csv_probe.rs: CsvProbe','src/aco/probe/json_probe.rs: JsonProbe, into_vec','src/aco/probe/stdout_probe.rs: StdoutProbe','src/aco.rs: AntColonyOptimization::run')
p('C93','Ant colony builder','For every sequence of setter calls, in any order and with repetitions, build returns a solver exactly when colony, start pheromone, pheromone update, grader, termination condition and probe have all been set, and each of its parts is the one set last; otherwise it panics. The additional arguments are those given (or the unit value). A solver whose last termination setting is with_iteration_termination(k) performs exactly k iterations, for any parts and probe; one whose last probe setting is with_stdout_probe prints the three lines of each iteration, numbered from 1, and END.','all sequences of setter calls, all values, all runs of the built solver','Tests build a few solvers with one order of calls.','src/aco/builder.rs: Builder','src/aco/termination_condition.rs: IterationCond')
p('C94','Job shop program: when it works',"Given arguments that name existing files, a complete configuration and an instance file of a shop (positive durations, consecutive operations of a job on different machines), the solver ends exactly when there is at least one generation and the population size is even and at least six, and panics otherwise; with the default size (twice the number of operations) it ends exactly for shops of at least three operations. The random search ends for every size and number of generations except zero. Missing files, incomplete configurations and unreadable instances panic. The delay factor of the arguments and of the configuration file has no effect on a run. The selection operator takes the worse of two individuals drawn at random.","all arguments, configuration files, instances, random streams and time limits","crashes depend on the size of the population and hold for every instance and stream; termination is a statement about all executions",'examples/jssp/main.rs: run, run_jssp_solver, run_randomsearch','examples/jssp/config.rs: Config::try_from','examples/jssp/cli.rs: validate_args','src/ga/operators/selection/impls.rs: Rank::apply')
p('C95','Job shop program: the log is a faithful record',"The log of a run is the chronicle of its populations: event_popmetrics has one row per population with its number, its size and the mean distance of its pairs of chromosomes; event_bestingen has for every generation its smallest fitness; event_newbest has exactly the generations whose smallest fitness is smaller than that of all populations before, in order; the final record has the fitness, the chromosome and the solution string of the first best individual of all populations, and the number of generations. The populations have the configured size, their individuals are the evaluations of their genes, and each population of the solver consists of the best tenth of the one before, a fifth of new individuals, and children of its individuals. There is one population per generation until the limit or the end of time. From a population size of ten on, the best fitness of a generation never gets worse.","all runs that end: all instances, arguments, random streams and time limits","the log must agree with the whole history of populations of every run",'examples/jssp/problem/probe.rs: JsspProbe','examples/jssp/problem/replacement.rs: JsspReplacement','src/ga.rs: GeneticSolver::run','examples/jssp/util.rs: euclidean_distance')
p('C96','Job shop program: the solution string',"For every shop and chromosome, the solution string of the evaluated individual lists every operation exactly once, by finish time in the schedule that the individual records and by machine among equal finish times; it is the only such list. The schedule in which every operation starts as soon as its job predecessor and the operations listed before it on its machine have finished is the recorded one, and no other schedule has this property; so individuals with the same string record the same schedule. But the fitness reported with it may be smaller than the makespan of that schedule (a complete run of the program shows it).","all valid standard shops, all chromosomes, all delay constants; for the last part one run","the order and its uniqueness must hold for every chromosome and every tie pattern",'examples/jssp/problem/probe.rs: JsspProbe::on_end','examples/jssp/problem/fitness.rs: JsspFitness')
p('C97','Job shop program: the configuration',"Every value of the configuration is the one given by the arguments, or else the one in the configuration file, or else the default (no random search; the number of generations and the population size stay open). There is no configuration exactly when the named configuration file cannot be read, or no input file is given by either, or an input file but no output directory; the error tells which.","all arguments and configuration files","the precedence must hold for every combination of given and missing values",'examples/jssp/config.rs: PartialConfig, Config::try_from')
p('C98','Generated travelling salesman inputs are proper plane instances','generate_tsp_cost(n) never fails and returns n cities with coordinates in [0, 100) and an n x n symmetric cost matrix with zero diagonal; every entry is the Euclidean distance of the two cities up to a relative error of 2^-51, at most 142, and zero exactly when the two cities coincide; the triangle inequality holds up to rounding; the heuristic made from these costs is zero exactly for coinciding cities and otherwise positive and finite.','every number of cities, every outcome of the random generator, every pair and triple of cities','Coordinates are random floats; an overflow, an underflow of a squared difference to zero or a rounding up to 100 would show only for rare draws, and the error bound is over all pairs of draws.','src/aco/tsp/util.rs: generate_tsp_cost','src/aco/tsp/util.rs: create_heuristic_from_weights')
p('C99','On generated inputs the reported best tour is a shortest one up to rounding','The cost computed for any closed path through generated cities is finite and equals the true Euclidean tour length up to (1 +- 2^-53)^(length+3); its fitness is never NaN, is +infinity exactly for tours of length zero and otherwise positive and finite; and the best solution reported in every iteration of an Ant System run on such an input has, up to (1 +- 2^-53)^(n+4), the smallest true tour length among all tours the ants made in that iteration.','every number of cities (no bound), every random outcome, every closed path, every iteration of every run with any goodness function, update rule and termination condition','Accumulated floating-point rounding over arbitrarily many cities could order tours wrongly; tests compare a few small tours with exact weights.','src/aco/tsp/util.rs: generate_tsp_cost','src/aco/tsp.rs: PathLengthInverse','src/aco.rs: find_best')
p('C100','Solver contract for custom individuals and stateful fitness functions','For any implementation of the individual trait and any fitness function, also one that is noisy, keeps state or rewrites the individual: the returned individual was in a population shown to the probe and none shown compares better. The fitness function is only called on individuals that say they require evaluation. If all do, a run of k iterations with population N and K selected parents calls it exactly N + 2kN times, and kK times more when the replacement needs the fitness of the children; if individuals remember their fitness and the replacement asks for the children\'s fitness and returns parents and children only, at most N + kK times.','every individual type, fitness function with state, operators, clock, limits and initial state','The number of evaluations and the best-ever guarantee are statements over whole runs of unbounded length with user-supplied trait implementations; tests fix one individual type and a pure function.','src/ga.rs: GeneticSolver::run, eval_pop, find_best_individual','src/ga/individual.rs: IndividualTrait::requires_evaluation','src/ga/operators/fitness.rs: Fitness::apply')
p('C101','A run with WeakParent returns the best individual of its initial population','The solver looks for the smallest fitness while WeakParent keeps the two largest of each family. So with WeakParent, whatever selection, crossover, mutation and population generator are used, the individual returned by run is the best of the initial population, on_new_best is called exactly once (before the first generation) and neither the smallest nor the largest fitness of the population ever decreases. With Noop every generation equals the initial population and the same individual is returned.','every gene type, all other operators with any state, every fitness function (NaN included: a run that compares NaN panics), every clock, limit and number of generations, debug and release builds','The effect emerges from the interplay of the replacement with the main loop over any number of generations and for every choice of the other operators; unit tests apply the replacement once to literal populations.','src/ga/operators/replacement/impls.rs: WeakParent::apply, Noop::apply','src/ga.rs: GeneticSolver::run, find_best_individual','examples/ga.rs: main','coco/src/main.rs: ecrs_ga_search')
p('C102','The random-search experiment spends its budget plus one on every problem and stays in the region of interest',
'Running the COCO experiment with random search on problems like those of the bbob suite always ends: the search is called once for each problem and evaluates the initial solution and then ten points per dimension, i.e. one evaluation more than the budget, whatever the target value. Every point drawn has the dimension of the problem and each coordinate lies in its range of interest (when the width of the range is exactly representable). With either search the experiment panics at the first problem with constraints, several objectives or integer variables.',
'every list of problems of any dimension with any objective function that gives numbers, all states of the random generators, all ranges of interest',
'The number of evaluations and the range of the points must hold for every problem, dimension and random stream; the crate has no tests of the coco experiment and a test can only sample streams.',
'coco/src/main.rs: random_search, run_experiment, BUDGET_MULTIPLIER_10','coco/src/main.rs: INDEPENDENT_RESTARTS_100K')
p('C103','The genetic experiment ends, ignores its evaluation budget and keeps to the region of interest only if all ranges are equal',
'Running the COCO experiment with the crate\'s genetic algorithm never panics on problems like those of the bbob suite. Each run evaluates 100 points to begin with and 300 in every generation (between 1 and 10000 generations), whatever budget it is given: at least 400 evaluations for every problem, and exactly one run for problems up to dimension 40. Runs are restarted until the target is hit or ten evaluations per dimension are used. Every evaluated point has the dimension of the problem and every coordinate lies in one of the ranges of interest; when all ranges are equal all points are in the region of interest, but when they differ the mutation may move a coordinate out of its range.',
'every list of problems with any objective function that gives numbers, all states of the random generators, all clock readings, debug and release builds',
'The claim ranges over all objective functions, random streams and clock readings and over thousands of generations; tests can only sample short runs, and the crate has none for the experiment.',
'coco/src/main.rs: ecrs_ga_search, run_experiment','coco/src/adapter.rs: CocoFitness','src/ga.rs: GeneticSolver::run','src/ga/operators/mutation/impls.rs: Reversing')
p('C104','The stdout log of a genetic run is a faithful record',
'With the stdout probe, a run logs: a start line; the best individual of the initial population as new best; for every generation a line with its number and its best individual, followed by a new-best line for the same individual exactly when it is strictly better than every earlier one; and an end line with the number of generations and the returned individual. The probe never panics during a run. Hence the new-best lines improve strictly and end with the result, the generation numbers are 1, 2, 3, ... without gaps, and the times never decrease.',
'every gene type, all operators with any state, every fitness function, every clock, any number of generations',
'The sequence of lines depends on the fitness values of all generations and the probe unwraps a duration that only the solver sets; unit tests do not run the solver with the probe and could only check single runs.',
'src/ga/probe/stdout_probe.rs: StdoutProbe','src/ga.rs: GeneticSolver::run','src/ga/probe.rs: Probe')
p('C105','A permutation solver only ever handles permutations, and returns',
  'A genetic solver with RandomPermutations over distinct genes, one of OrderedCrossover, Pmx, Ppx, and one of Identity, Interchange, Reversing, Inversion hands to its probe, in every callback, only individuals whose chromosome is a permutation of the genes, and returns one, whatever the selection and replacement operators and the random draws; with an even population size, one of Random, UniqueRandom, Rank, RankR, Tournament selecting that many, and a fitness function that never yields NaN, run() returns.',
  'all gene types, gene lists without repetition, population sizes, generation limits, durations, fitness functions, selection sizes, operator parameters, clocks and random streams',
  'The invariant has to survive an unbounded number of generations of four interacting operators on arbitrary random streams; a test sees a few seeds and a few generations.',
  'src/ga.rs:GeneticSolver::run','src/ga/population/impls.rs:RandomPermutations','src/ga/operators/crossover/impls/ordered.rs','src/ga/operators/crossover/impls/pmx.rs','src/ga/operators/crossover/impls/ppx.rs','src/ga/operators/mutation/impls.rs','src/ga/operators/replacement/impls.rs')
p('C106','Genes come from earlier generations only',
  'With any crossover of the library, one of Identity, Interchange, Reversing, Inversion, and any selection, replacement and generator, every gene in a generation occurs in every earlier one (so the result is built from genes of the initial population); with Identity and a crossover that copies locus by locus it occurs there at the same locus: a gene lost at a locus never returns, and a population that has converged to one chromosome keeps it for good.',
  'all gene types, populations, operator combinations and parameters, pairs of generations, loci, clocks and random streams',
  'A statement about all pairs of generations of all runs; tests compare a few generations of a few runs.',
  'src/ga.rs:GeneticSolver::run','src/ga/operators/crossover/impls.rs','src/ga/operators/mutation/impls.rs','src/ga/operators/replacement/impls.rs')
p('C107','Solvers assembled from the library operators return, and chromosomes keep their length',
  'A genetic solver with BitStrings or RandomPoints, a crossover that copies locus by locus (MultiPoint with at most as many cuts as genes), any mutation of the library, any replacement (WeakParent in debug builds too) and one of Random, UniqueRandom, Rank, RankR, Tournament selecting as many individuals as the (even, positive) population size returns whenever the fitness function never yields NaN; and in every run of such a solver all chromosomes handed to the probe and the result have the configured length.',
  'all population sizes, dimensions, limits, fitness functions, operator combinations and parameters, clocks and random streams',
  'Absence of panics over every combination of operators, parameters and random draws for any number of generations cannot be established by running some of them.',
  'src/ga.rs:GeneticSolver::run','src/ga/builder/generic.rs','src/ga/population/impls.rs','src/ga/operators/selection/impls.rs','src/ga/operators/crossover/impls.rs','src/ga/operators/mutation/impls.rs','src/ga/operators/replacement/impls.rs')
p('C108','Test functions of a fixed number of variables compute the published formulas',
'For every pair of coordinates, 48 functions of two variables (ackley3, adijman, beale, bird, bohachevsky 1-3, booth, brent, bukin 4 and 6, three_hump_camel, chichinadze, cross_in_tray, cube, drop_wave, easom, eavd, egg_crate, eggholder, freudenstein_roth, goldstein_price, himmelblau, holder_table, hosaki, jennrich_sampson, leon, levy_n13, matyas, mcormick, parsopoulos, periodic, price 1-4, rotated_ellipse 1-2, schaffer 2 and 4, shubert, trefethen, ursem 1 and 4, wayburn_seader 1 and 3, zettl, zirilli), forrester_et_al, keane, branin, bartels_conn, colville, miele_cantrell, dolan, and for every dimension alpine, schumer_steiglitz, quintic, chung_reynolds, exponential, cosine_mixture, qing, csendes, xin_she_yang_2 and levy are, computed exactly, the published functions of those names.',
'all real arguments at which the formula is defined','a test compares finitely many points; two different formulas may agree on all of them','src/test_functions/mod.rs')
p('C109','Test functions that are not the published ones',
'six_hump_camel, branin_default, branin_rcos, branin_rcos2, damavandi, deckkers_aarts, giunta, gramacy_lee, quadratic, rosenbrock_modified, rump, salomon, schaffer_n3, schmidt_vetters, testtube_holder, ursem_waves, vss, wayburn_seader2 and wolfe compute other functions than the published ones (misplaced brackets, wrong coefficients, integer division); alpine2 is constantly 0. The formulas actually computed are given for all arguments, with a point of disagreement each.',
'all real arguments','whether two formulas denote the same function on a continuum cannot be settled by finitely many evaluations','src/test_functions/mod.rs')
p('C110','Only the order of fitness values matters to comparison-based genetic solvers',
'A genetic solver put together from the library\'s operators with Random, UniqueRandom, Rank, RankR or Tournament selection uses fitness values only to compare them: two fitness functions that order chromosomes alike give, for the same random draws and clock readings, the same chromosomes in the same callbacks, the same best chromosome and the same panic or termination behaviour. So applying a strictly increasing function to the fitness changes nothing but the reported fitness numbers. This does not hold for RouletteWheel.',
'all fitness functions, rescalings, generators, crossovers, mutations, replacements, population sizes, limits, clocks and random streams',
'a relational property of two whole runs, over all fitness functions and random streams','src/ga.rs','src/ga/operators/selection/impls.rs','src/ga/operators/replacement/impls.rs')
p('C111','Only the order of objective values matters to the particle swarm',
'Two objective functions that agree on which of any two points is better produce, for the same setters, clock, thread schedule and random draws, the same swarms in the same probe callbacks (positions, velocities, personal bests and the global best); only the reported values differ. In particular scaling or shifting the objective does not steer the search.',
'all objectives, setter sequences, clocks, schedules of the worker threads and random draws',
'a relational property of two whole runs, over all objectives, schedules and random streams','src/pso.rs','src/pso/particle.rs','src/pso/swarm.rs')
p('C112','What the firefly algorithm takes from the objective',
'The firefly algorithm looks at the objective only through comparisons of brightness (the reciprocal of the value) and of values: two objectives whose values and reciprocals are ordered alike move all fireflies identically in every generation. Preserving the order of the values alone is not enough: shifting an objective by a constant changes the fireflies\' positions.',
'all objectives, distance functions, configurations, initial populations and random draws',
'a relational property of two whole runs, over all objectives and random streams','src/ff.rs','src/ff/auxiliary.rs')
p('C113','Which assembled solvers return and which panic',
  'A solver assembled from the library\'s operators with an even population returns for every random stream: for permutations with any of the order based crossovers, for bit strings and real vectors with any of the pointwise crossovers, with any mutation and replacement and any selection but StochasticUniversalSampling, provided RouletteWheel sees fitness in [0, 2^900] and Boltzmann non-negative weights. With an odd population the same solver panics in its first generation.',
  'every population size, generation and duration limit, fitness function meeting the condition of the selection, gene list, constraint set, clock and random stream',
  'A claim over the whole family of solvers and every random stream; a unit test runs one assembly with one stream.',
  'src/ga.rs: GeneticSolver::run','src/ga/operators/selection/impls.rs','src/ga/operators/crossover.rs','src/ga/operators/crossover/impls.rs')
p('C114','What the genetic example programs return',
  'ga_bsc.rs, ga_rvc.rs, ga_ackley_test_function.rs and ga.rs return for every random stream and clock. The bit string ga_bsc.rs announces as the one with most ones has the fewest ones of all bit strings of the run; the point ga_ackley_test_function.rs prints as approximation of the zero of Ackley\'s function is one with the largest value among all points of the run, all of which lie in [0,1)^4; ga_rvc.rs returns a point of [0,1)^5 with the smallest 1000 exp(-rastrigin); ga.rs returns an individual of its initial population, its 50000 generations never announcing another, and all its points stay in [-5.12, 5.12]^3.',
  'every random stream, every clock, debug and release builds, every libm whose cos, exp and powf keep the stated bounds',
  'The examples are run by hand and print one result of one random run; that the result is the worst or an initial individual cannot be seen from it.',
  'examples/ga_bsc.rs: main','examples/ga_rvc.rs: main','examples/ga_ackley_test_function.rs: main','examples/ga.rs: main')
p('C115','What the swarm and firefly example programs write','pso_multiple_probes.rs, ff.rs and ff_logging.rs return for every random stream and schedule. The first prints the swarm at the start, every 50 generations and at the end, and writes 41 CSV and JSON records for generations 0, 50, ..., 2000 whose values are Rosenbrock\'s function at the recorded points, are never NaN, lie in [0, 2420242] and never grow. The firefly programs report values that are never negative, never grow and are the least sphere value at the positions reported so far, all in [-5,5]^2; ff.rs prints all 1000 generations, ff_logging.rs prints and records exactly generations 25, 40, ..., 985.','every random stream, clock, libm, distribution of the particles over the workers, debug and release builds','The examples are run by hand and print one random run; the claim covers all runs and schedules.','examples/pso_multiple_probes.rs','examples/ff.rs','examples/ff_logging.rs','src/pso/probe/csv_probe.rs','src/ff/probe/csv_probe.rs')
p('C116','What the local updates of an Ant Colony System colony add up to','While AntColonySystemAB builds its paths, the local update is given, in each of n - 1 rounds, the paths so far of the ants still walking, all of one length. When every ant got to the end, Decay (DecayTo) has changed each directed edge once for every time an ant walked it, and no other entry: reverse directions and edges that only close tours keep their pheromone.','every goodness, local update, number of places and ants, pheromone matrix and random stream','a relation between all rounds of a building of paths and the resulting matrix, for every stream of draws','src/aco/tsp/ants_behaviour.rs: AntColonySystemAB::simulate_ants','src/aco/tsp/local_update.rs: Decay, DecayTo')
p('C117','Formulas of the remaining test functions','The functions not covered by C79, C108 and C109 compute, for all real arguments where they are defined: the sums of squares given for biggs_exp2 to biggs_exp6, box_betts, exp2, brad, devilliers_glasser2; paviani only the logarithmic part of its formula (the product it should subtract starts from 0); pen_holder, ripple1, ripple25 the closed forms given; deb1, deb3, brown, pathological, powell, powell2, power_sum, trigonometric1, trigonometric2 and sargan, in every dimension, the sums given (powell takes coordinates 4i-2..4i+1 instead of 4i-3..4i, trigonometric1 weighs with i-1 instead of i, sargan adds the partial instead of the full inner sums). gulf_research is undefined everywhere (logarithm of 0), langermann panics when given as many weights as terms.','all real arguments, all dimensions','a formula on a continuum, in every dimension, cannot be settled by finitely many evaluations','src/test_functions/mod.rs: biggs_exp2..6, box_betts, exp2, brad, devilliers_glasser2, paviani, pen_holder, ripple1, ripple25, deb1, deb3, brown, pathological, powell, powell2, power_sum, trigonometric1, trigonometric2, sargan, gulf_research, langermann')
p('C118','Crossover operators on parents they were not made for','Parents of unequal length make TwoPoint, MultiPoint, Uniform, UniformParameterized, Ordered, Pmx and Ppx panic; SinglePoint, Shuffle and (with a cut inside) FixedPoint panic when the second parent is the shorter one, but when it is the longer one SinglePoint and Shuffle silently drop its surplus genes and FixedPoint returns children of different lengths. On empty parents SinglePoint, TwoPoint, MultiPoint, Shuffle, Ordered and Pmx panic and the other four return empty children. MultiPoint panics for no cut and for more cuts than loci. Ordered on any two parents of the same length returns its usual children or panics when too few genes are left to fill the places before the substring; on parents with different or repeated genes the children may be longer or shorter than the parents. Whatever Ppx returns has the length of the parents, repeats no gene and invents none; it returns for all draws when neither parent repeats a gene, and otherwise panics for some draws.','all pairs of parents, of any lengths and with any genes, all draws and parameters','The unsuitable inputs are not in the unit tests, and whether an operator fails loudly or returns damaged children depends on lengths, genes and draws together.','src/ga/operators/crossover/impls/single_point.rs','src/ga/operators/crossover/impls/ordered.rs','src/ga/operators/crossover/impls/ppx.rs','src/ga/operators/crossover/impls/fixed_point.rs','src/ga/operators/crossover/impls/multi_point.rs')
p('C119','Crossover of identical parents returns copies','For every crossover operator two identical parents (for Ordered, Pmx and Ppx: without repeated genes) have two copies of themselves as children, for all draws; a mating pool of copies of one chromosome therefore only yields copies, so that a converged population can change by mutation only.','all chromosomes, draws and operator parameters, all pool sizes','The claim is over all chromosomes and all draws of ten operators.','src/ga/operators/crossover/impls/*.rs:apply_single')
p('C120','RouletteWheel selects in proportion to fitness','For a population of finite non-negative fitness values with a finite total that is not vanishingly small, the random draws (2^53 equally likely values per spin) that select a given individual form one interval, the same for every spin, and its share of all draws equals the individual\'s share of the exact total fitness up to 6(n+1)/2^53 for n individuals.','every population (up to 2^40 individuals), individual, spin and generator','A statistical test sees a sample of draws of one population, and cannot tell proportional selection from one that is off by a rounding-dependent amount for some population.','src/ga/operators/selection/impls.rs: RouletteWheel::apply')
p('C121','Rates are probabilities','For a rate in [0, 1] the share of draws for which FlipBit flips a gene, Reversing exchanges neighbours and Interchange exchanges a gene with one at a random position is the rate rounded up to the next multiple of 2^-52; the share for which Inversion reverses a segment, or UniformParameterized gives the first child the gene of the first parent, exceeds the rate by at most one draw (so that rate 0 still acts, with one draw of 2^53 or 2^52). Uniform crossover takes each gene from either parent for exactly half of the draws. Each decision depends on its own draw only.','every rate, chromosome, pair of parents and generator','The share of 2^52 draws cannot be counted by running the operator, and a comparison that is off by one draw or uses a shared draw passes any statistical test.','src/ga/operators/mutation/impls.rs: FlipBit, Reversing, Interchange, Inversion','src/ga/operators/crossover/impls/uniform.rs','src/ga/operators/crossover/impls/uniform_parameterized.rs')
p('C122','How often each individual wins a rank comparison or a tournament','Rank: the k-th selection is decided by the k-th pair of drawn indices alone, and of the n*n pairs an individual wins as many as there are individuals not fitter plus individuals less fit than itself (2w+1 when all fitness values differ and w are lower). Tournament: of the (n choose k) groups an individual of unique fitness wins (w choose k-1). RankR: the first of two drawn individuals is taken with the given probability whatever their fitness.','every population without NaN, group size, number of selections and generator','The winners of all pairs or groups cannot be enumerated for every population; sampled runs only suggest a selection pressure.','src/ga/operators/selection/impls.rs: Rank::apply, RankR::apply, Tournament::apply')
p('C123','An ant chooses its next place in proportion to goodness','When an ant chooses by the wheel, the number drawn between 0 and the total goodness of the unvisited places determines the next place: with the places laid out in the iteration order over stretches as long as their goodness, the ant goes to the place whose stretch contains the number, up to an offset of at most n * 2^-53 times the number; it stays where it is only if the number exceeds the exact total less that offset.','every goodness matrix with finite non-negative entries, ant state, iteration order of the hash set and draw','The stretch of draws leading to each place cannot be enumerated, and the accumulated rounding differs for every matrix and order.','src/aco/tsp/ant.rs: CanonicalAnt::go_to_next_place, ExploitingAnt::go_to_next_place')
p('C124','StochasticUniversalSampling selects each individual its expected number of times','Whenever StochasticUniversalSampling returns for a population of finite non-negative fitness values (total neither vanishing nor near overflow), the number of copies of every individual among the count selected parents differs from its exact expected number, count times its share of the exact total fitness, by at most one plus 24*count*(n+count)/2^53 (rounding of the pointers and sums).','every population and number of parents (up to 2^40 each), individual, first pointer drawn','The low-variance guarantee is about every individual of every population and every position of the first pointer; a test shows the counts of a few populations.','src/ga/operators/selection/impls.rs: StochasticUniversalSampling::apply')
p('C125','Generated populations are spread evenly','RandomPermutations: of all sequences of index draws for one individual (n*(n-1)*...*2 equally likely ones) exactly one gives each arrangement of the genes. BitStrings: every bit is one fair coin draw of its own. RandomPoints: the share of draws for which a coordinate is at most t equals (t - start)/(end - start) for every t in the range, up to (6 + max(|start|,|end|)/(end - start))/2^53.','every gene list without repetitions and arrangement, every dimension and count, every finite range (width finite and at least 2^-900) and threshold, every individual','A statistical test samples; a shuffle that never produces some arrangement, or a scaling that is biased for some ranges, passes it with the usual inputs.','src/ga/population/impls.rs: RandomPermutations::generate, BitStrings::generate, RandomPoints::generate','src/ga/population/tools.rs: PointGenerator')
p('C126','Random selection and crossover cuts are drawn evenly','Random selects each parent position by one index draw of its own. SinglePoint cuts at the drawn position, TwoPoint between the two drawn positions in either order, Shuffle keeps the drawn number of genes at positions given by an arrangement each of which comes from exactly one sequence of draws, OrderedCrossover and Pmx keep the segment from the drawn start to an end drawn between the start and the length (and fill the rest by order or by mapping, as their documentation says).','every population, every pair of equal-length non-empty parents (for the permutation operators: duplicate-free rearrangements), every draw','Which cut belongs to which draw, for every length: an off-by-one in a range excludes a cut that random tests rarely miss.','src/ga/operators/selection/impls.rs: Random::apply','src/ga/operators/crossover/impls: SinglePoint, TwoPoint, Shuffle, OrderedCrossover, Pmx')
p('C127','Pheromone stays in range, and an Ant System run fails only when its first ant completes no tour',
'If the evaporation rate outweighs the deposits (2 (ants+1) F <= rate * B for tours of fitness at most F), every pheromone update rule returns normally and keeps a finite n x n pheromone matrix within [0, B]; min-max rules with limits in [0, B] do so for any rate of [0, 1]. Over distances from L to 2^900 the fitness of a tour is at most 4 / (n L). A run of the Ant System of k iterations from such a pheromone, with a goodness function that maps pheromones of the range to moderate goodness, either shows exactly k iterations, all pheromones shown being in the range, or panics, and then only because it reached an iteration, with pheromone still in the range, in which no ant returned a tour.',
'every bound B of [2^-900, 2^900], number of places, update rule and its parameters, number of ants, random draws, initial pheromone, goodness function, distances and number of iterations',
'Overflow or drift of the pheromone would show only after very many iterations; tests cannot run all histories nor see every rounding error of repeated evaporation and deposit.',
'src/aco/tsp/pheromone.rs','src/aco.rs::AntColonyOptimization::run','src/aco/tsp/ants_behaviour.rs','src/aco/tsp.rs')
p('C128','Ant Colony System colonies and runs keep the pheromone in range and fail only when no ant completes a tour',
'With a goodness function that maps pheromones within [0, B] to moderate goodness and a local update that decays by a rate of [0, 1], or towards a stable value of at most B/2 by a rate of at most 1 - 2^-48, the Ant Colony System behaviour never panics on n >= 2 places, returns only complete tours, at most one for each ant, keeps the ants usable and the pheromone within [0, B] through all its local updates. A run of k iterations with an update rule whose evaporation outweighs the deposits either shows exactly k iterations, all pheromones shown being in the range, or panics, and then only because it reached an iteration in which no ant returned a tour.',
'every bound B of [2^-900, 2^900], number of places, ants of either kind, random draws, pheromone, goodness function, local and global update parameters, distances and number of iterations',
'The pheromone is changed after every single step of every ant; drift or overflow can need very long histories, and a panic depends on particular draws.',
'src/aco/tsp/ants_behaviour.rs','src/aco/tsp/local_update.rs','src/aco.rs::AntColonyOptimization::run','src/aco/tsp/pheromone.rs')
p('C129','What mutation can reach','With a rate above 0 (and, for FlipBit and Reversing, at most 1 - 2^-52, the largest number drawn) mutation can reach everything: there are draws with which one application of FlipBit turns a bit string into any other of its length; with which one application of Interchange makes any given rearrangement of a non-empty chromosome; and with which as many applications of Reversing, or of Inversion (rate 0 included), as there are genes do so. One Reversing does not turn round three different genes, and one Inversion does not exchange two neighbouring pairs, whatever the draws. With a rate above 1 - 2^-52 FlipBit yields only the complement and Reversing only the rotation by one.','all chromosomes (any gene type), all targets of the same length or with the same genes, all rates','A test sees the outcomes of the draws it makes; that an outcome is possible at all, or that none of the draws leads to it, ranges over all streams of draws.','src/ga/operators/mutation/impls.rs:FlipBit','src/ga/operators/mutation/impls.rs:Interchange','src/ga/operators/mutation/impls.rs:Reversing','src/ga/operators/mutation/impls.rs:Inversion')
p('C130','The size of the numbers of a particle swarm',
 'No component of an initial velocity exceeds hi - lo in magnitude, provided 2 (hi - lo) is below 2^1024; with the bounds -2^1022 and 2^1022 all initial velocities are infinite or NaN. From an initial swarm whose numbers are at most M in magnitude, all numbers (positions, velocities, personal and global best positions) of generation j are finite and at most M growth^j in magnitude, with growth = (1 + |w| + 2 |c1| + 2 |c2|) times a rounding factor, as long as that does not exceed 2^1000. In particular every number of the first 300 generations of the default solver (bounds -10 and 10, inertia 1/2, coefficients 1 and 3) is finite, whatever the objective. That the numbers are always finite is false: a finite but huge inertia makes all positions NaN after three generations.',
 'every objective function, finite coefficients, finite bounds, random source, work-stealing schedule, termination condition and number of generations within the limit',
 'Overflow depends on the random draws and on the number of generations; a test sees one run of a few.',
 'src/pso/particle.rs:Particle::generate','src/pso/particle.rs:update_velocity','src/pso/particle.rs:update_position','src/pso.rs:PSOAlgorithm::run','src/pso/builder.rs:PSOAlgorithmBuilder')
p('C131','What crossover can produce',
 'For each operator and each pair of parents, the pairs of children that some draws lead to are exactly: SinglePoint: the exchanges of everything from a cut before the last gene or earlier on; TwoPoint: the exchanges between two cuts, none behind the last gene; MultiPoint with k points: the alternations over k distinct cuts that its code describes; Uniform and UniformParameterized: all exchanges place by place (only one of the two extremes when the bias admits no draw or every draw); Shuffle: all exchanges place by place of at least one gene; OrderedCrossover and Pmx: the order or mapping children of every segment; Ppx: the children of every sequence of turns. So SinglePoint always and TwoPoint never exchanges the last gene, Shuffle never returns two parents that differ everywhere unchanged, and a child of Ppx begins like one of its parents; Ppx does not reach all children that keep the precedence the parents share.',
 'all parents of equal positive length (for the permutation operators duplicate-free and permutations of each other), all pairs of children',
 'That a pair of children is impossible is a statement about all random draws; that every other is possible needs suitable draws for each.',
 XO+'single_point.rs:apply_single',XO+'two_point.rs:apply_single',XO+'multi_point.rs:apply_single',XO+'uniform.rs:apply_single',XO+'uniform_parameterized.rs:apply_single',XO+'shuffle.rs:apply_single',XO+'ordered.rs:apply_single',XO+'pmx.rs:apply_single',XO+'ppx.rs:apply_single')
p('C132','Which tours ants can make',
 'If the goodness of all edges between different places lies between lo and hi, with n^2 hi <= 2^49 lo, then an ant of either kind (ExploitingAnt with any rate its constructor accepts) can make every tour, whatever the iteration orders of its hash set: there are numbers its random source may give that lead it along exactly that tour. Any list of tours can be the paths of the next iteration of a colony, for AntSystemAB, and for AntColonySystemAB with any local update that keeps an invariant under which the goodness stays in such a range. Positive goodness alone is not enough: with goodness 2^100 and 1 there is an iteration order for which no draws make the ant take the worse edge.',
 'all numbers of places, goodness matrices (changing from step to step), ants, hash orders, tours and lists of tours',
 'That each of the n! tours is possible needs draws for each of them; that one is impossible speaks of all draws.',
 'src/aco/tsp/ant.rs:CanonicalAnt::go_to_next_place','src/aco/tsp/ant.rs:ExploitingAnt::go_to_next_place','src/aco/tsp/ants_behaviour.rs:AntSystemAB::simulate_ants','src/aco/tsp/ants_behaviour.rs:AntColonySystemAB::simulate_ants')
p('C133','What is left on the disk: result files, failing file systems and crashes',
'''The CSV and JSON probes write their files only at the end of a run. If the file can be created and written it holds, whatever it held before, exactly the recorded rows: PSO one line per generation seen (number, best value; JSON also the position), FF one per iteration, ACO best.csv one line per edge and iteration and pheromone.csv one per entry and iteration (JSON: pheromone and solution); no other file changes. In JSON infinite and NaN numbers are null; an FF or ACO CSV file without records is empty, without even the header. If the file cannot be created, PSO and FF runs panic and return nothing although every generation has been computed; if it can be created but writing fails, they return normally and leave a damaged file. The ACO CSV probe panics on every failure; best.csv is complete before pheromone.csv is touched; its file names are fixed, so a second run replaces the files of the first. A run that ends before its last callback leaves all files as they were. Two probes with the same file name: only the later one's file is left. write_cities_csv returns an error instead of panicking and otherwise writes a header and one line per city in order. Constructing a GA CsvProbe or JsonProbe empties the file, and it is never written.''',
'all runs (all sequences of callbacks of a run, and all their prefixes as crash points), all file names, all previous contents of the disk, all combinations of files that cannot be created or written',
'tests run on a disk that works and compare one file; failing creations and writes, crashes at every point and all contents of the disk before cannot be enumerated',
'src/pso/probe/csv_probe.rs: CsvProbe::on_end','src/pso/probe/json_probe.rs: JsonProbe::on_end','src/ff/probe/csv_probe.rs: CsvProbe::on_end','src/ff/probe/json_probe.rs: JsonProbe::on_end','src/aco/probe/csv_probe.rs: CsvProbe::flush','src/aco/probe/json_probe.rs: JsonProbe::flush','src/aco/tsp/util.rs: write_cities_csv','src/ga/probe/csv_probe.rs: CsvProbe::new','src/ga/probe/json_probe.rs: JsonProbe::new')
p('C134','Deposits on arbitrary paths; when an update panics','For any solutions, whatever their paths (any length, repeated places, places outside the matrix): AntSystemPU, ElitistAntSystemPU and AntColonySystemPU make the update exactly when every move of a depositing path, and its reverse, is inside the matrix, and otherwise panic; the entry (a, b) is then the evaporated value plus the fitness of each depositing solution, in order, once for each time its closed path goes from a to b or back. ElitistAntSystemPU also needs the stored overall best to fit; MMAntSystemPU and AntColonySystemPU need only the best to fit. MMAntSystemPU on a symmetric matrix adds the best fitness and limits the sum once for every use of an edge. A tour of two places gets its fitness twice on its edge, a tour of one place twice on the diagonal.','all matrices, rates, bounds, fitnesses (NaN included), lists of solutions with arbitrary paths; IEEE-754 arithmetic','tests use one tour on one matrix; the count of deposits, their order and the panics depend on every path','src/aco/tsp/pheromone.rs: AntSystemPU, ElitistAntSystemPU, MMAntSystemPU, AntColonySystemPU, leave_trail, leave_single_trail')
p('C135','What grading, making solutions and local updates accept',
 'Grading solutions against a weight matrix succeeds exactly if every move of every closed path, in the direction it is taken, is inside the matrix; it then keeps the paths and their order and gives each the inverse of the sum of the weights of its moves; otherwise it panics. Making a solution from a path succeeds exactly if every place is less than the length of the path. The two local updates of the Ant Colony System succeed exactly if every partial path has a last edge inside the matrix, and keep its shape; otherwise they panic.',
 'every weight matrix of any shape, every list of solutions or of partial paths, every rate and stable value',
 'Tests grade a tour or two with a square matrix; that nothing else is accepted, and that no accepted input ever panics, is a statement about all shapes and paths.',
 'src/aco/grader.rs: PathLengthInverse','src/aco/solution.rs: Solution::from_path','src/aco/tsp/local_update.rs: Decay, DecayToInit')
p('C136','Ant Colony System runs with whole-number goodness never fail',
 'An Ant Colony System whose goodness operator answers with whole numbers (at least 1, not too large) on matrices of the size of the problem, with at least two places, at least one ant, square weights and the local update Decay or DecayTo with any constants, performs all the iterations it was given without a panic. With one place or none no iteration of the Ant Colony System succeeds, although the Ant System manages one place.',
 'every number of places, ants and iterations, every random stream of the ants, all rates and constants (NaN included), each of the four pheromone updates',
 'A panic after many iterations for rare draws cannot be excluded by running some of them.',
 'src/aco/tsp/ants_behaviour.rs: AntColonySystem','src/aco/tsp/local_update.rs','src/aco.rs: AntColonyOptimization::run')
p('C137','Every history of populations is possible',
 'With mutation FlipBit (or Interchange on permutations) at a positive rate and replacement BothParents, every list of populations of the right size and shape can be the list of populations a run goes through: for whatever draws of the selection and the crossover, there are draws of the generator and of the mutation that produce it; with the generator fixed too, everything after the initial population is still free. The same holds of the default bit string solver of the builder, whose operators all draw from one stream. So every chromosome can be the result of a run, and one generation can be enough to reach a fitness at least as good as that of any given chromosome.',
 'every population size that is positive and even, every dimension, number of generations, list of populations, every dependable selection and every crossover of bit strings (of permutations), every rate above 0, every stream of selection and crossover',
 'A test runs a few seeds; it cannot show that some stream leads to a given history, and even less that one does for each of them.',
 'src/ga.rs: GeneticSolver::run','src/ga/operators/mutation/impls.rs: FlipBit, Interchange','src/ga/operators/replacement/impls.rs: BothParents','src/ga/population/impls.rs: BitStrings, RandomPermutations','src/ga/builder/bitstring.rs: BitStringBuilder::build')
p('C138','Exactly which selections are possible',
 'For each of Random, UniqueRandom, Rank, RankR and Tournament the lists of members that some random stream makes the operator return are exactly described: every list of the right length of existing members (without repetition for UniqueRandom); Rank and RankR exclude nobody, not even the worst or a NaN fitness, because a member can be compared with itself; Tournament with groups of k returns exactly the lists of members that at least k members, themselves included, do not beat. RouletteWheel and StochasticUniversalSampling never select a member of fitness zero, unless it is the first of the population, which the wheel does select when the draw is 0.',
 'every population, number of selected members, tournament factor and rank parameter, every list of positions, every random stream',
 'That something is never selected, or always could be, is a statement about all random streams; a test sees a few.',
 'src/ga/operators/selection/impls.rs: Random, UniqueRandom, Rank, RankR, Tournament, RouletteWheel, StochasticUniversalSampling')
p('C139','Job shop: what the delay window lets the genes express',
 'If the delay constant times the longest operation duration exceeds the makespan of a feasible schedule (by at least 1), then some chromosome that random generation can draw decodes to a schedule in which every operation starts no later than there; its fitness is at most that makespan. So the shortest makespan is the fitness of an individual that can be drawn. (The populations that can be drawn are exactly those whose individuals have two genes per operation, each a multiple of 2^-52 from [0, 1).) With the constant 1.5 of the example the window can be too short: there is a shop with a schedule of makespan 5 for which the recorded schedule of every individual that can ever occur takes at least 7.',
 'every valid shop with positive durations and consecutive operations on different machines, every delay constant from 0 to 1000, every feasible schedule; for the negative part every reachable individual',
 'Whether some chromosome among infinitely many reaches a given schedule, for every shop and schedule, and that no chromosome does, cannot be settled by trying chromosomes.',
 'examples/jssp/problem/fitness.rs: JsspFitness::evaluate_individual, delay_for_g','examples/jssp/problem/population.rs: JsspPopProvider::generate','examples/jssp/main.rs')
p('C140','Firefly benchmarks: which of them return',
 'The three measured firefly benchmarks (250, 500 and 1000 generations with the default algorithm) return whatever is drawn; every measured call prints the start, one block per generation and the end, and the printed bests never grow, are the least sphere value of the positions reported so far, and lie in [-5, 5]^2. The benchmark with twenty given flies returns and keeps the flies in the square. The benchmark with ten given flies panics for all draws, because the population size stays at the default 25.',
 'all random numbers, all implementations of the elementary functions, any number of generations',
 'The benchmarks draw from thread_rng; no finite number of runs shows that all draws return or that all panic.',
 'benches/ff_bench.rs: ff_bench_preset_small, preset_large, ff_bench_quarter, ff_bench_half, ff_bench_full','src/ff.rs: FireflyAlgorithm::run, Default for FireflyAlgorithm','src/ff/population.rs: Population::from_vector')
p('C141','The ant colony benchmarks report twenty iterations of tours or panic because the first ant got stuck','For all five generators (and hashers) of the ants and every power function that squares numbers of [0, 2^k] into [0, 4^k], the measured bodies of the two ant colony benchmarks either report all twenty iterations, each best a tour of all the places graded with one over the sum of the computed Euclidean distances of its closed walk and each pheromone symmetric with finite entries of [0, 128], or panic; they panic only when in an iteration the first ant does not get to the end, and there are draws of the first ant for which the benchmarks do panic.','all states of the five ants generators and hashers, all power functions with that bound','A benchmark is run with a few random seeds and its result is thrown away; whether any seed makes the pheromone overflow, a best that is no tour or another panic cannot be seen by running it.','benches/aco_bench.rs: bench_aco_small, bench_aco_medium, calc_dist','src/aco.rs: AntColonyOptimization::run','src/aco/tsp/goodness.rs: CanonicalGoodness::apply')
open('/verif/properties.jsonl','w').write(''.join(json.dumps(x)+'\n' for x in P))
print(len(P))
