CL={
'C01':('proved','all seven operators, any gene type, any draws'),
'C02':('proved',''),
'C03':('proved','the documented alternation is refuted for even first cuts, and the exact rule is proved'),
'C04':('proved',''),
'C05':('proved',''),
'C06':('proved','the expected-to-fail claim is refuted: parents for which no amount of fuel suffices'),
'C07':('proved',''),
'C08':('proved',''),
'C09':('proved','the expected independence is refuted; what the code does is proved'),

'C10':('proved',''),
'C11':('proved',''),
'C12':('proved',''),
'C13':('proved',''),
'C14':('proved','refuted for Interchange, proved for the others'),
'C15':('proved','Tournament for non-NaN fitness; Diverge of SUS treated in C20'),
'C16':('proved',''),
'C17':('proved','floor size proved, documented ceil size refuted'),
'C18':('proved',''),
'C19':('proved','rounding included (Flocq)'),
'C20':('proved','result shape and termination proved; that it always returns is refuted'),

'C21':('proved',''),
'C22':('proved','the expected elitism is refuted; that the minimum of four is always dropped is proved'),
'C23':('proved',''),
'C24':('proved',''),
'C25':('proved','for a fresh solver; for a second run on the same solver the metrics claim is refuted'),
'C26':('proved',''),
'C27':('proved',''),
'C28':('proved',''),
'C52':('proved',''),

'C29':('proved',''),
'C30':('proved','closed interval, default half-open range, and the two refutations'),
'C31':('proved','the claim of the preset builders that invalid parameters are rejected is refuted for RealValuedBuilder in release builds'),
'C53':('proved',''),
'C54':('proved',''),
'C55':('proved','the expected preference is refuted: the best individual is never selected'),
'C32':('proved','for intervals that do not overflow usize; the overflow case is refuted'),
'C33':('proved',''),
'C34':('proved',''),
'C35':('proved',''),
'C36':('proved',''),
'C37':('proved','bit-exact; the deposit formula for tours of at least three places'),
'C38':('proved',''),
'C39':('proved','maximality for comparable (non-NaN) fitness; a NaN can hide the best'),
'C40':('proved',''),
'C41':('proved','rotation and reversal invariance for whole-number weights with totals up to 2^53; refuted for general floats, where the difference is bounded by one rounding per edge'),
'C51':('proved','order and extreme groups for finite non-negative fitness'),
'C56':('proved',''),
'C57':('proved',''),
'C58':('proved',''),
'C59':('proved',''),
'C60':('proved',''),
'C61':('proved',''),
'C62':('proved',''),
'C63':('proved','powf is an arbitrary function'),
'C42':('proved',''),
'C43':('proved','the draws are those of the worker threads generators; a schedule is any permutation of (worker, particle) pairs'),
'C44':('proved','whole-second clock readings are an oracle'),
'C45':('proved',''),
'C64':('proved',''),
'C65':('proved',''),
'C66':('proved','writing the file is not modelled'),
'C46':('proved','no claim when lower > upper'),
'C47':('proved','the run of C47_clamp_refuted uses powf = 1'),
'C48':('proved',''),
'C49':('proved',''),
'C50':('proved',''),
'C67':('proved','powf and powi are arbitrary functions'),
'C68':('proved',''),
'C69':('proved','clock readings are an oracle; writing the file is not modelled'),
'C70':('proved','exact real arithmetic; powell for the dimensions it accepts'),
'C71':('proved','exact real arithmetic'),
'C72':('proved','exact real arithmetic; the tolerance of each refuted claim is in the statement'),
'C73':('proved','for any arithmetic'),
'C75':('proved','for any arithmetic; deb1/deb3 on the empty vector: overflow checks on'),
'C76':('proved','exact real arithmetic'),
'C77':('proved',''),
'C74':('proved','IEEE-754 binary64 with round to nearest; vectors of at most 2^53 coordinates for sum_squares and dixon_price'),
'C78':('proved','libm exp and powf are arbitrary functions, assumed monotone where the statement says so'),
'C79':('proved','exact real arithmetic'),
'C80':('proved','examples/jssp; usize additions that overflow panic, times at most 2^50 so that they are exact as f64'),
'C81':('proved',''),
'C82':('proved',''),
'C83':('proved',''),
'C84':('proved','refutations with witness instances'),
'C85':('proved',''),
'C86':('proved',''),
'C87':('proved','reading and tokenising the file is not modelled'),
'C88':('proved','selection and time limit are arbitrary; probes and metrics are not part of this loop'),
'C89':('proved','powi(_, 2) is the product of the number with itself; sqrt is the correctly rounded square root'),
'C90':('proved','fresh individuals of any valid shop; every reachable individual of a standard shop'),
'C91':('proved','one critical path, the one found by the search; other critical paths are not claimed'),
 'C92':('proved','File operations are assumed to succeed; the text of numbers in the files is not modelled (rows are records).'),
 'C93':('proved','The type-level flag HasArgs is rendered as two build functions.'),
 'C94':('proved','Times, log formatting and file tokenising are not modelled. Selection and replacement shares are exact up to a population of 2^50.'),
 'C95':('proved','The diversity column is always 0 in the code and left out; hash and times of the final record are left out.'),
 'C96':('proved','Includes a refutation: C96_reported_fitness_may_be_too_small. The unstable sort is modelled as insertion sort; the comparison is a strict total order on the operations of an evaluated individual, so the result does not depend on the algorithm.'),
 'C97':('proved','Reading the JSON file is an arbitrary function.'),
'C98':('proved',''),
'C99':('proved',''),
'C100':('proved','C100_pure_instance connects this model with the one used for C24 - C28.'),
'C101':('proved','A finding about the crate: the documentation example and examples/ga.rs use WeakParent with the minimising solver.'),
 'C102':('proved','coco-rs is represented by its contract (uniform draws from [0,1), a fixed objective function, length checks); loggers and observers are not represented'),
 'C103':('proved','whole program coco/src/main.rs with the solver of GaEvalModel, whose fitness function changes the state of the problem; the last theorem but one refutes the claim for unequal ranges'),
 'C104':('proved','the fields of the lines are represented, not their text'),
 'C105':('proved','Safety for every selection and replacement; termination for the selections that always fill the pool. The PMX repair loop is given at least as many rounds as there are genes.'),
 'C106':('proved','Holds for every gene type and every generator; no condition on chromosome lengths.'),
 'C107':('proved','Every combination of the library operators except the order-based crossovers (C105) and the selections whose pool size depends on the fitness values (C19-C22).'),
'C108':('proved','The functions are computed over exact reals (num_R); the published formulas are written out in the theorems. C108_further_formulas gives the formulas of eight functions on which publications differ.'),
'C109':('proved','Formulas the code computes for all arguments, and for each function a point where the published formula has another value.'),
'C110':('proved','The two runs are compared step by step; the crossovers, mutations and generators never look at fitness. Example: fails for RouletteWheel.'),
'C111':('proved','Whole of build and execute, including the schedule of worker threads.'),
'C112':('proved','A counterexample shows that the order of values alone does not suffice.'),
'C53':('proved','The fitness function need not be defined (may be NaN) outside the chromosomes of the configured length (and, for real vectors, outside [0,1)).'),
'C105':('proved','Safety for every selection and replacement; termination for the selections that always fill the pool, if the fitness is not NaN on permutations. The PMX repair loop is given at least as many rounds as there are genes.'),
'C107':('proved','Every combination of the library operators except the order-based crossovers (C105) and the selections whose pool size depends on the fitness values (C19-C22). The fitness may be NaN outside the search space.'),
'C113':('proved','SUS is left out because it may panic for any fitness values (C20); Boltzmann is proved for weights given by any oracle exp that is finite and non-negative on the values met.'),
'C114':('proved','The streams of the operators of ga.rs are modelled separately (assemble); the probes, which only print, are left out. libm enters through the contract decent_libm. A finding: the examples maximise or return initial individuals while their messages claim minima and maxima the other way round.'),
'C115':('proved','three theorems, one per program; printed text is represented by the printed values, file errors are left out'),
'C116':('proved','C116_rounds covers ants that get stuck; the edge by edge theorems ask that every ant got to the end'),
'C117':('proved','exact real arithmetic reading (num_R); the formulas are those of the code, the text says where the published ones differ'),
'C118':('proved','equal lengths of the children of Ordered crossover refuted'),
'C119':('proved',''),
'C120':('proved','The interval of draws is exhibited for every individual; hypotheses: total exact fitness >= 2^-900, at most 2^40 individuals, float total finite.'),
'C121':('proved','The draws are counted exactly; the independence of the draws is a property of the generator.'),
'C122':('proved','Counted over index pairs and groups; that all are equally likely is the contract of rand.'),
'C123':('proved','gen_range(0.0..=total) is modelled as any float of that range, so the theorem locates the drawn number rather than counting draws.'),
'C124':('proved','For calls that return (C20 says when a call may panic or not return).'),
'C125':('proved','The shuffle is the one of rand 0.8 (Fisher-Yates, modelled in Rng.v); draws below n are raw values modulo n.'),
'C126':('proved','UniqueRandom, Tournament groups and MultiPoint rely on rand\'s index sampling, which is modelled as an arbitrary choice of distinct positions, so nothing is claimed about their chances here.'),
'C127':('proved','Rules: Ant System, elitist, min-max, ant colony system update; the run theorem is for the Ant System behaviour with an iteration limit.'),
'C128':('proved','Decay and DecayTo local updates, all four update rules, canonical and exploiting ants.'),
'C129':('proved','existence of draws; targets are arbitrary lists of the same length (FlipBit) or permutations with repeated genes allowed (the others)'),
'C130':('proved','C130_run is the bound for every run; C130_default_solver the default solver for 300 generations; C130_initial_velocities and its _refuted companion settle the initial range; C130_always_finite_refuted is a run with all positions NaN.'),
 'C131':('proved','an equivalence for each of the nine operators; the corollaries on the last gene, unchanged parents and the first gene; the claim that Ppx reaches all precedence-preserving children is refuted'),
 'C132':('proved','for single ants, Ant System colonies and Ant Colony System colonies; the claim for arbitrary positive goodness is refuted. The model lets the wheel draw any number of its closed range'),
'C133':('proved','On a disk where each file may refuse creation or fail on writes. The expectation that a finished search always returns its result is refuted (C133_pso_run, C133_ff_run: a file that cannot be created loses it). The text of numbers is not modelled; a file on which a write failed is just Damaged.'),
'C134':('proved','Arbitrary paths, exact success and panic conditions; closes the gap of C37 for tours of one or two places. The exact MAX-MIN value is stated for symmetric matrices.'),
 'C135':('proved','possible_or_panic is "succeeds with the stated result iff the condition holds, and panics otherwise".'),
 'C136':('proved','Any goodness operator with whole-number values on square matrices; Decay and DecayTo with any floats.'),
 'C137':('proved','Every list of populations of the right size and shape is shown to be a history of a run, by draws computed from it; for assembled solvers with separate streams and for the default bit string solver with one stream. Interchange is covered on permutations.'),
 'C138':('proved','Both directions for the five comparison or index based operators; for RouletteWheel and StochasticUniversalSampling the members of fitness zero. Tournament: populations without NaN fitness (C17 says what happens otherwise).'),
'C139':('proved','Matching schedules and drawing the optimum for all shops with a long enough window (starts no later, operation by operation; fitness at most the makespan); a shop where, with the shipped constant 1.5, no recorded schedule is optimal, over all reachable individuals.'),
'C140':('proved','All five benchmark bodies as programs of the firefly model; total for the measured ones and the large preset, panic for the small preset, for all draws.'),
'C141':('proved','Both alternatives occur; the panics are shown for some draws of the first ant and any other ants.'),
}
