(** * Genetic solvers put together from the library's own operators

    [GaModel] leaves the operators of [GAConfig] abstract.  Here they are the library's operators, in any
    combination a user may hand to the builder (src/ga/builder.rs, src/ga/builder/generic.rs), each with its own
    random stream. *)
From Verif Require Export GaModel CrossoverModel MutationModel SelectionModel ReplacementModel PopulationModel.
Open Scope nat_scope.

(** The random streams of the operators: population generator, selection, crossover, mutation, and the
    process-wide thread_rng() of which [Interchange] makes use besides its own stream. *)
Record streams := Streams { st_gen : rng; st_sel : rng; st_xo : rng; st_mut : rng; st_thread : rng }.

(** src/ga/operators/selection/impls.rs: the eight selection operators with their parameters. *)
Inductive selection_op :=
| SelRouletteWheel
| SelRandom (kind : rng_kind)
| SelUniqueRandom
| SelRank
| SelRankR (r : f64)
| SelTournament (factor : f64)
| SelSus (fuel : nat)
| SelBoltzmann (powf : f64 -> f64 -> f64) (exp : f64 -> f64) (alpha temp_0 : f64) (max_gen : nat).
(** The [apply] functions of impls.rs (lines at the definitions in SelectionModel).  [size] is the
    [ValueProvider] (src/ga/value_provider.rs:8-10), asked once per call with the current metrics; a provider is
    taken to be a function of the metrics, as the ones in src/ga/value_provider/flat.rs are. *)
Definition select_fn {G} (op : selection_op) (size : metrics -> nat) (m : metrics) (pop : list (individual G)) (r : rng)
  : outcome (list nat * rng) :=
  let count := size m in
  match op with
  | SelRouletteWheel => roulette_wheel count pop r
  | SelRandom kind => random_sel kind count pop r
  | SelUniqueRandom => unique_random count pop r
  | SelRank => rank count pop r
  | SelRankR rr => rank_r rr count pop r
  | SelTournament factor => tournament factor count pop r
  | SelSus fuel => sus fuel count pop r
  | SelBoltzmann powf exp alpha temp_0 max_gen => boltzmann powf exp alpha temp_0 (m_generation m) max_gen count pop r
  end.

(** src/ga/operators/crossover/impls.rs: the ten crossover operators.  [fuel] bounds the repair loop of PMX (see
    CrossoverModel). *)
Inductive crossover_op :=
| XoSinglePoint | XoTwoPoint | XoMultiPoint (k : nat) | XoFixedPoint (cut : nat)
| XoUniform (kind : rng_kind) | XoUniformParameterized (kind : rng_kind) (bias : f64) | XoShuffle
| XoOrdered | XoPmx (fuel : nat) | XoPpx.
(** The [apply_single] functions (see CrossoverModel for files and lines). *)
Definition crossover_single {G} `{EqDecision G} (op : crossover_op) (a b : individual G) (r : rng)
  : outcome ((individual G * individual G) * rng) :=
  match op with
  | XoSinglePoint => lift_single single_point a b r
  | XoTwoPoint => lift_single two_point a b r
  | XoMultiPoint k => lift_single (multi_point k) a b r
  | XoFixedPoint cut => '(cd, _) ← fixed_single cut a b tt; Ok (cd, r)
  | XoUniform kind => lift_single (uniform kind) a b r
  | XoUniformParameterized kind bias => lift_single (uniform_parameterized kind bias) a b r
  | XoShuffle => lift_single shuffle_xo a b r
  | XoOrdered => lift_single ordered a b r
  | XoPmx fuel => lift_single (pmx fuel) a b r
  | XoPpx => lift_single ppx a b r
  end.

(** src/ga/operators/mutation/impls.rs: the mutation operators that exist for every type of gene.  ([FlipBit] exists
    for Boolean genes only; [flip_bit] of MutationModel can be handed to [assemble] directly.) *)
Inductive mutation_op :=
| MutIdentity | MutInterchange (rate : f64) | MutReversing (rate : f64) | MutInversion (rate : f64).
Definition mutation_fn {G} (op : mutation_op) : list G -> rng -> rng -> outcome (list G * rng * rng) :=
  match op with
  | MutIdentity => identity_mut
  | MutInterchange rate => interchange rate
  | MutReversing rate => reversing rate
  | MutInversion rate => inversion rate
  end.

(** src/ga/operators/replacement/impls.rs: the three replacement operators; [debug] as in ReplacementModel. *)
Inductive replacement_op := ReplBothParents | ReplNoop | ReplWeakParent (debug : bool).
Definition replacement_fn {G} (op : replacement_op) (pop children : list (individual G)) : outcome (list (individual G)) :=
  match op with
  | ReplBothParents => both_parents pop children
  | ReplNoop => noop pop children
  | ReplWeakParent debug => weak_parent debug pop children
  end.
Definition replacement_requires_fitness (op : replacement_op) : bool :=
  match op with
  | ReplBothParents => both_parents_requires_fitness
  | ReplNoop => noop_requires_fitness
  | ReplWeakParent _ => weak_parent_requires_fitness
  end.

(** The solver: parameters, fitness function, population generator and operators.  [generate] is
    [PopulationGenerator::generate] with the generator's stream. *)
Definition assemble {G} `{EqDecision G} (psize glimit : nat) (duration : N) (fit : list G -> f64)
    (generate : nat -> rng -> outcome (list (individual G) * rng))
    (sel : selection_op) (size : metrics -> nat) (xo : crossover_op)
    (mut : list G -> rng -> rng -> outcome (list G * rng * rng)) (repl : replacement_op)
  : config G streams :=
  Config G streams psize glimit duration
    (fun n s => '(pop, r) ← generate n (st_gen s); Ok (pop, Streams r (st_sel s) (st_xo s) (st_mut s) (st_thread s)))
    fit
    (fun m pop s => '(idx, r) ← select_fn sel size m pop (st_sel s);
                    Ok (idx, Streams (st_gen s) r (st_xo s) (st_mut s) (st_thread s)))
    (fun _ pool s => '(ch, r) ← crossover_apply (crossover_single xo) pool (st_xo s);
                     Ok (ch, Streams (st_gen s) (st_sel s) r (st_mut s) (st_thread s)))
    (fun _ x s => '(x, r, t) ← mutate_individual mut x (st_mut s) (st_thread s);
                  Ok (x, Streams (st_gen s) (st_sel s) (st_xo s) r t))
    (fun _ pop ch s => pop' ← replacement_fn repl pop ch; Ok (pop', s))
    (replacement_requires_fitness repl).

(** src/ga/population/impls.rs:190-240 [RandomPermutations] as a generator on its stream *)
Definition gen_permutations {G} (genes : list G) (n : nat) (r : rng) : outcome (list (individual G) * rng) :=
  '(pop, g) ← random_permutations_generate (RandomPermutations genes r) n;
  Ok (pop, perm_rng g).
(** src/ga/population/impls.rs:134-183 [BitStrings] *)
Definition gen_bits (dim : nat) (n : nat) (r : rng) : outcome (list (individual bool) * rng) :=
  g ← bit_strings_with_rng dim r;
  let '(pop, g) := bit_strings_generate g n in
  Ok (pop, bs_rng g).
(** src/ga/population/impls.rs:15-128 [RandomPoints] with one interval per coordinate *)
Definition gen_points (kind : rng_kind) (constraints : list (f64 * f64)) (n : nat) (r : rng) : outcome (list (individual f64) * rng) :=
  g ← random_points_with_constraints (length constraints) constraints r;
  '(pop, g) ← random_points_generate kind g n;
  Ok (pop, rp_rng g).
