(** * The genetic solver (src/ga.rs) *)
From Verif Require Export IndividualModel.
Open Scope nat_scope.

(** src/ga.rs:187-205 [struct Metrics]; of the duration fields only [total_dur] is represented, as a
    number of time units. *)
Record metrics := Metrics { m_generation : nat; m_population_size : nat; m_total_dur : option N }.

(** Callbacks of src/ga/probe.rs, with their arguments, in the order in which they are made. *)
Inductive event (G : Type) :=
| OnStart (m : metrics)
| OnInitialPopulation (m : metrics) (pop : list (individual G))
| OnNewBest (m : metrics) (b : individual G)
| OnIterationStart (m : metrics)
| OnNewGeneration (m : metrics) (pop : list (individual G))
| OnBestFit (m : metrics) (b : individual G)
| OnIterationEnd (m : metrics)
| OnEnd (m : metrics) (pop : list (individual G)) (b : individual G).
Arguments OnStart {_} _.
Arguments OnInitialPopulation {_} _ _.
Arguments OnNewBest {_} _ _.
Arguments OnIterationStart {_} _.
Arguments OnNewGeneration {_} _ _.
Arguments OnBestFit {_} _ _.
Arguments OnIterationEnd {_} _.
Arguments OnEnd {_} _ _ _.

(** Readings of [start_time.elapsed()]: before the loop, at the start and at the end of generation g, and
    after the loop. *)
Record clock := Clock { c_init : N; c_start : nat -> N; c_end : nat -> N; c_final : N }.

(** src/ga.rs:154-185 [struct GAParams], [struct GAConfig].  The operators are arbitrary functions on an
    arbitrary state [S] (their own fields, RNGs, the outside world); selection returns the positions of the
    references it selects.  The fitness function is a pure function of the chromosome, as with
    [FnBasedFitness] (src/ga/operators/fitness.rs:19-37).  Individuals keep the default
    [requires_evaluation] = true (src/ga/individual.rs). *)
Record config (G S : Type) := Config {
  population_size : nat;
  generation_limit : nat;
  max_duration : N;
  op_generate : nat -> S -> outcome (list (individual G) * S);
  op_fitness : list G -> f64;
  op_select : metrics -> list (individual G) -> S -> outcome (list nat * S);
  op_crossover : metrics -> list (individual G) -> S -> outcome (list (individual G) * S);
  op_mutate : metrics -> individual G -> S -> outcome (individual G * S);
  op_replace : metrics -> list (individual G) -> list (individual G) -> S -> outcome (list (individual G) * S);
  op_requires_children_fitness : bool }.
Arguments population_size {_ _} _.
Arguments generation_limit {_ _} _.
Arguments max_duration {_ _} _.
Arguments op_generate {_ _} _ _ _.
Arguments op_fitness {_ _} _ _.
Arguments op_select {_ _} _ _ _ _.
Arguments op_crossover {_ _} _ _ _ _.
Arguments op_mutate {_ _} _ _ _ _.
Arguments op_replace {_ _} _ _ _ _ _.
Arguments op_requires_children_fitness {_ _} _.

Section Solver.
Context {G S : Type}.
Variable cfg : config G S.
Notation population := (list (individual G)).

(** src/ga.rs:258-260 [find_best_individual] *)
Definition find_best (pop : population) : outcome (individual G) :=
  o ← iter_min fitness pop; unwrap o.

(** src/ga.rs:263-268 [eval_pop] *)
Definition eval_ind (x : individual G) : individual G := Ind (chromosome x) (op_fitness cfg (chromosome x)).
Definition eval_pop (pop : population) : population := eval_ind <$> pop.

(** src/ga.rs:327-329 *)
Fixpoint mutate_all (m : metrics) (children : population) (s : S) : outcome (population * S) :=
  match children with
  | [] => Ok ([], s)
  | c :: cs =>
      '(c, s) ← op_mutate cfg m c s;
      '(cs, s) ← mutate_all m cs s;
      Ok (c :: cs, s)
  end.

(** src/ga.rs:301-371: one iteration of the main loop, up to the stop check *)
Definition generation (ck : clock) (g : nat) (m : metrics) (pop : population) (best : individual G) (s : S)
  : outcome (list (event G) * (metrics * population * individual G * S)) :=
  let m := Metrics g (m_population_size m) (Some (c_start ck g)) in
  let pop := eval_pop pop in
  '(sel, s) ← op_select cfg m pop s;
  pool ← omapM (index pop) sel;
  '(children, s) ← op_crossover cfg m pool s;
  '(children, s) ← mutate_all m children s;
  let children := if op_requires_children_fitness cfg then eval_pop children else children in
  '(pop', s) ← op_replace cfg m pop children s;
  let m' := Metrics g (length pop') (m_total_dur m) in
  _ ← rassert (bool_decide (length pop' = population_size cfg));
  let pop' := eval_pop pop' in
  best_g ← find_best pop';
  let improved := flt (fitness best_g) (fitness best) in
  let best' := if improved then best_g else best in
  Ok ([OnIterationStart m; OnNewGeneration m' pop'; OnBestFit m' best_g] ++
      (if improved then [OnNewBest m' best'] else []) ++ [OnIterationEnd m'],
      (m', pop', best', s)).

(** src/ga.rs:300-376: [for generation_no in 1..=generation_limit] with its [break]; [remaining] is the
    number of generations left. *)
Fixpoint main_loop (ck : clock) (remaining g : nat) (m : metrics) (pop : population) (best : individual G) (s : S)
  : outcome (list (event G) * (metrics * population * individual G * S)) :=
  match remaining with
  | 0 => Ok ([], (m, pop, best, s))
  | Datatypes.S remaining =>
      '(evs, (m, pop, best, s)) ← generation ck g m pop best s;
      if (max_duration cfg <=? c_end ck g)%N then Ok (evs, (m, pop, best, s))
      else
        '(evs2, st) ← main_loop ck remaining (g + 1) m pop best s;
        Ok (evs ++ evs2, st)
  end.

(** src/ga.rs:277-383 [GeneticSolver::run].  [m0] is what the solver's metrics hold when [run] is called;
    the final metrics are returned with the result. *)
Definition run (ck : clock) (m0 : metrics) (s : S) : outcome (list (event G) * individual G * metrics * S) :=
  '(pop, s) ← op_generate cfg (population_size cfg) s;
  let m1 := Metrics (m_generation m0) (length pop) (m_total_dur m0) in
  let pop := eval_pop pop in
  best ← find_best pop;
  let m2 := Metrics (m_generation m0) (length pop) (Some (c_init ck)) in
  '(evs, (m, pop', best', s)) ← main_loop ck (generation_limit cfg) 1 m2 pop best s;
  let m := Metrics (m_generation m) (m_population_size m) (Some (c_final ck)) in
  Ok ([OnStart m0; OnInitialPopulation m1 pop; OnNewBest m2 best] ++ evs ++ [OnEnd m pop' best'], best', m, s).

(** src/ga.rs:246-256 [GeneticSolver::new] *)
Definition fresh_metrics : metrics := Metrics 0 (population_size cfg) None.
End Solver.
