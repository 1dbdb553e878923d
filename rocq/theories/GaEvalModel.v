(** * The genetic solver with a stateful fitness function and custom individuals (src/ga.rs)

    GaModel.v fixes the crate's own [Individual] and a pure fitness function.  Here the individual is any implementation of
    [IndividualTrait] (src/ga/individual.rs:19-53) and the fitness function any implementation of [Fitness]
    (src/ga/operators/fitness.rs): it may change its own state and the individual, and need not be a function. *)
From Verif Require Export GaModel.
Open Scope nat_scope.

(** Callbacks of src/ga/probe.rs on individuals of type [I] *)
Inductive gevent (I : Type) :=
| GStart (m : metrics)
| GInitialPopulation (m : metrics) (pop : list I)
| GNewBest (m : metrics) (b : I)
| GIterationStart (m : metrics)
| GNewGeneration (m : metrics) (pop : list I)
| GBestFit (m : metrics) (b : I)
| GIterationEnd (m : metrics)
| GEnd (m : metrics) (pop : list I) (b : I).
Arguments GStart {_} _.
Arguments GInitialPopulation {_} _ _.
Arguments GNewBest {_} _ _.
Arguments GIterationStart {_} _.
Arguments GNewGeneration {_} _ _.
Arguments GBestFit {_} _ _.
Arguments GIterationEnd {_} _.
Arguments GEnd {_} _ _ _.

(** src/ga.rs:154-185 [GAParams], [GAConfig].  [V] is the type of fitness values.  [g_requires] is
    [requires_evaluation], [g_set] writes through [fitness_mut], [g_cmp] is [Ord::cmp], [g_less] is [<]. *)
Record gconfig (I V S : Type) := GConfig {
  g_population_size : nat;
  g_generation_limit : nat;
  g_max_duration : N;
  g_requires : I -> bool;
  g_set : I -> V -> I;
  g_cmp : I -> I -> outcome comparison;
  g_less : I -> I -> bool;
  g_generate : nat -> S -> outcome (list I * S);
  g_fitness : I -> S -> outcome (V * I * S);
  g_select : metrics -> list I -> S -> outcome (list nat * S);
  g_crossover : metrics -> list I -> S -> outcome (list I * S);
  g_mutate : metrics -> I -> S -> outcome (I * S);
  g_replace : metrics -> list I -> list I -> S -> outcome (list I * S);
  g_requires_children_fitness : bool }.
Arguments g_population_size {_ _ _} _.
Arguments g_generation_limit {_ _ _} _.
Arguments g_max_duration {_ _ _} _.
Arguments g_requires {_ _ _} _ _.
Arguments g_set {_ _ _} _ _ _.
Arguments g_cmp {_ _ _} _ _ _.
Arguments g_less {_ _ _} _ _ _.
Arguments g_generate {_ _ _} _ _ _.
Arguments g_fitness {_ _ _} _ _ _.
Arguments g_select {_ _ _} _ _ _ _.
Arguments g_crossover {_ _ _} _ _ _ _.
Arguments g_mutate {_ _ _} _ _ _ _.
Arguments g_replace {_ _ _} _ _ _ _ _.
Arguments g_requires_children_fitness {_ _ _} _.

Section Solver.
Context {I V S : Type}.
Variable cfg : gconfig I V S.

(** [Iterator::min()] with [Ord::cmp]: the first minimum *)
Fixpoint g_min_from (acc : I) (l : list I) : outcome I :=
  match l with
  | [] => Ok acc
  | x :: xs => c ← g_cmp cfg acc x; g_min_from (match c with Gt => x | _ => acc end) xs
  end.
(** src/ga.rs:258-260 [find_best_individual] *)
Definition g_find_best (pop : list I) : outcome I :=
  match pop with [] => Panic | x :: xs => g_min_from x xs end.

(** src/ga.rs:263-268 [eval_pop]: in order, only those that require it *)
Definition g_eval_ind (x : I) (s : S) : outcome (I * S) :=
  if g_requires cfg x then '(v, x, s) ← g_fitness cfg x s; Ok (g_set cfg x v, s) else Ok (x, s).
Fixpoint g_eval_pop (pop : list I) (s : S) : outcome (list I * S) :=
  match pop with
  | [] => Ok ([], s)
  | x :: xs => '(x, s) ← g_eval_ind x s; '(xs, s) ← g_eval_pop xs s; Ok (x :: xs, s)
  end.
(** src/ga.rs:327-329 *)
Fixpoint g_mutate_all (m : metrics) (children : list I) (s : S) : outcome (list I * S) :=
  match children with
  | [] => Ok ([], s)
  | c :: cs => '(c, s) ← g_mutate cfg m c s; '(cs, s) ← g_mutate_all m cs s; Ok (c :: cs, s)
  end.

(** src/ga.rs:301-371: one iteration of the main loop, up to the stop check *)
Definition g_generation (ck : clock) (g : nat) (m : metrics) (pop : list I) (best : I) (s : S)
  : outcome (list (gevent I) * (metrics * list I * I * S)) :=
  let m := Metrics g (m_population_size m) (Some (c_start ck g)) in
  '(pop, s) ← g_eval_pop pop s;
  '(sel, s) ← g_select cfg m pop s;
  pool ← omapM (index pop) sel;
  '(children, s) ← g_crossover cfg m pool s;
  '(children, s) ← g_mutate_all m children s;
  '(children, s) ← (if g_requires_children_fitness cfg then g_eval_pop children s else Ok (children, s));
  '(pop', s) ← g_replace cfg m pop children s;
  let m' := Metrics g (length pop') (m_total_dur m) in
  _ ← rassert (bool_decide (length pop' = g_population_size cfg));
  '(pop', s) ← g_eval_pop pop' s;
  best_g ← g_find_best pop';
  let improved := g_less cfg best_g best in
  let best' := if improved then best_g else best in
  Ok ([GIterationStart m; GNewGeneration m' pop'; GBestFit m' best_g] ++
      (if improved then [GNewBest m' best'] else []) ++ [GIterationEnd m'],
      (m', pop', best', s)).

(** src/ga.rs:300-376 *)
Fixpoint g_main_loop (ck : clock) (remaining g : nat) (m : metrics) (pop : list I) (best : I) (s : S)
  : outcome (list (gevent I) * (metrics * list I * I * S)) :=
  match remaining with
  | 0 => Ok ([], (m, pop, best, s))
  | Datatypes.S remaining =>
      '(evs, (m, pop, best, s)) ← g_generation ck g m pop best s;
      if (g_max_duration cfg <=? c_end ck g)%N then Ok (evs, (m, pop, best, s))
      else
        '(evs2, st) ← g_main_loop ck remaining (g + 1) m pop best s;
        Ok (evs ++ evs2, st)
  end.

(** src/ga.rs:277-383 [GeneticSolver::run] *)
Definition g_run (ck : clock) (m0 : metrics) (s : S) : outcome (list (gevent I) * I * metrics * S) :=
  '(pop, s) ← g_generate cfg (g_population_size cfg) s;
  let m1 := Metrics (m_generation m0) (length pop) (m_total_dur m0) in
  '(pop, s) ← g_eval_pop pop s;
  best ← g_find_best pop;
  let m2 := Metrics (m_generation m0) (length pop) (Some (c_init ck)) in
  '(evs, (m, pop', best', s)) ← g_main_loop ck (g_generation_limit cfg) 1 m2 pop best s;
  let m := Metrics (m_generation m) (m_population_size m) (Some (c_final ck)) in
  Ok ([GStart m0; GInitialPopulation m1 pop; GNewBest m2 best] ++ evs ++ [GEnd m pop' best'], best', m, s).
End Solver.
