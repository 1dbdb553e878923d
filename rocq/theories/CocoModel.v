(** * The COCO experiment (coco/src/main.rs, coco/src/adapter.rs)

    coco-rs and the C library below it are represented by their contract: a problem has fixed sizes, ranges of interest and
    an objective function, and counts its evaluations.  Loggers and observers are not represented. *)
From Verif Require Export GaEvalModel PopulationModel SelectionModel CrossoverModel MutationModel ReplacementModel BuilderModel.
Open Scope nat_scope.

(** [coco_rs::Problem]: what does not change.  A range of interest [a..=b] is the pair (a, b). *)
Record problem := Problem {
  p_dimension : nat; p_constraints : nat; p_objectives : nat; p_integers : nat;
  p_ranges : list (f64 * f64); p_initial : list f64; p_objective : list f64 -> f64; p_target : f64 }.
(** What changes: the points given to [evaluate_function], latest first, and the number of [evaluate_constraint] calls. *)
Record pstate := PState { evaluated_points : list (list f64); constraint_calls : nat }.
Definition fresh_problem : pstate := PState [] 0.
(** [Problem::evaluate_function(x, y)] asserts the lengths of x and y. *)
Definition evaluate_function (p : problem) (x : list f64) (y_len : nat) (st : pstate) : outcome (f64 * pstate) :=
  _ ← rassert (bool_decide (length x = p_dimension p));
  _ ← rassert (bool_decide (y_len = p_objectives p));
  Ok (p_objective p x, PState (x :: evaluated_points st) (constraint_calls st)).
(** [Problem::final_target_hit] *)
Definition final_target_hit (p : problem) (st : pstate) : bool :=
  existsb (fun x => fle (p_objective p x) (p_target p)) (evaluated_points st).

(** The generators (of coco-rs and of the thread), the clock readings of the k-th call of a search function and the number
    of such calls made so far. *)
Record world := World { w_random : rng; w_thread : rng; w_clocks : nat -> clock; w_calls : nat }.

(** [RandomState::uniform]: any f64 of [0, 1) *)
Definition coco_uniform (r : rng) : f64 * rng :=
  let v := f_of_bits (r 0) in (if fle f0 v && flt v f1 then v else f0, rng_tail r).

(** coco/src/main.rs:19 [type SearchFn] *)
Definition search_fn := problem -> nat -> pstate * world -> outcome (pstate * world).

(** coco/src/adapter.rs:10-29 [CocoFitness]; coco/src/main.rs:92-126: the solver built by [ecrs_ga_search].  The output cell
    has length 1.  All operators use ThreadRng; Reversing needs no second generator.  The probe is empty. *)
Definition coco_solver (debug : bool) (p : problem) (g : random_points) : gconfig (individual f64) f64 (pstate * rng) :=
  GConfig (individual f64) f64 (pstate * rng) 100 (N.to_nat 10000) 200000000%N
    (fun _ => true) (fun x v => Ind (chromosome x) v) ind_cmp (fun a b => flt (fitness a) (fitness b))
    (fun n s => '(pop, g) ← random_points_generate SharedRng (RandomPoints (rp_dim g) (rp_constraints g) s.2) n; Ok (pop, (s.1, rp_rng g)))
    (fun x s => '(v, st) ← evaluate_function p (chromosome x) 1 s.1; Ok (v, x, (st, s.2)))
    (fun _ pop s => '(sel, r) ← tournament f_0_2 100 pop s.2; Ok (sel, (s.1, r)))
    (fun _ pool s => '(ch, r) ← crossover_apply (lift_single (uniform SharedRng)) pool s.2; Ok (ch, (s.1, r)))
    (fun _ x s => '(x, r, _) ← mutate_individual (reversing f_0_05) x s.2 s.2; Ok (x, (s.1, r)))
    (fun _ pop ch s => pop' ← weak_parent debug pop ch; Ok (pop', s))
    weak_parent_requires_fitness.
(** coco/src/main.rs:91-129 [ecrs_ga_search]; the budget is not used *)
Definition ecrs_ga_search (debug : bool) : search_fn := fun p _ s =>
  let '(st, w) := s in
  g ← random_points_with_constraints (p_dimension p) (p_ranges p) (w_thread w);
  '(_, _, _, (st, r)) ← g_run (coco_solver debug p g) (w_clocks w (w_calls w)) (Metrics 0 100 None) (st, w_thread w);
  Ok (st, World (w_random w) r (w_clocks w) (w_calls w + 1)).

(** coco/src/main.rs:148-155: [for (i, xi) in x.iter_mut().enumerate()]; [round] is f64::round *)
Fixpoint random_point (round : f64 -> f64) (p : problem) (n i : nat) (r : rng) : outcome (list f64 * rng) :=
  match n with
  | 0 => Ok ([], r)
  | S n =>
      c ← index (p_ranges p) i;
      let '(u, r) := coco_uniform r in
      let xi := fadd c.1 (fmul u (fsub c.2 c.1)) in
      let xi := if bool_decide (i < p_integers p) then round xi else xi in
      '(xs, r) ← random_point round p n (i + 1) r;
      Ok (xi :: xs, r)
  end.
(** coco/src/main.rs:147-162: the loop over the budget *)
Fixpoint random_points_loop (round : f64 -> f64) (p : problem) (budget : nat) (st : pstate) (r : rng) : outcome (pstate * rng) :=
  match budget with
  | 0 => Ok (st, r)
  | S budget =>
      '(x, r) ← random_point round p (p_dimension p) 0 r;
      let st := if bool_decide (0 < p_constraints p) then PState (evaluated_points st) (constraint_calls st + 1) else st in
      '(_, st) ← evaluate_function p x (p_objectives p) st;
      random_points_loop round p budget st r
  end.
(** coco/src/main.rs:133-163 [random_search]; [initial_solution] fills x, whose length is the dimension *)
Definition random_search (round : f64 -> f64) : search_fn := fun p budget s =>
  let '(st, w) := s in
  '(_, st) ← evaluate_function p (p_initial p) (p_objectives p) st;
  '(st, r) ← random_points_loop round p budget st (w_random w);
  Ok (st, World r (w_thread w) (w_clocks w) (w_calls w + 1)).

(** coco/src/main.rs:14-15 *)
Definition budget_multiplier : nat := 10.
Definition independent_restarts : nat := N.to_nat 100000.
(** coco/src/main.rs:77-87: [for _ in 1..=INDEPENDENT_RESTARTS_100K] *)
Fixpoint restarts (search : search_fn) (n : nat) (p : problem) (s : pstate * world) : outcome (pstate * world) :=
  match n with
  | 0 => Ok s
  | S n =>
      let evaluations_done := length (evaluated_points s.1) + constraint_calls s.1 in
      let evaluations_remaining := p_dimension p * budget_multiplier - evaluations_done in
      if final_target_hit p s.1 || bool_decide (evaluations_remaining = 0) then Ok s
      else s ← search p evaluations_remaining s; restarts search n p s
  end.
(** coco/src/main.rs:60-87: one problem of the suite *)
Definition one_problem (search : search_fn) (p : problem) (w : world) : outcome (pstate * world) :=
  _ ← rassert (bool_decide (p_constraints p = 0));
  _ ← rassert (bool_decide (p_objectives p <= 1));
  _ ← rassert (bool_decide (p_integers p = 0));
  restarts search independent_restarts p (fresh_problem, w).
(** coco/src/main.rs:48-89 [run_experiment]: the problems of the suite in turn; returns how each was left *)
Fixpoint run_experiment (search : search_fn) (suite : list problem) (w : world) : outcome (list pstate * world) :=
  match suite with
  | [] => Ok ([], w)
  | p :: ps =>
      '(st, w) ← one_problem search p w;
      '(sts, w) ← run_experiment search ps w;
      Ok (st :: sts, w)
  end.
(** coco/src/main.rs:21-46 [main]: both experiments, on fresh suites; the thread's generator and the calls go on *)
Definition coco_main (debug : bool) (round : f64 -> f64) (suite : list problem) (w : world) : outcome (list pstate * list pstate * world) :=
  '(a, w) ← run_experiment (ecrs_ga_search debug) suite w;
  '(b, w) ← run_experiment (random_search round) suite w;
  Ok (a, b, w).
