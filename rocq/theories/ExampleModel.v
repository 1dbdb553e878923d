(** * The genetic example programs (examples/ga_bsc.rs, ga_rvc.rs, ga_ackley_test_function.rs, ga.rs)

    Each definition is the [main] of one program up to the println! of its result: the builder calls, build() and
    run().unwrap().  What is printed by the probes is left out (see ProbeModel), and so is util::init_logging. *)
From Verif Require Export BuilderModel GaAssembleModel TfSpec TfModel.
Open Scope nat_scope.

(** [build()] followed by [run()]: a configuration error makes build panic (realvalued.rs:160-166, bitstring.rs:164-170). *)
Definition start_rvc (debug : bool) (calls : list (preset_call (list f64 -> f64))) (ck : clock) (s : rng * rng) :=
  built ← realvalued_builder debug calls;
  match built with
  | inl c => match realvalued_solver c with Some cfg => run cfg ck (fresh_metrics cfg) s | None => Panic end
  | inr _ => Panic
  end.
Definition start_bsc (calls : list (preset_call (list bool -> f64))) (ck : clock) (s : rng * rng) :=
  built ← bitstring_builder calls;
  match built with
  | inl c => match bitstring_solver c with Some cfg => run cfg ck (fresh_metrics cfg) s | None => Panic end
  | inr _ => Panic
  end.

(** examples/ga_bsc.rs:5-7 *)
Definition wordmax_fitness (ch : list bool) : f64 := f_of_nat (length (List.filter (fun gene => gene) ch)).
(** examples/ga_bsc.rs:9-22; Duration::from_secs(10) in nanoseconds *)
Definition ga_bsc_main : clock -> rng * rng -> _ :=
  start_bsc [PMaxDuration (10 * 10 ^ 9); PFitness wordmax_fitness; PDim 10; PPopulationSize 6]%N.

Section Real.
Context (L : libm).
Local Instance num_here : Num f64 := num_f64 L.
Local Open Scope num_scope.
(** examples/ga_rvc.rs:9-14 *)
Definition own_rastrigin (ch : list f64) : f64 :=
  # 10 * of_nat (length ch) + foldl (fun sum x => sum + powi x 2 - # 10 * ncos (# 2 * npi * x)) (# 0) ch.
(** examples/ga_rvc.rs:5-7 *)
Definition own_fitness (ch : list f64) : f64 := # 1000 * nexp (- own_rastrigin ch).
(** examples/ga_ackley_test_function.rs:10, the closure.  Fitness functions are total in GaModel; where [ackley] would
    panic (on the empty chromosome) the value is left NaN. *)
Definition ackley_fitness (ch : list f64) : f64 := match ackley ch with Ok v => - v | _ => S754_nan end.
(** examples/ga.rs:12-14, likewise *)
Definition rastrigin_fitness (ch : list f64) : f64 := match rastrigin ch with Ok v => # 1000 * nexp (- v) | _ => S754_nan end.
(** The literal 5.12 *)
Definition f_5_12 : f64 := lit 512 100.
End Real.

(** examples/ga_rvc.rs:16-28 *)
Definition ga_rvc_main (L : libm) (debug : bool) : clock -> rng * rng -> _ :=
  start_rvc debug [PMaxDuration (10 * 10 ^ 9); PFitness (own_fitness L); PDim 5]%N.
(** examples/ga_ackley_test_function.rs:5-17 *)
Definition ga_ackley_main (L : libm) (debug : bool) : clock -> rng * rng -> _ :=
  start_rvc debug [PMaxDuration (5 * 10 ^ 9); PFitness (ackley_fitness L); PDim 4]%N.

(** examples/ga.rs:16-58, through the generic builder.  A selection operator is described together with its pool size,
    the population generator by its intervals; the probe is left out.  The assertions of Boltzmann::new and
    RandomPoints::with_constraints are those of [boltzmann] and [gen_points]. *)
Definition ga_calls (L : libm) (debug : bool)
  : list (builder_call (list f64 -> f64) mutation_op crossover_op (selection_op * nat) replacement_op (list (f64 * f64)) unit) :=
  let side := (fneg (f_5_12 L), f_5_12 L) in
  [SetMaxGenerationCount 50000; SetPopulationSize 100; SetFitness (rastrigin_fitness L); SetCrossoverOperator XoSinglePoint;
   SetReplacementOperator (ReplWeakParent debug); SetMutationOperator MutIdentity; SetPopulationGenerator [side; side; side];
   SetSelectionOperator (SelBoltzmann (l_powf L) (l_exp L) f_0_05 (f_of_nat 80) 500, 100%nat); SetProbe tt]%N.
Definition generic_solver `{EqDecision f64}
    (c : ga_config (list f64 -> f64) mutation_op crossover_op (selection_op * nat) replacement_op (list (f64 * f64)) unit) : config f64 streams :=
  assemble (N.to_nat (gp_size (gc_params c))) (N.to_nat (gp_limit (gc_params c))) (gp_duration (gc_params c)) (gc_fitness c)
    (gen_points SharedRng (gc_generator c)) (gc_selection c).1 (fun _ => (gc_selection c).2) (gc_crossover c) (mutation_fn (gc_mutation c)) (gc_replacement c).
Definition ga_main `{EqDecision f64} (L : libm) (debug : bool) (ck : clock) (s : streams) :=
  built ← generic_builder (ga_calls L debug);
  match built with
  | inl c => run (generic_solver c) ck (fresh_metrics (generic_solver c)) s
  | inr _ => Panic
  end.
