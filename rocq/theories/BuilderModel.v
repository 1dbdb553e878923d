(** * Builders of the genetic solver (src/ga/builder.rs, src/ga/builder/{generic,realvalued,bitstring}.rs) *)
From Coq Require Export Strings.String.
From Verif Require Export GaModel CrossoverModel MutationModel SelectionModel ReplacementModel PopulationModel.
Open Scope nat_scope.

(** [usize::MAX] on a 64-bit target; [std::time::Duration::MAX] in nanoseconds. *)
Definition usize_max : N := (2 ^ 64 - 1)%N.
Definition duration_max : N := ((2 ^ 64 - 1) * 10 ^ 9 + 999999999)%N.

(** src/ga.rs:154-160 [struct GAParams]; durations in nanoseconds *)
Record ga_params := GAParams { gp_size : N; gp_limit : N; gp_duration : N }.
(** builder.rs:66-70 [struct GAParamsOpt], 74-80 [new], 83-87 [fill_from] *)
Record ga_params_opt := GAParamsOpt { po_size : option N; po_limit : option N; po_duration : option N }.
Definition params_opt_new : ga_params_opt := GAParamsOpt None None None.
Definition get_or_insert {A} (o : option A) (x : A) : option A := match o with Some _ => o | None => Some x end.
Definition fill_from (o : ga_params_opt) (p : ga_params) : ga_params_opt :=
  GAParamsOpt (get_or_insert (po_size o) (gp_size p)) (get_or_insert (po_limit o) (gp_limit p))
              (get_or_insert (po_duration o) (gp_duration p)).
(** builder.rs:298-305 [DEFAULT_PARAMS] *)
Definition default_params : ga_params := GAParams 100 usize_max duration_max.

(** builder.rs:40-46 [enum ConfigError] *)
Inductive config_error :=
| MissingParam (s : string) | MissingOperator (s : string) | MissingPopulationFactory | NoProbe | NoParams.

(** builder.rs:90-116 [TryFrom<GAParamsOpt> for GAParams] *)
Definition params_try_from (o : ga_params_opt) : ga_params + config_error :=
  match po_size o with
  | None => inr (MissingParam "Unspecified population size")
  | Some size =>
    match po_limit o with
    | None => inr (MissingParam "Unspecified generation_limit")
    | Some limit =>
      match po_duration o with
      | None => inr (MissingParam "Unspecified max duration")
      | Some duration => inl (GAParams size limit duration)
      end
    end
  end.

Section Generic.
Context {F M C Sel R P Pr : Type}.

(** src/ga.rs:163-185 [struct GAConfig]; builder.rs:122-142 [struct GAConfigOpt], 158-170 [new] *)
Record ga_config := GAConfig {
  gc_params : ga_params; gc_fitness : F; gc_mutation : M; gc_crossover : C; gc_selection : Sel;
  gc_replacement : R; gc_generator : P; gc_probe : Pr }.
Record ga_config_opt := GAConfigOpt {
  co_params : ga_params_opt; co_fitness : option F; co_mutation : option M; co_crossover : option C;
  co_selection : option Sel; co_replacement : option R; co_generator : option P; co_probe : option Pr }.
Definition config_opt_new : ga_config_opt := GAConfigOpt params_opt_new None None None None None None None.

(** builder.rs:172-242 [TryFrom<GAConfigOpt> for GAConfig] *)
Definition config_try_from (o : ga_config_opt) : ga_config + config_error :=
  match params_try_from (co_params o) with
  | inr e => inr e
  | inl params =>
    match co_fitness o with
    | None => inr (MissingOperator "No fitness function specified")
    | Some f =>
      match co_mutation o with
      | None => inr (MissingOperator "No mutation operator specified")
      | Some m =>
        match co_crossover o with
        | None => inr (MissingOperator "No crossover operator specified")
        | Some c =>
          match co_selection o with
          | None => inr (MissingOperator "No selection operator specified")
          | Some s =>
            match co_replacement o with
            | None => inr (MissingOperator "No replacement operator specified")
            | Some r =>
              match co_generator o with
              | None => inr MissingPopulationFactory
              | Some p =>
                match co_probe o with
                | None => inr NoProbe
                | Some pr => inl (GAConfig params f m c s r p pr)
                end
              end
            end
          end
        end
      end
    end
  end.

(** The calls a user can make on a [GenericBuilder] (generic.rs:83-186) *)
Inductive builder_call :=
| SetMaxDuration (d : N) | SetMaxGenerationCount (n : N) | SetPopulationSize (n : N) | SetFitness (f : F)
| SetMutationOperator (m : M) | SetCrossoverOperator (c : C) | SetSelectionOperator (s : Sel)
| SetReplacementOperator (r : R) | SetPopulationGenerator (p : P) | SetProbe (p : Pr).

Definition set_params (p : ga_params_opt) (b : ga_config_opt) : ga_config_opt :=
  GAConfigOpt p (co_fitness b) (co_mutation b) (co_crossover b) (co_selection b) (co_replacement b) (co_generator b) (co_probe b).
(** generic.rs:83-186: the setters, one after the other *)
Definition generic_call (b : ga_config_opt) (call : builder_call) : outcome ga_config_opt :=
  let '(GAConfigOpt p f m c s r g pr) := b in
  match call with
  | SetMaxDuration d => Ok (GAConfigOpt (GAParamsOpt (po_size p) (po_limit p) (Some d)) f m c s r g pr)
  | SetMaxGenerationCount n =>
      _ ← rassert (1 <=? n)%N;
      Ok (GAConfigOpt (GAParamsOpt (po_size p) (Some n) (po_duration p)) f m c s r g pr)
  | SetPopulationSize n =>
      _ ← rassert (0 <? n)%N;
      Ok (GAConfigOpt (GAParamsOpt (Some n) (po_limit p) (po_duration p)) f m c s r g pr)
  | SetFitness f => Ok (GAConfigOpt p (Some f) m c s r g pr)
  | SetMutationOperator m => Ok (GAConfigOpt p f (Some m) c s r g pr)
  | SetCrossoverOperator c => Ok (GAConfigOpt p f m (Some c) s r g pr)
  | SetSelectionOperator s => Ok (GAConfigOpt p f m c (Some s) r g pr)
  | SetReplacementOperator r => Ok (GAConfigOpt p f m c s (Some r) g pr)
  | SetPopulationGenerator g => Ok (GAConfigOpt p f m c s r (Some g) pr)
  | SetProbe pr => Ok (GAConfigOpt p f m c s r g (Some pr))
  end.
(** generic.rs:193-204 [build]; the panic carries the configuration error. *)
Definition generic_build (b : ga_config_opt) : ga_config + config_error :=
  config_try_from (set_params (fill_from (co_params b) default_params) b).
(** [Builder::new().call1(..).call2(..)...build()]: outer [Panic] is a panic in a setter. *)
Definition generic_builder (calls : list builder_call) : outcome (ga_config + config_error) :=
  b ← ofold generic_call config_opt_new calls; Ok (generic_build b).
End Generic.
Arguments ga_config : clear implicits.
Arguments ga_config_opt : clear implicits.
Arguments builder_call : clear implicits.

(** ** The preset builders.  Their operators are created by [build] and are described here by the
    constructor calls. *)
(** The literals 0.2 and 0.05. *)
Definition f_0_2 : f64 := S754_finite false 7205759403792794 (-55).
Definition f_0_05 : f64 := S754_finite false 7205759403792794 (-57).

Inductive crossover_desc := SinglePointNew.
Inductive mutation_desc := InterchangeNew (rate : f64) | FlipBitNew (rate : f64).
Inductive selection_desc := TournamentNew (size_factor : f64) (selection_size : N).
Inductive replacement_desc := BothParentsNew.
Inductive generator_desc := RandomPointsNew (dim : N) | BitStringsNew (dim : N).
Inductive probe_desc := StdoutProbeNew.

Section Preset.
Context {F : Type}.
Notation preset_opt := (ga_config_opt F mutation_desc crossover_desc selection_desc replacement_desc generator_desc probe_desc).
Notation preset := (ga_config F mutation_desc crossover_desc selection_desc replacement_desc generator_desc probe_desc).

Inductive preset_call := PMaxDuration (d : N) | PMaxGenerationCount (n : N) | PPopulationSize (n : N) | PDim (n : N) | PFitness (f : F).
Record preset_builder := PresetBuilder { pb_config : preset_opt; pb_dim : option N }.
Definition preset_new : preset_builder := PresetBuilder config_opt_new None.

(** realvalued.rs:60-110 and bitstring.rs:60-116: the setters.  [checked] says whether the range assertions
    are compiled in: always for BitStringBuilder ([assert!]), only with debug assertions for
    RealValuedBuilder ([debug_assert!]); that of [dim] always is. *)
Definition preset_set (checked : bool) (b : preset_builder) (call : preset_call) : outcome preset_builder :=
  let c := pb_config b in
  let p := co_params c in
  match call with
  | PMaxDuration d => Ok (PresetBuilder (set_params (GAParamsOpt (po_size p) (po_limit p) (Some d)) c) (pb_dim b))
  | PMaxGenerationCount n =>
      _ ← rassert (negb checked || (1 <=? n)%N);
      Ok (PresetBuilder (set_params (GAParamsOpt (po_size p) (Some n) (po_duration p)) c) (pb_dim b))
  | PPopulationSize n =>
      _ ← rassert (negb checked || (0 <? n)%N);
      Ok (PresetBuilder (set_params (GAParamsOpt (Some n) (po_limit p) (po_duration p)) c) (pb_dim b))
  | PDim n => _ ← rassert (0 <? n)%N; Ok (PresetBuilder c (Some n))
  | PFitness f =>
      Ok (PresetBuilder (GAConfigOpt p (Some f) (co_mutation c) (co_crossover c) (co_selection c) (co_replacement c) (co_generator c) (co_probe c)) (pb_dim b))
  end.
(** realvalued.rs:122-167 and bitstring.rs:128-171 [build], which differ in the mutation operator and the
    population generator.  Constructor assertions: SinglePoint, Interchange, FlipBit, BothParents, StdoutProbe
    have none; Tournament::new asserts that the factor is in [0, 1] (0.2 is); RandomPoints::new and
    BitStrings::new assert dim > 0. *)
Definition preset_build (mutation : mutation_desc) (generator : N -> generator_desc) (b : preset_builder)
  : outcome (preset + config_error) :=
  let c := pb_config b in
  let p := fill_from (co_params c) default_params in
  _ ← rassert (match co_fitness c with Some _ => true | None => false end);
  _ ← rassert (match pb_dim b with Some _ => true | None => false end);
  let crossover := get_or_insert (co_crossover c) SinglePointNew in
  let mutation := get_or_insert (co_mutation c) mutation in
  size ← unwrap (po_size p);
  _ ← rassert (fle f0 f_0_2 && fle f_0_2 f1);
  let selection := get_or_insert (co_selection c) (TournamentNew f_0_2 size) in
  let replacement := get_or_insert (co_replacement c) BothParentsNew in
  dim ← unwrap (pb_dim b);
  _ ← rassert (0 <? dim)%N;
  let gen := get_or_insert (co_generator c) (generator dim) in
  let probe := get_or_insert (co_probe c) StdoutProbeNew in
  Ok (config_try_from (GAConfigOpt p (co_fitness c) mutation crossover selection replacement gen probe)).
(** [Builder::with_rvc()....build()] and [Builder::with_bsc()....build()] *)
Definition realvalued_builder (debug : bool) (calls : list preset_call) : outcome (preset + config_error) :=
  b ← ofold (preset_set debug) preset_new calls; preset_build (InterchangeNew f_0_05) RandomPointsNew b.
Definition bitstring_builder (calls : list preset_call) : outcome (preset + config_error) :=
  b ← ofold (preset_set true) preset_new calls; preset_build (FlipBitNew f_0_05) BitStringsNew b.
End Preset.
Arguments preset_call : clear implicits.

(** ** The solver a preset builder returns: GaModel's [config] with the operators put in.  The operators use
    ThreadRng; [s.1] is the stream they draw from, [s.2] the one from which Interchange draws partner loci
    with its own call of thread_rng(). *)
Definition preset_run_config {G} (p : ga_params) (fit : list G -> f64) (factor : f64) (count : N)
    (mutation : list G -> rng -> rng -> outcome (list G * rng * rng))
    (generate : nat -> rng -> outcome (list (individual G) * rng)) : config G (rng * rng) :=
  Config G (rng * rng) (N.to_nat (gp_size p)) (N.to_nat (gp_limit p)) (gp_duration p)
    (fun n s => '(pop, r) ← generate n s.1; Ok (pop, (r, s.2)))
    fit
    (fun _ pop s => '(sel, r) ← tournament factor (N.to_nat count) pop s.1; Ok (sel, (r, s.2)))
    (fun _ pool s => '(ch, r) ← crossover_apply (lift_single single_point) pool s.1; Ok (ch, (r, s.2)))
    (fun _ x s => '(x, r, t) ← mutate_individual mutation x s.1 s.2; Ok (x, (r, t)))
    (fun _ pop ch s => pop' ← both_parents pop ch; Ok (pop', s))
    both_parents_requires_fitness.
(** src/ga/population/impls.rs:103-128: RandomPoints::new(dim) then generate, on the shared stream *)
Definition generate_random_points (dim : N) (n : nat) (r : rng) : outcome (list (individual f64) * rng) :=
  g ← random_points_with_rng (N.to_nat dim) r;
  '(pop, g) ← random_points_generate SharedRng g n;
  Ok (pop, rp_rng g).
Definition generate_bit_strings (dim : N) (n : nat) (r : rng) : outcome (list (individual bool) * rng) :=
  g ← bit_strings_with_rng (N.to_nat dim) r;
  let '(pop, g) := bit_strings_generate g n in
  Ok (pop, bs_rng g).
(** The built configuration turned into a solver; other combinations of descriptions do not arise. *)
Definition realvalued_solver (c : ga_config (list f64 -> f64) mutation_desc crossover_desc selection_desc replacement_desc generator_desc probe_desc)
  : option (config f64 (rng * rng)) :=
  match gc_mutation c, gc_generator c, gc_selection c with
  | InterchangeNew rate, RandomPointsNew dim, TournamentNew factor count =>
      Some (preset_run_config (gc_params c) (gc_fitness c) factor count (interchange rate) (generate_random_points dim))
  | _, _, _ => None
  end.
Definition bitstring_solver (c : ga_config (list bool -> f64) mutation_desc crossover_desc selection_desc replacement_desc generator_desc probe_desc)
  : option (config bool (rng * rng)) :=
  match gc_mutation c, gc_generator c, gc_selection c with
  | FlipBitNew rate, BitStringsNew dim, TournamentNew factor count =>
      Some (preset_run_config (gc_params c) (gc_fitness c) factor count (flip_bit rate) (generate_bit_strings dim))
  | _, _, _ => None
  end.
