(** * Property theorems: builders and the solvers they return (C31, C53 - C55) *)
From Verif Require Import PresetProofs BuilderProofs BuilderModel BuilderSpec PresetSpec GaSpec SelectionSpec PopulationSpec.
Open Scope nat_scope.

(** ** C31 *)
Theorem C31_generic_builder :
  forall (F M C Sel R P Pr : Type) (calls : list (builder_call F M C Sel R P Pr)),
  (Exists invalid_call calls -> generic_builder calls = Panic) /\
  (Forall (fun c => ~ invalid_call c) calls ->
   (forall f m c s r g p,
      last_set fitnesses calls = Some f -> last_set mutations calls = Some m -> last_set crossovers calls = Some c ->
      last_set selections calls = Some s -> last_set replacements calls = Some r -> last_set generators calls = Some g ->
      last_set probes calls = Some p ->
      generic_builder calls = Ok (inl (GAConfig
        (GAParams (default 100%N (last_set sizes calls)) (default (2 ^ 64 - 1)%N (last_set limits calls))
                  (default ((2 ^ 64 - 1) * 10 ^ 9 + 999999999)%N (last_set durations calls))) f m c s r g p))) /\
   (forall e, first_missing
        [(is_set (last_set fitnesses calls), MissingOperator "No fitness function specified");
         (is_set (last_set mutations calls), MissingOperator "No mutation operator specified");
         (is_set (last_set crossovers calls), MissingOperator "No crossover operator specified");
         (is_set (last_set selections calls), MissingOperator "No selection operator specified");
         (is_set (last_set replacements calls), MissingOperator "No replacement operator specified");
         (is_set (last_set generators calls), MissingPopulationFactory);
         (is_set (last_set probes calls), NoProbe)] = Some e ->
      generic_builder calls = Ok (inr e))).
Proof. exact @generic_builder_spec. Qed.
Print Assumptions C31_generic_builder.

(** The preset builders. *)
Theorem C31_preset_builders :
  forall (F : Type) (calls : list (preset_call F)),
  let size := default 100%N (last_set p_sizes calls) in
  let params := GAParams size (default (2 ^ 64 - 1)%N (last_set p_limits calls))
                  (default ((2 ^ 64 - 1) * 10 ^ 9 + 999999999)%N (last_set p_durations calls)) in
  (Exists p_invalid calls \/ last_set p_fitnesses calls = None \/ last_set p_dims calls = None ->
     bitstring_builder calls = Panic /\ realvalued_builder true calls = Panic) /\
  (Forall (fun c => ~ p_invalid c) calls -> forall f dim, last_set p_fitnesses calls = Some f -> last_set p_dims calls = Some dim ->
     bitstring_builder calls = Ok (inl (GAConfig params f (FlipBitNew f_0_05) SinglePointNew (TournamentNew f_0_2 size) BothParentsNew (BitStringsNew dim) StdoutProbeNew)) /\
     forall debug, realvalued_builder debug calls = Ok (inl (GAConfig params f (InterchangeNew f_0_05) SinglePointNew (TournamentNew f_0_2 size) BothParentsNew (RandomPointsNew dim) StdoutProbeNew))).
Proof. exact @preset_builders_spec. Qed.
Print Assumptions C31_preset_builders.

(** "Panics iff any of the params has an invalid value": in a release build RealValuedBuilder accepts a
    population of size 0 and a generation limit of 0. *)
Theorem C31_realvalued_rejects_zero_refuted :
  exists calls : list (preset_call unit), Exists p_invalid calls /\
    exists c, realvalued_builder false calls = Ok (inl c) /\ gp_size (gc_params c) = 0%N /\ gp_limit (gc_params c) = 0%N.
Proof.
  exists [PPopulationSize 0; PMaxGenerationCount 0; PFitness tt; PDim 3]%N. split; [left; reflexivity|].
  eexists. split; [vm_compute; reflexivity|]. split; reflexivity.
Qed.
Print Assumptions C31_realvalued_rejects_zero_refuted.

(** A complete sequence with a value set twice, and one in which two operators are missing. *)
Example C31_nonvacuous :
  let all := [SetFitness 1; SetMutationOperator 2; SetCrossoverOperator 3; SetSelectionOperator 4; SetReplacementOperator 5;
              SetPopulationGenerator 6; SetProbe 7; SetPopulationSize 10%N; SetMutationOperator 8; SetPopulationSize 20%N]
             : list (builder_call nat nat nat nat nat nat nat) in
  (exists c, generic_builder all = Ok (inl c) /\ gc_mutation c = 8 /\ gp_size (gc_params c) = 20%N /\ gp_limit (gc_params c) = usize_max) /\
  generic_builder [SetFitness 1; SetCrossoverOperator 3; SetProbe 7 : builder_call nat nat nat nat nat nat nat] =
    Ok (inr (MissingOperator "No mutation operator specified")).
Proof. cbn zeta. split; [eexists; split; [vm_compute; reflexivity|split_and!; reflexivity]|reflexivity]. Qed.

(** ** C53: the preset solvers, from builder calls to the result of [run] *)
Theorem C53_realvalued_solver_runs :
  forall debug calls dim c cfg,
  realvalued_builder debug calls = Ok (inl c) -> realvalued_solver c = Some cfg -> last_set p_dims calls = Some dim ->
  (forall ch, length ch = N.to_nat dim -> Forall (fun g => finite_f64 g /\ fle f0 g = true /\ flt g f1 = true) ch -> is_nan (gc_fitness c ch) = false) ->
  (0 < gp_size (gc_params c) <= 2 ^ 53)%N ->
  (N.even (gp_size (gc_params c)) = true -> forall ck m0 s, exists evs b m s', run cfg ck m0 s = Ok (evs, b, m, s')) /\
  (N.odd (gp_size (gc_params c)) = true -> (0 < gp_limit (gc_params c))%N -> forall ck m0 s, run cfg ck m0 s = Panic).
Proof. exact realvalued_end_to_end. Qed.
Print Assumptions C53_realvalued_solver_runs.

Theorem C53_bitstring_solver_runs :
  forall calls dim c cfg,
  bitstring_builder calls = Ok (inl c) -> bitstring_solver c = Some cfg -> last_set p_dims calls = Some dim ->
  (forall ch, length ch = N.to_nat dim -> is_nan (gc_fitness c ch) = false) ->
  (0 < gp_size (gc_params c) <= 2 ^ 53)%N ->
  (N.even (gp_size (gc_params c)) = true -> forall ck m0 s, exists evs b m s', run cfg ck m0 s = Ok (evs, b, m, s')) /\
  (N.odd (gp_size (gc_params c)) = true -> (0 < gp_limit (gc_params c))%N -> forall ck m0 s, run cfg ck m0 s = Panic).
Proof. exact bitstring_end_to_end. Qed.
Print Assumptions C53_bitstring_solver_runs.

(** Both fitness functions are NaN outside the chromosomes the solver can produce. *)
Definition count_ones (ch : list bool) : f64 := if decide (length ch = 2) then f_of_nat (length (filter (fun b : bool => b) ch)) else S754_nan.
Definition first_coordinate (ch : list f64) : f64 := match ch with [x; _] => x | _ => S754_nan end.
Example C53_nonvacuous :
  (exists c cfg, realvalued_builder false [PDim 2; PFitness first_coordinate; PPopulationSize 4; PMaxGenerationCount 2]%N = Ok (inl c) /\
     realvalued_solver c = Some cfg /\ gp_size (gc_params c) = 4%N /\ gc_fitness c [] = S754_nan /\
     (forall ch, length ch = N.to_nat 2 -> Forall (fun g => finite_f64 g /\ fle f0 g = true /\ flt g f1 = true) ch -> is_nan (gc_fitness c ch) = false)) /\
  (exists c cfg, bitstring_builder [PDim 2; PFitness count_ones; PPopulationSize 3]%N = Ok (inl c) /\
     bitstring_solver c = Some cfg /\ gp_size (gc_params c) = 3%N /\ gc_fitness c [] = S754_nan /\
     (forall ch, length ch = N.to_nat 2 -> is_nan (gc_fitness c ch) = false)).
Proof.
  split.
  - exists (GAConfig (GAParams 4 2 duration_max) first_coordinate (InterchangeNew f_0_05) SinglePointNew (TournamentNew f_0_2 4) BothParentsNew (RandomPointsNew 2) StdoutProbeNew).
    eexists. split; [reflexivity|]. split; [reflexivity|]. split; [reflexivity|]. split; [reflexivity|]. cbn [gc_fitness].
    intros [|x [|y [|]]] Hl HF; try discriminate Hl. apply Forall_cons in HF as [[_ [H0 _]] _].
    change (is_nan x = false). destruct (is_nan x) eqn:E; [|reflexivity]. destruct x; try discriminate E. vm_compute in H0. discriminate H0.
  - exists (GAConfig (GAParams 3 usize_max duration_max) count_ones (FlipBitNew f_0_05) SinglePointNew (TournamentNew f_0_2 3) BothParentsNew (BitStringsNew 2) StdoutProbeNew).
    eexists. split; [reflexivity|]. split; [reflexivity|]. split; [reflexivity|]. split; [reflexivity|]. cbn [gc_fitness].
    intros [|x [|y [|]]] Hl; try discriminate Hl. destruct x, y; reflexivity.
Qed.

(** ** C54: the default real-valued solver only recombines the coordinates of its initial population *)
Theorem C54_realvalued_solver_invents_no_coordinate :
  forall debug calls c cfg ck m0 s evs b m s',
  realvalued_builder debug calls = Ok (inl c) -> realvalued_solver c = Some cfg -> run cfg ck m0 s = Ok (evs, b, m, s') ->
  exists q0 rest, populations evs = q0 :: rest /\ all_genes (fun g => fle f0 g = true /\ flt g f1 = true) q0 /\
    forall e q x g, e ∈ evs -> shown e = Some q -> x ∈ q -> g ∈ chromosome x -> occurs_in g q0.
Proof. exact realvalued_end_genes. Qed.
Print Assumptions C54_realvalued_solver_invents_no_coordinate.

(** ** C55: the default selection cannot select the best individual *)
Theorem C55_default_tournament_prefers_the_best_refuted :
  forall (G : Type) count (pop : list (individual G)) r sel r' k best,
  10 <= length pop -> (Z.of_nat (length pop) <= 2 ^ 53)%Z -> comparable pop ->
  pop !! k = Some best -> (forall j x, pop !! j = Some x -> j <> k -> flt (fitness best) (fitness x) = true) ->
  tournament f_0_2 count pop r = Ok (sel, r') -> k ∉ sel.
Proof. exact @default_tournament_drops_best. Qed.
Print Assumptions C55_default_tournament_prefers_the_best_refuted.

Example C55_nonvacuous :
  let pop := Ind [true] f0 :: replicate 9 (Ind [false] f1) in
  10 <= length pop /\ comparable pop /\ (forall j x, pop !! j = Some x -> j <> 0 -> flt f0 (fitness x) = true) /\
  exists sel r', tournament f_0_2 3 pop (rng_of [1; 2; 3]%N) = Ok (sel, r').
Proof.
  cbn zeta. split; [cbn; lia|]. split; [repeat constructor|]. split.
  - intros [|j] x Hx Hj; [congruence|]. cbn [lookup list_lookup] in Hx. apply lookup_replicate in Hx as [-> _]. reflexivity.
  - eexists _, _. vm_compute. reflexivity.
Qed.
