(** * Property theorems: which assembled solvers return and which panic (C113) *)
From Verif Require Import GaSpec GaAssembleModel GaAssembleSpec GaFitSelSpec PopulationSpec GaFitSelProofs F64R.
Open Scope nat_scope.

(** ** C113 *)
(** For every crossover, mutation and replacement, and every selection but SUS (which may panic for any fitness values, C20):
    with a population of even size the run returns, with one of odd size it panics in the first generation. *)
Theorem C113_permutation_solvers :
  forall (G : Type) `{EqDecision G} psize glimit duration (fit : list G -> f64) (genes : list G) sel size xo mop repl ck m0 s,
  NoDup genes -> genes <> [] -> order_based xo = true -> enough_fuel xo (length genes) ->
  0 < psize -> (forall m, size m = psize) -> dependable_on sel psize fit (fun ch => ch ≡ₚ genes) ->
  (Nat.even psize = true -> exists evs b m s', run (assemble psize glimit duration fit (gen_permutations genes) sel size xo (mutation_fn mop) repl) ck m0 s = Ok (evs, b, m, s')) /\
  (Nat.odd psize = true -> 0 < glimit -> run (assemble psize glimit duration fit (gen_permutations genes) sel size xo (mutation_fn mop) repl) ck m0 s = Panic).
Proof. exact @perm_family. Qed.
Print Assumptions C113_permutation_solvers.

Theorem C113_bit_string_solvers :
  forall psize glimit duration fit dim sel size xo (mut : list bool -> rng -> rng -> outcome (list bool * rng * rng)) repl ck m0 s,
  ((exists mop, mut = mutation_fn mop) \/ (exists rate, mut = flip_bit rate)) -> order_based xo = false -> cuts_fit xo dim -> 0 < dim ->
  0 < psize -> (forall m, size m = psize) -> dependable_on sel psize fit (fun ch => length ch = dim) ->
  (Nat.even psize = true -> exists evs b m s', run (assemble psize glimit duration fit (gen_bits dim) sel size xo mut repl) ck m0 s = Ok (evs, b, m, s')) /\
  (Nat.odd psize = true -> 0 < glimit -> run (assemble psize glimit duration fit (gen_bits dim) sel size xo mut repl) ck m0 s = Panic).
Proof. exact bits_family. Qed.
Print Assumptions C113_bit_string_solvers.

Theorem C113_real_vector_solvers :
  forall `{EqDecision f64} psize glimit duration fit kind cs sel size xo mop repl ck m0 s,
  order_based xo = false -> cuts_fit xo (length cs) -> cs <> [] -> Forall proper_range cs ->
  0 < psize -> (forall m, size m = psize) -> dependable_on sel psize fit (in_space cs) ->
  (Nat.even psize = true -> exists evs b m s', run (assemble psize glimit duration fit (gen_points kind cs) sel size xo (mutation_fn mop) repl) ck m0 s = Ok (evs, b, m, s')) /\
  (Nat.odd psize = true -> 0 < glimit -> run (assemble psize glimit duration fit (gen_points kind cs) sel size xo (mutation_fn mop) repl) ck m0 s = Panic).
Proof. exact @points_family. Qed.
Print Assumptions C113_real_vector_solvers.

(** One point for every leading 1, so that the fitness lies in [0, 2^900]; and weights for it. *)
Definition leading_ones (ch : list bool) : f64 := match ch with true :: true :: _ => f_of_nat 2 | true :: _ => f1 | _ => f0 end.
Definition two_level_exp (v : f64) : f64 := if flt v (fneg f1) then fhalf else f1.
Definition boltzmann_op : selection_op := SelBoltzmann (fun _ _ => fhalf) two_level_exp fhalf (f_of_nat 10) 5.
Definition bit_solver (psize : nat) (sel : selection_op) : config bool streams :=
  assemble psize 2 1000 leading_ones (gen_bits 3) sel (fun _ => psize) (XoMultiPoint 2) (flip_bit fhalf) (ReplWeakParent true).
Definition bit_draws : streams :=
  let r := rng_of [1; 7; 3; 9; 2; 8; 5; 0; 4; 6; 11; 13; 2; 5; 1; 3; 4503599627370495; 2; 1; 7; 3; 2]%N in
  Streams r (rng_of [0; 4503599627370495; 9007199254740991; 2; 9007199254740991; 3; 1; 7]%N) r r r.
Definition bit_clock : clock := Clock 0 (fun _ => 0%N) (fun _ => 0%N) 0.
Example C113_nonvacuous :
  dependable_on SelRouletteWheel 4 leading_ones (fun ch => length ch = 3) /\
  dependable_on boltzmann_op 4 leading_ones (fun ch => length ch = 3) /\
  (exists evs b m s', run (bit_solver 4 SelRouletteWheel) bit_clock (fresh_metrics (bit_solver 4 SelRouletteWheel)) bit_draws = Ok (evs, b, m, s') /\ length (populations evs) = 3) /\
  (exists evs b m s', run (bit_solver 4 boltzmann_op) bit_clock (fresh_metrics (bit_solver 4 boltzmann_op)) bit_draws = Ok (evs, b, m, s') /\ length (populations evs) = 3) /\
  run (bit_solver 3 SelRouletteWheel) bit_clock (fresh_metrics (bit_solver 3 SelRouletteWheel)) bit_draws = Panic.
Proof.
  split; [|split; [|split; [|split]]].
  - split; [reflexivity|]. intros [|[] [|[] ch]] _; repeat split; reflexivity.
  - repeat split. + intros [|[] [|[] ch]] _; reflexivity. + intros ch g _. unfold two_level_exp. destruct (flt _ _); reflexivity.
  - eexists _, _, _, _. split; [vm_compute; reflexivity|reflexivity].
  - eexists _, _, _, _. split; [vm_compute; reflexivity|reflexivity].
  - vm_compute. reflexivity.
Qed.
