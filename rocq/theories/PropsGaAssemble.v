(** * Property theorems: solvers put together from the library's operators (C105 - C107) *)
From Verif Require Import GaAssembleRunProofs GaOrderProofs GaAssembleModel GaAssembleSpec PopulationSpec GaSpec.
Open Scope nat_scope.

(** ** C105 *)
(** RandomPermutations with OrderedCrossover, PMX or PPX and any of Identity, Interchange, Reversing, Inversion: whatever
    selection and replacement do, everybody ever handed to the probe, and the result, is a permutation of the genes. *)
Theorem C105_permutations_throughout :
  forall (G : Type) `{EqDecision G} psize glimit duration fit (genes : list G) sel size xo mop repl ck m0 s evs b m s',
  NoDup genes -> order_based xo = true -> enough_fuel xo (length genes) ->
  run (assemble psize glimit duration fit (gen_permutations genes) sel size xo (mutation_fn mop) repl) ck m0 s = Ok (evs, b, m, s') ->
  (forall e x, e ∈ evs -> mentions e x -> chromosome x ≡ₚ genes) /\ chromosome b ≡ₚ genes.
Proof. exact @permutation_solver_safe. Qed.
Print Assumptions C105_permutations_throughout.

(** And the run returns, for a population of even size, a selection that fills the pool and a fitness function that
    gives no NaN for permutations of the genes. *)
Theorem C105_permutation_solver_returns :
  forall (G : Type) `{EqDecision G} psize glimit duration fit (genes : list G) sel size xo mop repl ck m0 s,
  NoDup genes -> genes <> [] -> order_based xo = true -> enough_fuel xo (length genes) ->
  0 < psize -> Nat.even psize = true -> (forall m, size m = psize) -> dependable sel psize -> (forall ch, ch ≡ₚ genes -> is_nan (fit ch) = false) ->
  exists evs b m s', run (assemble psize glimit duration fit (gen_permutations genes) sel size xo (mutation_fn mop) repl) ck m0 s = Ok (evs, b, m, s').
Proof. exact @perm_solver_returns. Qed.
Print Assumptions C105_permutation_solver_returns.

(** A fitness that looks at the first gene: 0 for 0, 1/2 for 1, otherwise 1. *)
Definition first_gene (ch : list nat) : f64 := match ch with 0 :: _ => f0 | 1 :: _ => fhalf | _ => f1 end.
Definition some_streams : streams :=
  let r := rng_of [1; 7; 3; 9; 2; 8; 5; 0; 4; 6; 11; 13; 2; 5; 1; 3; 4503599627370495; 2; 1; 7; 3; 2]%N in Streams r r r r r.
Definition some_clock : clock := Clock 0 (fun _ => 0%N) (fun _ => 0%N) 0.
Definition tour (xo : crossover_op) : config nat streams :=
  assemble 4 2 1000 first_gene (gen_permutations [0; 1; 2; 3; 4]) (SelTournament fhalf) (fun _ => 4) xo (mutation_fn (MutInterchange fhalf)) (ReplWeakParent true).
Example C105_nonvacuous :
  NoDup [0; 1; 2; 3; 4] /\ dependable (SelTournament fhalf) 4 /\ (forall ch, is_nan (first_gene ch) = false) /\
  exists evs b m s', run (tour XoPpx) some_clock (fresh_metrics (tour XoPpx)) some_streams = Ok (evs, b, m, s') /\
    map (map chromosome) (populations evs) =
      [[[2; 4; 0; 3; 1]; [1; 3; 4; 0; 2]; [0; 1; 3; 2; 4]; [0; 4; 3; 1; 2]];
       [[2; 4; 0; 3; 1]; [4; 0; 2; 1; 3]; [2; 1; 4; 0; 3]; [1; 4; 0; 3; 2]];
       [[2; 4; 0; 3; 1]; [4; 0; 2; 1; 3]; [2; 1; 4; 0; 3]; [3; 2; 1; 4; 0]]] /\ chromosome b = [0; 1; 3; 2; 4].
Proof.
  split; [apply (bool_decide_unpack _); vm_compute; exact I|]. split; [vm_compute; split_and!; congruence|]. split; [intros [|[|[|g]] ch]; reflexivity|].
  eexists _, _, _, _. split; [vm_compute; reflexivity|]. vm_compute. split; reflexivity.
Qed.
(** With a crossover that is not made for permutations the same solver shows chromosomes that are none. *)
Example C105_other_crossovers_break_permutations :
  exists evs b m s' e x, run (tour XoSinglePoint) some_clock (fresh_metrics (tour XoSinglePoint)) some_streams = Ok (evs, b, m, s') /\
    e ∈ evs /\ mentions e x /\ chromosome x = [3; 4; 2; 2; 4].
Proof.
  eexists _, _, _, _, _, _. split; [vm_compute; reflexivity|]. split; [do 4 right; left|]. split; [cbn [mentions]; do 2 right; left|]. reflexivity.
Qed.

(** ** C106 *)
(** Without mutation (Identity), crossovers that copy locus by locus can only lose genes: what stands at a locus in some
    generation stood at that locus in every earlier one. *)
Theorem C106_lost_genes_never_return :
  forall (G : Type) `{EqDecision G} psize glimit duration fit generate sel size xo repl ck m0 s evs b m s',
  order_based xo = false ->
  run (assemble psize glimit duration fit generate sel size xo (mutation_fn MutIdentity) repl) ck m0 s = Ok (evs, b, m, s') ->
  forall i q, populations evs !! i = Some q ->
  forall j q' x l (g : G), i <= j -> populations evs !! j = Some q' -> x ∈ q' -> carries x l g -> exists y, y ∈ q /\ carries y l g.
Proof. exact @solver_loci. Qed.
Print Assumptions C106_lost_genes_never_return.

(** With any crossover and Identity, Interchange, Reversing or Inversion, no gene appears that was not there before. *)
Theorem C106_no_new_genes :
  forall (G : Type) `{EqDecision G} psize glimit duration fit generate sel size xo mop repl ck m0 s evs b m s',
  run (assemble psize glimit duration fit generate sel size xo (mutation_fn mop) repl) ck m0 s = Ok (evs, b, m, s') ->
  forall i q, populations evs !! i = Some q ->
  forall j q' x (g : G), i <= j -> populations evs !! j = Some q' -> x ∈ q' -> g ∈ chromosome x -> exists y, y ∈ q /\ g ∈ chromosome y.
Proof. exact @solver_genes. Qed.
Print Assumptions C106_no_new_genes.

(** The result, and everybody handed to the probe, is built from the initial population. *)
Theorem C106_built_from_the_initial_population :
  forall (G : Type) `{EqDecision G} psize glimit duration fit generate sel size xo mop repl ck m0 s evs b m s',
  run (assemble psize glimit duration fit generate sel size xo (mutation_fn mop) repl) ck m0 s = Ok (evs, b, m, s') ->
  exists q0, head (populations evs) = Some q0 /\
  forall x, (x = b \/ exists e, e ∈ evs /\ mentions e x) ->
  (forall g : G, g ∈ chromosome x -> exists y, y ∈ q0 /\ g ∈ chromosome y) /\
  (order_based xo = false -> mop = MutIdentity -> forall l (g : G), carries x l g -> exists y, y ∈ q0 /\ carries y l g).
Proof. exact @solver_initial. Qed.
Print Assumptions C106_built_from_the_initial_population.

(** Once all individuals have the same chromosome, they have it for good. *)
Theorem C106_convergence_is_final :
  forall (G : Type) `{EqDecision G} psize glimit duration fit generate sel size xo repl ck m0 s evs b m s',
  order_based xo = false ->
  run (assemble psize glimit duration fit generate sel size xo (mutation_fn MutIdentity) repl) ck m0 s = Ok (evs, b, m, s') ->
  forall i q (ch : list G), populations evs !! i = Some q -> Forall (fun x => chromosome x = ch) q ->
  forall j q', i <= j -> populations evs !! j = Some q' -> Forall (fun x => chromosome x = ch) q'.
Proof. exact @solver_converged. Qed.
Print Assumptions C106_convergence_is_final.

Definition plain (xo : crossover_op) : config nat streams :=
  assemble 4 3 1000 first_gene (gen_permutations [0; 1; 2; 3; 4]) SelRank (fun _ => 4) xo (mutation_fn MutIdentity) ReplBothParents.
Example C106_nonvacuous :
  exists evs b m s', run (plain XoTwoPoint) some_clock (fresh_metrics (plain XoTwoPoint)) some_streams = Ok (evs, b, m, s') /\
    map (map chromosome) (populations evs) =
      [[[2; 4; 0; 3; 1]; [1; 3; 4; 0; 2]; [0; 1; 3; 2; 4]; [0; 4; 3; 1; 2]];
       [[1; 3; 4; 0; 2]; [1; 3; 4; 0; 2]; [2; 4; 0; 3; 1]; [2; 4; 0; 3; 1]];
       [[2; 4; 0; 3; 1]; [2; 4; 0; 3; 1]; [2; 4; 0; 3; 1]; [2; 4; 0; 3; 1]];
       [[2; 4; 0; 3; 1]; [2; 4; 0; 3; 1]; [2; 4; 0; 3; 1]; [2; 4; 0; 3; 1]]].
Proof. eexists _, _, _, _. split; [vm_compute; reflexivity|]. vm_compute. reflexivity. Qed.

(** ** C107 *)
(** Bit strings: any crossover that copies locus by locus, any mutation of the library, any replacement.  The run returns
    (even population size, pool of that size, fitness not NaN for bit strings of the configured length), and all chromosomes have the configured length. *)
Theorem C107_bit_string_solvers :
  forall psize glimit duration fit dim sel size xo (mut : list bool -> rng -> rng -> outcome (list bool * rng * rng)) repl ck m0 s,
  ((exists mop, mut = mutation_fn mop) \/ (exists rate, mut = flip_bit rate)) -> order_based xo = false -> 0 < dim ->
  (cuts_fit xo dim -> 0 < psize -> Nat.even psize = true -> (forall m, size m = psize) -> dependable sel psize -> (forall ch, length ch = dim -> is_nan (fit ch) = false) ->
    exists evs b m s', run (assemble psize glimit duration fit (gen_bits dim) sel size xo mut repl) ck m0 s = Ok (evs, b, m, s')) /\
  (forall evs b m s', run (assemble psize glimit duration fit (gen_bits dim) sel size xo mut repl) ck m0 s = Ok (evs, b, m, s') ->
    (forall e x, e ∈ evs -> mentions e x -> length (chromosome x) = dim) /\ length (chromosome b) = dim).
Proof. exact bits_solver. Qed.
Print Assumptions C107_bit_string_solvers.

(** Real vectors: the same. *)
Theorem C107_real_vector_solvers :
  forall `{EqDecision f64} psize glimit duration fit kind (cs : list (f64 * f64)) sel size xo mop repl ck m0 s,
  order_based xo = false -> cs <> [] ->
  (cuts_fit xo (length cs) -> 0 < psize -> Nat.even psize = true -> (forall m, size m = psize) -> dependable sel psize -> (forall ch, is_nan (fit ch) = false) ->
    exists evs b m s', run (assemble psize glimit duration fit (gen_points kind cs) sel size xo (mutation_fn mop) repl) ck m0 s = Ok (evs, b, m, s')) /\
  (forall evs b m s', run (assemble psize glimit duration fit (gen_points kind cs) sel size xo (mutation_fn mop) repl) ck m0 s = Ok (evs, b, m, s') ->
    (forall e x, e ∈ evs -> mentions e x -> length (chromosome x) = length cs) /\ length (chromosome b) = length cs).
Proof. exact @point_solver. Qed.
Print Assumptions C107_real_vector_solvers.

(** With proper intervals (finite, lower <= upper, finite width) no coordinate ever leaves the intervals, and the fitness
    function need only be free of NaN on such points for the run to return. *)
Theorem C107_points_stay_in_the_search_space :
  forall `{EqDecision f64} psize glimit duration fit kind (cs : list (f64 * f64)) sel size xo mop repl ck m0 s,
  order_based xo = false -> cs <> [] -> Forall proper_range cs ->
  (cuts_fit xo (length cs) -> 0 < psize -> Nat.even psize = true -> (forall m, size m = psize) -> dependable sel psize -> (forall ch, in_space cs ch -> is_nan (fit ch) = false) ->
    exists evs b m s', run (assemble psize glimit duration fit (gen_points kind cs) sel size xo (mutation_fn mop) repl) ck m0 s = Ok (evs, b, m, s')) /\
  (forall evs b m s', run (assemble psize glimit duration fit (gen_points kind cs) sel size xo (mutation_fn mop) repl) ck m0 s = Ok (evs, b, m, s') ->
    (forall e x, e ∈ evs -> mentions e x -> in_space cs (chromosome x)) /\ in_space cs (chromosome b)).
Proof. exact @points_solver. Qed.
Print Assumptions C107_points_stay_in_the_search_space.

Definition ones (ch : list bool) : f64 := match ch with true :: true :: _ => f1 | true :: _ => fhalf | _ => f0 end.
Definition bits (xo : crossover_op) : config bool streams :=
  assemble 4 2 1000 ones (gen_bits 3) (SelRandom ValueRng) (fun _ => 4) xo (flip_bit fhalf) (ReplWeakParent true).
Example C107_nonvacuous :
  cuts_fit (XoMultiPoint 2) 3 /\ (forall ch, is_nan (ones ch) = false) /\ dependable (SelRandom ValueRng) 4 /\
  exists evs b m s', run (bits (XoMultiPoint 2)) some_clock (fresh_metrics (bits (XoMultiPoint 2))) some_streams = Ok (evs, b, m, s') /\
    map (map chromosome) (populations evs) =
      [[[true; true; true]; [true; false; false]; [true; false; false]; [false; true; true]];
       [[true; true; true]; [true; false; false]; [true; true; false]; [true; false; false]];
       [[true; true; true]; [true; false; false]; [true; true; false]; [true; false; false]]].
Proof.
  split; [cbn; lia|]. split; [intros [|[] [|[] ch]]; reflexivity|]. split; [exact I|].
  eexists _, _, _, _. split; [vm_compute; reflexivity|]. vm_compute. reflexivity.
Qed.
