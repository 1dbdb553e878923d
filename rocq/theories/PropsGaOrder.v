(** * Property theorems: only the order of the fitness values matters (C110) *)
From Verif Require Import GaOrderProofs GaOrderSpec GaAssembleModel GaAssembleSpec GaSpec.
Open Scope nat_scope.

(** ** C110 *)
(** Random, UniqueRandom, Rank, RankR or Tournament selection with any crossover, mutation, replacement and generator: two
    fitness functions that order chromosomes the same way give the same run - the same chromosomes in the same places of the
    same callbacks, the same result, the same random draws, or the same failure; only the fitness values differ. *)
Theorem C110_only_the_order_of_fitness_matters :
  forall (G : Type) `{EqDecision G} psize glimit duration (fit1 fit2 : list G -> f64) generate sel size xo mut repl ck m0 s,
  by_comparison sel = true -> order_equivalent fit1 fit2 ->
  run (assemble psize glimit duration fit2 generate sel size xo mut repl) ck m0 s =
  refit_run fit2 (run (assemble psize glimit duration fit1 generate sel size xo mut repl) ck m0 s).
Proof. exact @by_order_only. Qed.
Print Assumptions C110_only_the_order_of_fitness_matters.

(** In particular a strictly increasing function may be applied to all fitness values. *)
Theorem C110_rescaling_fitness_changes_nothing :
  forall (G : Type) `{EqDecision G} psize glimit duration (fit : list G -> f64) (h : f64 -> f64) generate sel size xo mut repl ck m0 s evs b m s',
  by_comparison sel = true -> (forall x y, fcmp (h x) (h y) = fcmp x y) ->
  run (assemble psize glimit duration fit generate sel size xo mut repl) ck m0 s = Ok (evs, b, m, s') ->
  exists evs' b', run (assemble psize glimit duration (fun ch => h (fit ch)) generate sel size xo mut repl) ck m0 s = Ok (evs', b', m, s') /\
    chromosome b' = chromosome b /\ fitness b' = h (fit (chromosome b)) /\ map (map chromosome) (populations evs') = map (map chromosome) (populations evs).
Proof. exact @rescaled. Qed.
Print Assumptions C110_rescaling_fitness_changes_nothing.

(** Two ways of ranking chromosomes by their first gene, with very different numbers. *)
Definition score1 (ch : list nat) : f64 := match ch with 0 :: _ => f0 | 1 :: _ => fhalf | _ => f1 end.
Definition score2 (ch : list nat) : f64 := match ch with 0 :: _ => f_of_Z (-1000) | 1 :: _ => f_of_nat 7 | _ => finf end.
Definition draws : streams := let r := rng_of [1; 7; 3; 9; 2; 8; 5; 0; 4; 6; 11; 13; 2; 5; 1; 3; 4503599627370495; 2; 1; 7; 3; 2]%N in Streams r r r r r.
Definition no_time : clock := Clock 0 (fun _ => 0%N) (fun _ => 0%N) 0.
Definition ordered_solver (sel : selection_op) (fit : list nat -> f64) : config nat streams :=
  assemble 4 2 1000 fit (gen_permutations [0; 1; 2; 3; 4]) sel (fun _ => 4) XoPpx (mutation_fn (MutInterchange fhalf)) (ReplWeakParent true).
Example C110_nonvacuous :
  by_comparison (SelTournament fhalf) = true /\ order_equivalent score1 score2 /\
  exists evs b m s', run (ordered_solver (SelTournament fhalf) score1) no_time (fresh_metrics (ordered_solver (SelTournament fhalf) score1)) draws = Ok (evs, b, m, s') /\
    length (populations evs) = 3 /\ fitness b = f0.
Proof.
  split; [reflexivity|]. split; [intros [|[|[|i]] a] [|[|[|j]] b]; reflexivity|].
  eexists _, _, _, _. split; [vm_compute; reflexivity|]. vm_compute. split; reflexivity.
Qed.
(** RouletteWheel adds fitness values up: with it two functions that order chromosomes alike lead to different populations. *)
Definition score3 (ch : list nat) : f64 := match ch with 0 :: _ => f_of_nat 90 | 1 :: _ => f_of_nat 95 | _ => f_of_nat 100 end.
Definition spins : streams :=
  Streams (st_gen draws) (rng_of [2000000000000000; 6000000000000000; 3000000000000000; 1000000000000000; 5000000000000000; 7000000000000000]%N) (st_xo draws) (st_mut draws) (st_thread draws).
Example C110_not_for_roulette_wheel :
  order_equivalent score1 score3 /\
  exists evs1 b1 m1 s1 evs3 b3 m3 s3,
    run (ordered_solver SelRouletteWheel score1) no_time (fresh_metrics (ordered_solver SelRouletteWheel score1)) spins = Ok (evs1, b1, m1, s1) /\
    run (ordered_solver SelRouletteWheel score3) no_time (fresh_metrics (ordered_solver SelRouletteWheel score3)) spins = Ok (evs3, b3, m3, s3) /\
    map (map chromosome) (populations evs1) <> map (map chromosome) (populations evs3).
Proof.
  split; [intros [|[|[|i]] a] [|[|[|j]] b]; reflexivity|].
  eexists _, _, _, _, _, _, _, _. split; [vm_compute; reflexivity|]. split; [vm_compute; reflexivity|]. vm_compute. discriminate.
Qed.
