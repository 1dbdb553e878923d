(** * Property theorems: the firefly benchmarks (C140) *)
From Verif Require Import FfBenchModel FfSpec FfBenchProofs.
Open Scope nat_scope.

(** Bests reported over g generations: [value i] is a number, never negative, never grows, is the least value of the sphere function at the reported
    positions so far (or still f64::MAX), and the reported positions are points of the square [-5, 5]^2. *)
Definition sphere_bests_over (g : nat) (L : libm) (value : nat -> f64) (position : nat -> list f64) : Prop :=
  forall i, i < g ->
    is_nan (value i) = false /\ fle f0 (value i) = true /\ (forall j, i <= j -> j < g -> fle (value j) (value i) = true) /\
    (value i = fmax \/ exists k, k <= i /\ sphere (num := num_f64 L) (position k) = Ok (value i)) /\
    (forall k v, k <= i -> sphere (num := num_f64 L) (position k) = Ok v -> is_nan v = false -> fle (value i) v = true) /\
    length (position i) = 2 /\ Forall (in_bounds (fneg (f_of_nat 5)) (f_of_nat 5)) (position i).

(** ** C140 *)
(** The three benchmarks that are measured return for all draws; each measured call prints all its generations. *)
Theorem C140_measured_benchmarks :
  forall (L : libm) powf sq r,
  (exists value position pop, ff_bench_quarter L powf sq r = Ok (TextStart :: concat (map (fun i => [TextIteration i; TextBest (value i) (position i); TextRule]) (seq 0 250)) ++ [TextEnd], pop) /\ sphere_bests_over 250 L value position) /\
  (exists value position pop, ff_bench_half L powf sq r = Ok (TextStart :: concat (map (fun i => [TextIteration i; TextBest (value i) (position i); TextRule]) (seq 0 500)) ++ [TextEnd], pop) /\ sphere_bests_over 500 L value position) /\
  (exists value position pop, ff_bench_full L powf sq r = Ok (TextStart :: concat (map (fun i => [TextIteration i; TextBest (value i) (position i); TextRule]) (seq 0 1000)) ++ [TextEnd], pop) /\ sphere_bests_over 1000 L value position).
Proof. intros L powf sq r. split; [exact (bench_generations 250 L powf sq r)|split; [exact (bench_generations 500 L powf sq r)|exact (bench_generations 1000 L powf sq r)]]. Qed.
Print Assumptions C140_measured_benchmarks.
(** The same for any number of generations *)
Theorem C140_any_number_of_generations :
  forall g (L : libm) powf sq r, exists value position pop,
  ff_bench_generations g L powf sq r = Ok (TextStart :: concat (map (fun i => [TextIteration i; TextBest (value i) (position i); TextRule]) (seq 0 g)) ++ [TextEnd], pop) /\ sphere_bests_over g L value position.
Proof. exact bench_generations. Qed.
Print Assumptions C140_any_number_of_generations.
(** The benchmark with ten given flies leaves the population size at 25: it panics, whatever is drawn *)
Theorem C140_small_preset_panics : forall (L : libm) powf sq r, ff_bench_preset_small L powf sq r = Panic.
Proof. exact bench_small. Qed.
Print Assumptions C140_small_preset_panics.
(** The one with twenty given flies sets the population size to 20: it returns, and the twenty flies are still in the square [-5, 5]^2 *)
Theorem C140_large_preset_returns :
  forall (L : libm) powf sq r, exists evs pop, ff_bench_preset_large L powf sq r = Ok (evs, pop) /\ length pop = 20 /\
  Forall (fun x => length x = 2 /\ Forall (in_bounds (fneg (f_of_nat 5)) (f_of_nat 5)) x) pop.
Proof. exact bench_large. Qed.
Print Assumptions C140_large_preset_returns.
Example C140_nonvacuous : length small_flies = 10 /\ length large_flies = 20 /\ Forall (fun x => length x = 2) small_flies /\ ff_population_size ff_default_cfg = 25.
Proof. split; [reflexivity|]. split; [reflexivity|]. split; [repeat constructor|reflexivity]. Qed.
