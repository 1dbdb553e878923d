(** * The ant colony benchmarks (benches/aco_bench.rs) *)
From Verif Require Export AcoModel.
Open Scope nat_scope.

(** benches/aco_bench.rs:98-104 and 106-122: the places; the decimal literals are given as the nearest f64 *)
Definition bench_cities_5 : list (f64 * f64) := [
  (S754_finite false 5058106486555441 (-47), S754_finite false 5212233654793661 (-46));
  (S754_finite false 8858393900523619 (-47), S754_finite false 5094879923110078 (-46));
  (S754_finite false 8610855426293806 (-47), S754_finite false 4940503869995284 (-46));
  (S754_finite false 6764260249289312 (-48), S754_finite false 6904788155003700 (-48));
  (S754_finite false 6060301730267562 (-46), S754_finite false 4659041235861586 (-46))].
Definition bench_cities_15 : list (f64 * f64) := [
  (S754_finite false 5084972137399306 (-48), S754_finite false 6242680459642389 (-46));
  (S754_finite false 5522005378436938 (-47), S754_finite false 5731509695399541 (-46));
  (S754_finite false 5401005501243434 (-46), S754_finite false 6226989494679162 (-49));
  (S754_finite false 5211296693562281 (-48), S754_finite false 7101318347410331 (-47));
  (S754_finite false 4758346938584194 (-46), S754_finite false 8482732841504988 (-47));
  (S754_finite false 6371426362634747 (-46), S754_finite false 7331667857881762 (-48));
  (S754_finite false 5246146265821380 (-46), S754_finite false 6411208907374256 (-46));
  (S754_finite false 6881943654082288 (-48), S754_finite false 4868461403876036 (-46));
  (S754_finite false 8478251006855750 (-49), S754_finite false 7868887283418300 (-49));
  (S754_finite false 5889639639283783 (-46), S754_finite false 7229208029266131 (-48));
  (S754_finite false 8308286880750016 (-47), S754_finite false 7447918562268381 (-47));
  (S754_finite false 5126583661011155 (-46), S754_finite false 5773456747301016 (-47));
  (S754_finite false 7235047211817619 (-48), S754_finite false 7863511251144500 (-50));
  (S754_finite false 5263537000270644 (-46), S754_finite false 6319550209936542 (-46));
  (S754_finite false 7645612345460800 (-51), S754_finite false 6453935610464012 (-49))].
(** The literals 2.0 and 0.1 *)
Definition bench_two : f64 := f_of_nat 2.
Definition bench_rate : f64 := S754_finite false 7205759403792794 (-56).
(** aco_bench.rs:78-96 [calc_dist] is the loop of [generate_tsp_cost] (util.rs:34-46), [tsp_cost] of AcoModel. *)
Definition bench_dist (cities : list (f64 * f64)) : outcome matrix := tsp_cost cities.
(** The measured bodies, 17-35 and 44-62: five canonical ants, each with a generator (and a hasher) of its own, twenty iterations, start
    pheromone 1 everywhere; the three lines before are repeated for every call here.  [black_box] is the identity, criterion is not modelled.
    EmptyProbe (76-78) ignores all callbacks; they are the returned events.  [powf] is libm's. *)
Definition aco_bench (cities : list (f64 * f64)) (powf : f64 -> f64 -> f64) (seeds : list (rng * rng)) :
    outcome (list (aco_event matrix) * matrix * (list ant * solution)) :=
  dist ← bench_dist cities;
  heuristic ← create_heuristic dist;
  let ants := map (fun s => canonical_ant (length cities) s.1 s.2) seeds in
  aco_run (tsp (ant_system (canonical_goodness powf bench_two bench_two heuristic)) dist (AntSystemPU bench_rate) ic_init ic_check)
    21 (mrepeat (nrows heuristic) (ncols heuristic) f1) (ants, sol_default) (0, 20).
Definition aco_bench_small := aco_bench bench_cities_5.
Definition aco_bench_medium := aco_bench bench_cities_15.
