(** * The firefly benchmarks (benches/ff_bench.rs) *)
From Verif Require Export FfExampleModel.
Open Scope nat_scope.

(** benches/ff_bench.rs:10-21 and 39-60: the flies; the decimal literals are given as the nearest f64 *)
Definition small_flies : list (list f64) :=
  [[S754_finite true 5572984115015435 (-51); S754_finite true 4849557791105070 (-51)];
   [S754_finite false 8704096128787196 (-51); S754_finite true 4999371292111650 (-51)];
   [S754_finite false 4577504994841380 (-52); S754_finite false 5580248319360424 (-51)];
   [S754_finite true 8161249981833260 (-52); S754_finite false 4762879205837530 (-50)];
   [S754_finite true 9000316277428150 (-52); S754_finite false 5361202964647588 (-50)];
   [S754_finite true 5277098186340360 (-52); S754_finite false 6574530757349240 (-53)];
   [S754_finite false 5194188200642304 (-50); S754_finite true 5396451934562408 (-50)];
   [S754_finite false 4782299174824840 (-53); S754_finite true 5523360545425940 (-50)];
   [S754_finite true 7342785335304720 (-54); S754_finite false 6372835222482024 (-51)];
   [S754_finite true 4990304348118140 (-51); S754_finite false 5250297718669236 (-51)]].
Definition large_flies : list (list f64) :=
  [[S754_finite true 4939136767532220 (-52); S754_finite true 5612629498788510 (-51)];
   [S754_finite true 4993000103959955 (-51); S754_finite false 8302447769353956 (-51)];
   [S754_finite true 5271529706286096 (-53); S754_finite false 4680550342040464 (-51)];
   [S754_finite false 7521291738504112 (-53); S754_finite false 4978387597359690 (-50)];
   [S754_finite false 5542804022977088 (-52); S754_finite true 5844445103586830 (-52)];
   [S754_finite true 7899707293781400 (-51); S754_finite true 8662551864726800 (-54)];
   [S754_finite false 6668520928639072 (-52); S754_finite true 5391915136397540 (-50)];
   [S754_finite false 7538127857041688 (-51); S754_finite false 6783004103040144 (-51)];
   [S754_finite false 7828278035722284 (-51); S754_finite true 8613372935473000 (-51)];
   [S754_finite false 6434379585985276 (-51); S754_finite true 5158117396292158 (-50)];
   [S754_finite true 4789204782801600 (-52); S754_finite true 7003298522131410 (-52)];
   [S754_finite false 4918547079408370 (-50); S754_finite true 8306406943501210 (-52)];
   [S754_finite false 5169793294926888 (-50); S754_finite true 8785227562490496 (-55)];
   [S754_finite false 4749811365884060 (-52); S754_finite true 5552293056346158 (-50)];
   [S754_finite false 6933389564134032 (-51); S754_finite true 4539730145409250 (-50)];
   [S754_finite false 7318182965786520 (-51); S754_finite true 5444968204630822 (-50)];
   [S754_finite false 5566691069710512 (-52); S754_finite true 5282632171016765 (-51)];
   [S754_finite true 4998194223432340 (-50); S754_finite false 8000953021315216 (-51)];
   [S754_finite false 7727749991369280 (-54); S754_finite true 6554216090347690 (-52)];
   [S754_finite true 5291752989881845 (-50); S754_finite false 4626501847419398 (-50)]].
(** src/ff/population.rs:70-74 [Population::from_vector]: a copy *)
Definition from_vector (v : list (list f64)) : list (list f64) := v.
(** The bodies that are measured.  [FireflyAlgorithm { .., ..Default::default() }] makes the default algorithm (whose population is drawn, and dropped
    where another one is given) and replaces fields; [FireflyAlgorithmCfg { .., ..Default::default() }] is the default configuration with one field changed. *)
(** ff_bench.rs:22-35 [ff_bench_preset_small]: 500 generations, the ten flies; population_size stays 25.  The probe is number 1, EmptyProbe. *)
Definition ff_bench_preset_small (L : libm) (powf : f64 -> f64 -> f64) (sq : f64 -> f64) (r : rng) : outcome (list ff_event * list (list f64)) :=
  '(a, r) ← ff_default L sq r;
  ff_solve powf sq (foldl ff_set a [FfSetProbe 1; FfSetMaxGenerations 500; FfSetPopulation (from_vector small_flies)]) r.
(** 62-75 [preset_large]: population_size 20, the twenty flies *)
Definition ff_bench_preset_large (L : libm) (powf : f64 -> f64 -> f64) (sq : f64 -> f64) (r : rng) : outcome (list ff_event * list (list f64)) :=
  '(a, r) ← ff_default L sq r;
  ff_solve powf sq (foldl ff_set a [FfSetProbe 1; FfSetPopulationSize 20; FfSetPopulation (from_vector large_flies)]) r.
(** 78-124 [ff_bench_quarter], [ff_bench_half], [ff_bench_full]: 250, 500, 1000 generations.  The probe stays the default one, which prints. *)
Definition ff_bench_generations (g : nat) (L : libm) (powf : f64 -> f64 -> f64) (sq : f64 -> f64) (r : rng) : outcome (list ff_text * list (list f64)) :=
  '(a, r) ← ff_default L sq r;
  '(evs, pop) ← ff_solve powf sq (ff_set a (FfSetMaxGenerations g)) r;
  out ← feed ff_stdout_probe [] evs;
  Ok (out, pop).
Definition ff_bench_quarter := ff_bench_generations 250.
Definition ff_bench_half := ff_bench_generations 500.
Definition ff_bench_full := ff_bench_generations 1000.
