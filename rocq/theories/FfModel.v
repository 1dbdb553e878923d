(** * Firefly algorithm (src/ff.rs, src/ff/) *)
From Verif Require Export Rng ProbeModel.
Open Scope nat_scope.

(** 0.01, 0.99, -1.0, 0.97, -5, 5 and std::f64::consts::E *)
Definition f_0_01 : f64 := f_of_bits 4576918229304087675.
Definition f_0_99 : f64 := f_of_bits 4607092346807469998.
Definition f_0_97 : f64 := f_of_bits 4606912202822375178.
Definition f_m1 : f64 := fneg f1.
Definition f_E : f64 := f_of_bits 4613303445314885481.

(** [rng.gen_range(lo..hi)] on f64 (rand 0.8 UniformFloat::sample_single): panics unless lo < hi with a finite width,
    otherwise any f64 with lo <= v < hi. *)
Definition gen_range_half (lo hi : f64) (r : rng) : outcome (f64 * rng) :=
  let w := fsub hi lo in
  if flt lo hi && flt w finf && flt (S754_infinity true) w then
    let v := f_of_bits (r 0) in Ok (if fle lo v && flt v hi then v else lo, rng_tail r)
  else Panic.

(** src/ff.rs:22-45; [distribution] is any Distribution<f64>: a function of the generator *)
Record ff_cfg := FfCfg {
  ff_dimensions : nat; ff_lower : f64; ff_upper : f64; max_generations : nat; ff_population_size : nat;
  alfa0 : f64; beta0 : f64; gamma : f64; delta : f64; threads : nat; distribution : rng -> f64 * rng }.
(** ff.rs:47-63; Standard for f64 is the uniform distribution on [0, 1) *)
Definition ff_default_cfg : ff_cfg :=
  FfCfg 2 (fneg (f_of_nat 5)) (f_of_nat 5) 1000 25 f1 f1 f_0_01 f_0_97 2 gen_f64.

(** auxiliary.rs:13-20: panics when [b] is shorter.  [sq] is powi(_, 2). *)
Fixpoint distance_loop (g : f64 -> f64) (a b : list f64) (acc : f64) : outcome f64 :=
  match a, b with
  | [], _ => Ok acc
  | x :: a, y :: b => distance_loop g a b (fadd acc (g (fsub x y)))
  | _ :: _, [] => Panic
  end.
Definition cartesian_distance (sq : f64 -> f64) (a b : list f64) : outcome f64 := res ← distance_loop sq a b f0; Ok (fsqrt res).
(** auxiliary.rs:23-29 *)
Definition taxi_distance (a b : list f64) : outcome f64 := distance_loop fabs a b f0.

(** population.rs:54-69 [Population::from_config] *)
Fixpoint ff_point (dims : nat) (lo hi : f64) (r : rng) : outcome (list f64 * rng) :=
  match dims with
  | 0 => Ok ([], r)
  | S dims => '(x, r) ← gen_range_half lo hi r; '(xs, r) ← ff_point dims lo hi r; Ok (x :: xs, r)
  end.
Fixpoint ff_points (n dims : nat) (lo hi : f64) (r : rng) : outcome (list (list f64) * rng) :=
  match n with
  | 0 => Ok ([], r)
  | S n => '(x, r) ← ff_point dims lo hi r; '(xs, r) ← ff_points n dims lo hi r; Ok (x :: xs, r)
  end.
Definition from_config (c : ff_cfg) (r : rng) : outcome (list (list f64) * rng) :=
  ff_points (ff_population_size c) (ff_dimensions c) (ff_lower c) (ff_upper c) r.

(** ff.rs:173-187 and 200-214: what is stored for the candidate [x]; partial_cmp is None for NaN. *)
Definition bound_step (lo hi x : f64) : f64 :=
  let not_less_or_equal := match fcmp x lo with None | Some Gt => true | _ => false end in
  let not_more_or_equal := match fcmp x hi with None | Some Lt => true | _ => false end in
  if not_more_or_equal && not_less_or_equal then x else if flt hi x then hi else lo.

Inductive ff_event :=
| FfStart
| FfIterStart (i : nat)
| FfCurrentBest (v : f64) (x : list f64)
| FfIterEnd (i : nat)
| FfEnd.

(** The objective is a plain function; the distance may panic; [powf] and [sq] (= powi(_, 2)) are arbitrary functions,
    because Rust leaves their precision unspecified. *)
Section Ff.
Context (f : list f64 -> f64) (dist : list f64 -> list f64 -> outcome f64) (powf : f64 -> f64 -> f64) (sq : f64 -> f64) (c : ff_cfg).

(** ff.rs:117-119 and 121-127 [update_brightness] *)
Definition brightness_of (pop : list (list f64)) : list f64 := map (fun x => fdiv f1 (f x)) pop.

(** ff.rs:162-188: one firefly at [xs] flies towards [ys]; [const1] is the attractiveness, [g] the generation as f64.
    The draws come from the generator of the pool thread that runs the closure: one stream [r] stands for all. *)
Fixpoint fly (const1 alfa g : f64) (xs ys : list f64) (r : rng) : outcome (list f64 * rng) :=
  match xs, ys with
  | [], _ => Ok ([], r)
  | _ :: _, [] => Panic
  | x :: xs, y :: ys =>
      '(u, r) ← gen_range_half f_0_01 f_0_99 r;
      let '(d, r) := distribution c r in
      let step := fadd (fmul const1 (fsub y x))
                       (fmul (fmul (fmul (alfa0 c) alfa) (fsub (fadd u (fdiv d g)) fhalf)) (fsub (ff_upper c) (ff_lower c))) in
      '(zs, r) ← fly const1 alfa g xs ys r;
      Ok (bound_step (ff_lower c) (ff_upper c) (fadd x step) :: zs, r)
  end.
(** ff.rs:191-217: the random step of a firefly that sees no brighter one *)
Fixpoint brownian (alfa : f64) (xs : list f64) (r : rng) : outcome (list f64 * rng) :=
  match xs with
  | [] => Ok ([], r)
  | x :: xs =>
      '(u, r) ← gen_range_half f_m1 f1 r;
      let step := fmul (fmul u (powf alfa (f_of_nat 2))) (powf f_E (fmul (fmul f_m1 (beta0 c)) (gamma c))) in
      '(zs, r) ← brownian alfa xs r;
      Ok (bound_step (ff_lower c) (ff_upper c) (fadd x step) :: zs, r)
  end.
(** ff.rs:139-219 [move_firefly]: every brighter firefly overwrites [res], always starting from the old position.
    Simplification: the loop over the dimensions writes all coordinates of [res], so [res] is replaced. *)
Definition move_firefly (i : nat) (bright : list f64) (pop : list (list f64)) (alfa g : f64) (r : rng) : outcome (list f64 * rng) :=
  x ← index pop i;
  '(res, moved, r) ← ofold (fun st j =>
      let '(res, moved, r) := st in
      bi ← index bright i; bj ← index bright j;
      if flt bi bj then
        y ← index pop j;
        d ← dist x y;
        let const1 := fmul (beta0 c) (powf f_E (fmul (fmul f_m1 (gamma c)) (sq d))) in
        '(res, r) ← fly const1 alfa g x y r;
        Ok (res, true, r)
      else Ok (res, moved, r)) (x, false, r) (seq 0 (ff_population_size c));
  if moved : bool then Ok (res, r) else brownian alfa res r.
(** ff.rs:225-235: all fireflies are moved from the old population, one after the other *)
Fixpoint move_all (is : list nat) (bright : list f64) (pop : list (list f64)) (alfa g : f64) (r : rng) : outcome (list (list f64) * rng) :=
  match is with
  | [] => Ok ([], r)
  | i :: is => '(x, r) ← move_firefly i bright pop alfa g r; '(xs, r) ← move_all is bright pop alfa g r; Ok (x :: xs, r)
  end.

(** ff.rs:243-260 *)
Fixpoint brightest (i maxpos : nat) (maxbright : f64) (bs : list f64) : nat :=
  match bs with
  | [] => maxpos
  | b :: bs => if feq b finf then i else if flt maxbright b then brightest (S i) i b bs else brightest (S i) maxpos maxbright bs
  end.

(** ff.rs:221-269: generations i, i+1, ...; [n] are left *)
Fixpoint ff_loop (n i : nat) (pop : list (list f64)) (bright : list f64) (alfa best : f64) (r : rng) : outcome (list ff_event * list (list f64)) :=
  match n with
  | 0 => Ok ([], pop)
  | S n =>
      '(pop, r) ← move_all (seq 0 (length pop)) bright pop alfa (f_of_nat i) r;
      let bright := brightness_of pop in
      let alfa := fmul alfa (delta c) in
      x ← index pop (brightest 0 0 f0 (take (ff_population_size c) bright));
      let best := if flt (f x) best then f x else best in
      '(evs, pop) ← ff_loop n (S i) pop bright alfa best r;
      Ok (FfIterStart i :: FfCurrentBest best x :: FfIterEnd i :: evs, pop)
  end.
(** ff.rs:113-272 [run]: the events and the population at the end *)
Definition ff_run (pop : list (list f64)) (r : rng) : outcome (list ff_event * list (list f64)) :=
  '(evs, pop) ← ff_loop (max_generations c) 0 pop (brightness_of pop) (alfa0 c) fmax r;
  Ok (FfStart :: evs ++ [FfEnd], pop).
End Ff.

(** ** Builder (src/ff/builder.rs); the probe is opaque, the distance and objective are functions *)
Record firefly := Firefly {
  ff_config : ff_cfg; ff_function : list f64 -> f64; ff_probe : nat; ff_distance : list f64 -> list f64 -> outcome f64; ff_population : list (list f64) }.
(** 17-25; [rastrigin] is the default objective, [sq] powi(_, 2) *)
Definition ff_new (rastrigin : list f64 -> f64) (sq : f64 -> f64) (r : rng) : outcome (firefly * rng) :=
  '(pop, r) ← from_config ff_default_cfg r;
  Ok (Firefly ff_default_cfg rastrigin 0 (cartesian_distance sq) pop, r).
Inductive ff_setter :=
| FfSetDimensions (n : nat) | FfSetLower (x : f64) | FfSetUpper (x : f64) | FfSetMaxGenerations (n : nat) | FfSetPopulationSize (n : nat)
| FfSetAlfa0 (x : f64) | FfSetBeta0 (x : f64) | FfSetGamma (x : f64) | FfSetDelta (x : f64) | FfSetThreads (n : nat)
| FfSetConfig (c : ff_cfg) | FfSetDistribution (d : rng -> f64 * rng) | FfSetFunction (g : list f64 -> f64) | FfSetProbe (p : nat)
| FfSetDistance (d : list f64 -> list f64 -> outcome f64) | FfSetPopulation (pop : list (list f64)).
(** 27-92 *)
Definition ff_set_cfg (c : ff_cfg) (s : ff_setter) : ff_cfg :=
  let 'FfCfg d lo hi mg n a b ga de t di := c in
  match s with
  | FfSetDimensions d => FfCfg d lo hi mg n a b ga de t di
  | FfSetLower lo => FfCfg d lo hi mg n a b ga de t di
  | FfSetUpper hi => FfCfg d lo hi mg n a b ga de t di
  | FfSetMaxGenerations mg => FfCfg d lo hi mg n a b ga de t di
  | FfSetPopulationSize n => FfCfg d lo hi mg n a b ga de t di
  | FfSetAlfa0 a => FfCfg d lo hi mg n a b ga de t di
  | FfSetBeta0 b => FfCfg d lo hi mg n a b ga de t di
  | FfSetGamma ga => FfCfg d lo hi mg n a b ga de t di
  | FfSetDelta de => FfCfg d lo hi mg n a b ga de t di
  | FfSetThreads t => FfCfg d lo hi mg n a b ga de t di
  | FfSetDistribution di => FfCfg d lo hi mg n a b ga de t di
  | FfSetConfig c => c
  | _ => c
  end.
Definition ff_set (a : firefly) (s : ff_setter) : firefly :=
  let 'Firefly c g p d pop := a in
  match s with
  | FfSetFunction g => Firefly c g p d pop
  | FfSetProbe p => Firefly c g p d pop
  | FfSetDistance d => Firefly c g p d pop
  | FfSetPopulation pop => Firefly c g p d pop
  | s => Firefly (ff_set_cfg c s) g p d pop
  end.
(** [FireflyAlgorithmBuilder::new()] followed by setters and [build] (94-102) *)
Definition ff_build (rastrigin : list f64 -> f64) (sq : f64 -> f64) (setters : list ff_setter) (r : rng) : outcome (firefly * rng) :=
  '(a, r) ← ff_new rastrigin sq r; Ok (foldl ff_set a setters, r).
Definition ff_solve (powf : f64 -> f64 -> f64) (sq : f64 -> f64) (a : firefly) (r : rng) : outcome (list ff_event * list (list f64)) :=
  ff_run (ff_function a) (ff_distance a) powf sq (ff_config a) (ff_population a) r.

(** ** Probes (src/ff/probe/) *)
(** probing_policy.rs:6-53 [GenerationInterval] on u32: the addition panics on overflow in debug builds and wraps otherwise *)
Definition u32_add (debug : bool) (a b : N) : outcome N :=
  if (a + b <? 2 ^ 32)%N then Ok (a + b)%N else if debug then Panic else Ok ((a + b) mod 2 ^ 32)%N.
Definition ff_interval_policy (debug : bool) : policy ff_event generation_interval := fun p e =>
  match e with
  | FfStart | FfEnd => Ok (true, p)
  | FfIterStart i =>
      if (gi_threshold p <=? N.of_nat i)%N then
        t ← u32_add debug (gi_threshold p) (gi_interval p); Ok (true, GenInt (gi_interval p) t true)
      else Ok (gi_should_log p, p)
  | FfCurrentBest _ _ => Ok (gi_should_log p, p)
  | FfIterEnd _ => Ok (gi_should_log p, GenInt (gi_interval p) (gi_threshold p) false)
  end.
(** probing_policy.rs:59-110 [ElapsedTime]: instants in ns on one clock.  In iteration i, [elapsed] reads the clock at [now i] and, when the
    iteration is due, [Instant::now] reads it at [reset i].  [elapsed] is 0 for an instant in the future; [as_secs] rounds down. *)
Definition ff_elapsed_new (construction first_threshold : N) : N * bool := ((construction + first_threshold * 1000000000)%N, false).
Definition ff_elapsed_policy (interval : N) (now reset : nat -> N) : policy ff_event (N * bool) := fun p e =>
  let '(threshold, should_log) := p in
  match e with
  | FfStart | FfEnd => Ok (true, p)
  | FfIterStart i =>
      if (interval <=? (now i - threshold) / 1000000000)%N then Ok (true, (reset i, true)) else Ok (should_log, p)
  | FfCurrentBest _ _ => Ok (should_log, p)
  | FfIterEnd _ => Ok (should_log, (threshold, false))
  end.
(** json_probe.rs:14-68 [JsonProbe] (csv_probe.rs: without the position): the fields, and what has been written *)
Record ff_log := FfLog { fl_records : list (nat * f64 * list f64); fl_iteration : nat; fl_best : f64; fl_position : list f64; fl_file : option (list (nat * f64 * list f64)) }.
Definition ff_log_new : ff_log := FfLog [] 0 f0 [] None.
Definition ff_json_probe : probe ff_event ff_log := fun l e =>
  let 'FfLog rs i b x file := l in
  match e with
  | FfStart => Ok l
  | FfIterStart i => Ok (FfLog rs i b x file)
  | FfCurrentBest b x => Ok (FfLog rs i b x file)
  | FfIterEnd _ => Ok (FfLog (rs ++ [(i, b, x)]) i b x file)
  | FfEnd => Ok (FfLog rs i b x (Some rs))
  end.
