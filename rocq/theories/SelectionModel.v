(** * Selection operators (src/ga/operators/selection/impls.rs)

    An operator returns references into the population; the model returns the positions referred to.
    [count] is the value of the operator's size provider (src/ga/value_provider/flat.rs: the number itself). *)
From Verif Require Export IndividualModel.
Open Scope nat_scope.

Section Selection.
Context {G : Type}.
Notation population := (list (individual G)).

(** impls.rs:81, 561: [population.iter().map(|i| i.fitness()).sum()], additions from left to right
    starting at 0.0.  (Newer Rust releases start at -0.0; the difference is only visible when the
    population is empty or all fitness values are -0.0.) *)
Definition sum_f64 (l : list f64) : f64 := foldl fadd f0 l.
Definition total_fitness (pop : population) : f64 := sum_f64 (fitness <$> pop).

(** impls.rs:89-97: one spin of the wheel; [None] when no individual reaches the threshold. *)
Fixpoint roulette_scan (threshold crt_sum : f64) (i : nat) (pop : population) : option nat :=
  match pop with
  | [] => None
  | indiv :: rest =>
      let crt_sum := fadd crt_sum (fitness indiv) in
      if fge crt_sum threshold then Some i else roulette_scan threshold crt_sum (S i) rest
  end.
(** impls.rs:86-98 *)
Fixpoint roulette_spins (count : nat) (total : f64) (pop : population) (r : rng) : list nat * rng :=
  match count with
  | 0 => ([], r)
  | S count =>
      let '(u, r1) := gen_f64 r in
      let hit := roulette_scan (fmul total u) f0 0 pop in
      let '(sel, r2) := roulette_spins count total pop r1 in
      (match hit with Some i => i :: sel | None => sel end, r2)
  end.
(** impls.rs:80-100 [RouletteWheel::apply] (fitness type f64) *)
Definition roulette_wheel (count : nat) (pop : population) (r : rng) : outcome (list nat * rng) :=
  Ok (roulette_spins count (total_fitness pop) pop r).

(** impls.rs:150-159 [Random::apply]: indices are drawn from a clone of the RNG;
    [Uniform::new(0, 0)] panics. *)
Definition random_sel (kind : rng_kind) (count : nat) (pop : population) (r : rng) : outcome (list nat * rng) :=
  _ ← rassert (bool_decide (0 < length pop));
  '(sel, r1) ← repeatO count (fun r => '(i, r1) ← gen_range 0 (length pop) r; _ ← index pop i; Ok (i, r1)) r;
  Ok (sel, after_clone kind r r1).

(** impls.rs:215-226 [UniqueRandom::apply] *)
Definition unique_random (count : nat) (pop : population) (r : rng) : outcome (list nat * rng) :=
  '(sel, r1) ← sample_indices (length pop) count r;
  _ ← omapM (index pop) sel;
  Ok (sel, r1).

(** impls.rs:287-294: body of the loop of [Rank::apply] *)
Definition rank_spin (pop : population) (r : rng) : outcome (nat * rng) :=
  '(i, r1) ← gen_range 0 (length pop) r;
  p1 ← index pop i;
  '(j, r2) ← gen_range 0 (length pop) r1;
  p2 ← index pop j;
  Ok (if fge (fitness p1) (fitness p2) then i else j, r2).
(** impls.rs:282-297 [Rank::apply] *)
Definition rank (count : nat) (pop : population) (r : rng) : outcome (list nat * rng) :=
  repeatO count (rank_spin pop) r.

(** impls.rs:375-386: body of the loop of [RankR::apply] *)
Definition rank_r_spin (rr : f64) (pop : population) (r : rng) : outcome (nat * rng) :=
  '(i, r1) ← gen_range 0 (length pop) r;
  _ ← index pop i;
  '(j, r2) ← gen_range 0 (length pop) r1;
  _ ← index pop j;
  let '(u, r3) := uni_f64 r2 in
  Ok (if flt u rr then i else j, r3).
(** impls.rs:340-347 [RankR::with_rng] (assertion on r) and 368-388 [RankR::apply];
    [Uniform::from(0..0)] panics. *)
Definition rank_r (rr : f64) (count : nat) (pop : population) (r : rng) : outcome (list nat * rng) :=
  _ ← rassert (fle f0 rr && fle rr f1);
  _ ← rassert (bool_decide (0 < length pop));
  repeatO count (rank_r_spin rr pop) r.

(** impls.rs:459-460: the tournament size *)
Definition tournament_size (factor : f64) (len : nat) : nat :=
  Nat.max (N.to_nat (f_to_usize (fmul (f_of_nat len) factor))) 1.
(** impls.rs:464-473: body of the loop of [Tournament::apply] *)
Definition tournament_spin (size : nat) (pop : population) (r : rng) : outcome (nat * rng) :=
  '(idx, r1) ← sample_indices (length pop) size r;
  group ← omapM (fun i => p ← index pop i; Ok (i, p)) idx;
  best ← iter_max (fun ip => fitness ip.2) group;
  b ← unwrap best;
  Ok (b.1, r1).
(** impls.rs:429-436 [Tournament::with_rng] (assertion on size_factor), 457-477 [Tournament::apply] *)
Definition tournament (factor : f64) (count : nat) (pop : population) (r : rng) : outcome (list nat * rng) :=
  _ ← rassert (fle f0 factor && fle factor f1);
  repeatO count (tournament_spin (tournament_size factor (length pop)) pop) r.

(** impls.rs:575-578: the while loop of [StochasticUniversalSampling::apply] *)
Fixpoint sus_while (fuel : nat) (curr_sum dist : f64) (i : nat) (pointer : f64) (sel : list nat)
  : outcome (f64 * list nat) :=
  match fuel with
  | 0 => Diverge
  | S fuel =>
      if fge curr_sum pointer then sus_while fuel curr_sum dist i (fadd pointer dist) (sel ++ [i])
      else Ok (pointer, sel)
  end.
(** impls.rs:572-579: body of the for loop *)
Definition sus_step (fuel : nat) (dist : f64) (s : f64 * f64 * list nat) (ip : nat * individual G)
  : outcome (f64 * f64 * list nat) :=
  let '(curr_sum, pointer, sel) := s in
  let curr_sum := fadd curr_sum (fitness ip.2) in
  '(pointer, sel) ← sus_while fuel curr_sum dist ip.1 pointer sel;
  Ok (curr_sum, pointer, sel).
(** impls.rs:559-584 [StochasticUniversalSampling::apply] *)
Definition sus (fuel : nat) (count : nat) (pop : population) (r : rng) : outcome (list nat * rng) :=
  let dist := fdiv (total_fitness pop) (f_of_nat count) in
  _ ← rassert (fgt dist f0);
  '(pointer, r1) ← gen_range_f64 f0 dist r;
  '(_, _, sel) ← ofold (sus_step fuel dist) (f0, pointer, []) (imap pair pop);
  _ ← rassert (bool_decide (length sel = count));
  Ok (sel, r1).

(** [rand::seq::index::sample_weighted] (rand 0.8 seq/index.rs): the empty sample for amount 0, panics when
    [amount > length], [Err] when a weight is not >= 0, otherwise any sequence of distinct indices. *)
Definition sample_weighted (weights : list f64) (amount : nat) (r : rng) : outcome (option (list nat) * rng) :=
  if decide (amount = 0) then Ok (Some [], r)
  else if decide (length weights < amount) then Panic
  else if forallb (fun w => fge w f0) weights then
    '(sel, r1) ← sample_indices (length weights) amount r; Ok (Some sel, r1)
  else Ok (None, r).

(** impls.rs:649-656 (assertions of [with_rng]), 676-699 [Boltzmann::apply].  [powf] and [exp] are the libm
    functions, about which nothing is assumed. *)
Definition boltzmann_weights (powf : f64 -> f64 -> f64) (exp : f64 -> f64) (alpha temp_0 : f64)
    (generation max_gen : nat) (pop : population) : list f64 :=
  let k := fadd f1 (fdiv (fmul (f_of_nat 100) (f_of_nat generation)) (f_of_nat max_gen)) in
  let temp := fmul temp_0 (powf (fsub f1 alpha) k) in
  (fun p => exp (fdiv (fneg (fitness p)) temp)) <$> pop.
Definition boltzmann (powf : f64 -> f64 -> f64) (exp : f64 -> f64) (alpha temp_0 : f64)
    (generation max_gen : nat) (count : nat) (pop : population) (r : rng) : outcome (list nat * rng) :=
  _ ← rassert (fle f0 alpha && fle alpha f1);
  _ ← rassert (fle (f_of_nat 5) temp_0 && fle temp_0 (f_of_nat 100));
  '(o, r1) ← sample_weighted (boltzmann_weights powf exp alpha temp_0 generation max_gen pop) count r;
  sel ← unwrap o;
  _ ← omapM (index pop) sel;
  Ok (sel, r1).
End Selection.
