(** * Property theorems: selection operators (C15 - C20) *)
From Verif Require Import SusProofs SelectionRProofs SelectionProofs F64R BoltzmannProofs TournamentProofs.
From Coq Require Import Reals.
From Flocq Require Import Core.
Open Scope nat_scope.

(** ** C15 *)
Theorem C15_selection_counts :
  forall (G : Type) (pop : list (individual G)) (count : nat) (r : rng),
  let valid sel := length sel = count /\ Forall (fun i => i < length pop) sel in
  (forall kind, (pop = [] -> random_sel kind count pop r = Panic) /\
     (pop <> [] -> exists sel r', random_sel kind count pop r = Ok (sel, r') /\ valid sel)) /\
  ((length pop < count -> unique_random count pop r = Panic) /\
   (count <= length pop -> exists sel r', unique_random count pop r = Ok (sel, r') /\ valid sel)) /\
  ((0 < count -> pop = [] -> rank count pop r = Panic) /\
   (count = 0 \/ pop <> [] -> exists sel r', rank count pop r = Ok (sel, r') /\ valid sel)) /\
  (forall rr, (fle f0 rr && fle rr f1 = false \/ pop = [] -> rank_r rr count pop r = Panic) /\
     (fle f0 rr = true -> fle rr f1 = true -> pop <> [] ->
        exists sel r', rank_r rr count pop r = Ok (sel, r') /\ valid sel)) /\
  (forall factor, fvalid factor -> unit_factor factor -> pop <> [] -> (Z.of_nat (length pop) <= 2 ^ 53)%Z -> comparable pop ->
     exists sel r', tournament factor count pop r = Ok (sel, r') /\ valid sel) /\
  (forall fuel sel r', sus fuel count pop r = Ok (sel, r') -> valid sel) /\
  (forall powf exp alpha temp_0 g mg,
     let ws := boltzmann_weights powf exp alpha temp_0 g mg pop in
     let bad := fle f0 alpha && fle alpha f1 = false \/ fle (f_of_nat 5) temp_0 && fle temp_0 (f_of_nat 100) = false \/
                length pop < count \/ (0 < count /\ Exists (fun w => fle f0 w = false) ws) in
     (bad -> boltzmann powf exp alpha temp_0 g mg count pop r = Panic) /\
     (~ bad -> exists sel r', boltzmann powf exp alpha temp_0 g mg count pop r = Ok (sel, r') /\ valid sel)) /\
  (exists sel r', roulette_wheel count pop r = Ok (sel, r') /\ length sel <= count /\ Forall (fun i => i < length pop) sel).
Proof. exact @selection_counts. Qed.
Print Assumptions C15_selection_counts.

(** Every selection Random and UniqueRandom may return is returned for some draws. *)
Theorem C15_random_reaches_every_selection :
  forall (G : Type) (pop : list (individual G)) (kind : rng_kind) (sel : list nat),
  pop <> [] -> Forall (fun i => i < length pop) sel ->
  (exists r r', random_sel kind (length sel) pop r = Ok (sel, r')) /\
  (NoDup sel -> exists r r', unique_random (length sel) pop r = Ok (sel, r')).
Proof. exact @random_reaches. Qed.
Print Assumptions C15_random_reaches_every_selection.

(** With a value-type RNG, Random leaves its RNG where it was: calling it again on any population of the
    same size gives the same positions. *)
Theorem C15_random_repeats_itself :
  forall (G : Type) (pop pop2 : list (individual G)) (count : nat) (r r' : rng) (sel : list nat),
  length pop2 = length pop -> random_sel ValueRng count pop r = Ok (sel, r') ->
  random_sel ValueRng count pop2 r' = Ok (sel, r').
Proof. exact @random_repeats. Qed.
Print Assumptions C15_random_repeats_itself.

Example C15_nonvacuous :
  let pop := [Ind [true] f1; Ind [false] fhalf; Ind [false] f0] in
  comparable pop /\ unit_factor fhalf /\ fvalid fhalf /\
  exists r', tournament fhalf 2 pop (rng_of [2; 1; 1; 1]%N) = Ok ([0; 0], r').
Proof. cbn zeta. split; [repeat constructor|]. split; [split; reflexivity|]. split; [reflexivity|]. eexists. vm_compute. reflexivity. Qed.

(** ** C16 *)
Theorem C16_distinct_selection :
  forall (G : Type) (pop : list (individual G)) (count : nat) (r r' : rng) (sel : list nat),
  (unique_random count pop r = Ok (sel, r') -> NoDup sel) /\
  (unique_random count pop r = Panic <-> length pop < count) /\
  (forall powf exp alpha temp_0 g mg, boltzmann powf exp alpha temp_0 g mg count pop r = Ok (sel, r') -> NoDup sel).
Proof. exact @distinct_selection. Qed.
Print Assumptions C16_distinct_selection.

Example C16_nonvacuous :
  exists r', unique_random 3 [Ind [1] f1; Ind [2] f1; Ind [3] f1; Ind [4] f1] (rng_of [0; 1; 2]%N) = Ok ([2; 3; 1], r').
Proof. eexists. vm_compute. reflexivity. Qed.

(** ** C17 *)
Theorem C17_tournament :
  forall (G : Type) (factor : f64) (count : nat) (pop : list (individual G)) (r : rng),
  fvalid factor -> unit_factor factor -> pop <> [] -> (Z.of_nat (length pop) <= 2 ^ 53)%Z -> comparable pop ->
  exists sel groups r', tournament factor count pop r = Ok (sel, r') /\ length sel = count /\
    Forall2 (fun grp s => Z.of_nat (length grp) = Z.max (Zfloor (rnd (INR (length pop) * f2r factor))) 1 /\ NoDup grp /\
      Forall (fun i => i < length pop) grp /\ tournament_winner pop grp s) groups sel.
Proof. exact @tournament_spec. Qed.
Print Assumptions C17_tournament.

(** Every group of the right size can occur. *)
Theorem C17_every_group_possible :
  forall (G : Type) (factor : f64) (pop : list (individual G)) (grp : list nat) (rest : rng),
  unit_factor factor -> comparable pop -> NoDup grp -> Forall (fun i => i < length pop) grp ->
  length grp = tournament_size factor (length pop) ->
  exists s r, tournament_winner pop grp s /\ tournament factor 1 pop r = Ok ([s], rest).
Proof. exact @tournament_group_possible. Qed.
Print Assumptions C17_every_group_possible.

Theorem C17_full_tournament_is_max :
  forall (G : Type) (count : nat) (pop : list (individual G)) (r : rng),
  pop <> [] -> (Z.of_nat (length pop) <= 2 ^ 53)%Z -> comparable pop ->
  exists sel r', tournament f1 count pop r = Ok (sel, r') /\ length sel = count /\
    forall s b a, s ∈ sel -> pop !! s = Some b -> a ∈ pop -> fle (fitness a) (fitness b) = true.
Proof. exact @tournament_full_max. Qed.
Print Assumptions C17_full_tournament_is_max.
(** On any population, NaN fitness included, and for any factor: the call returns or panics, it does not hang. Whenever it returns, the factor was in [0, 1], every winner
    belongs to its group of distinct members, and in a group of two or more nobody has NaN fitness and nobody higher fitness than the winner. *)
Theorem C17_any_population :
  forall (G : Type) (factor : f64) (count : nat) (pop : list (individual G)) (r : rng),
  tournament factor count pop r <> Diverge /\ forall sel r', tournament factor count pop r = Ok (sel, r') ->
  fle f0 factor = true /\ fle factor f1 = true /\ length sel = count /\ Forall (fun i => i < length pop) sel /\
  exists groups, Forall2 (fun grp s => NoDup grp /\ Forall (fun i => i < length pop) grp /\ s ∈ grp /\
    (2 <= length grp -> (forall j a, j ∈ grp -> pop !! j = Some a -> is_nan (fitness a) = false) /\ tournament_winner pop grp s)) groups sel.
Proof.
  intros G factor count pop r. split; [apply tournament_live|]. intros sel r' H. apply tournament_any in H as ([U0 U1] & Hl & groups & Hf).
  split; [exact U0|]. split; [exact U1|]. split; [exact Hl|]. split.
  - apply Forall_lookup. intros k s Hs. destruct (Forall2_lookup_r _ _ _ _ _ Hf Hs) as (grp & _ & _ & _ & Hr & Hin & _). rewrite Forall_forall in Hr. exact (Hr _ Hin).
  - exists groups. eapply Forall2_impl; [exact Hf|]. intros grp s (_ & H). exact H.
Qed.
Print Assumptions C17_any_population.
(** A tournament of the whole population panics when somebody has NaN fitness. *)
Theorem C17_nan_participant_panics :
  forall (G : Type) (count : nat) (pop : list (individual G)) (r : rng),
  0 < count -> 2 <= length pop -> (Z.of_nat (length pop) <= 2 ^ 53)%Z -> Exists (fun a => is_nan (fitness a) = true) pop -> tournament f1 count pop r = Panic.
Proof. exact @tournament_full_nan. Qed.
Print Assumptions C17_nan_participant_panics.
Example C17_nonvacuous :
  (exists sel r', tournament fhalf 2 [Ind [1] f1; Ind [2] f0; Ind [3] f1; Ind [4] S754_nan] (rng_of [0; 0; 0; 0]%N) = Ok (sel, r') /\ length sel = 2) /\
  tournament f1 1 [Ind [1] f1; Ind [2] S754_nan; Ind [3] f1] (rng_of [0; 0; 1; 2]%N) = Panic.
Proof. split; [eexists _, _; split; vm_compute; reflexivity|vm_compute; reflexivity]. Qed.

(** The documented group size is ceil(size_factor * n).  For 3 individuals and factor 1/2 that is 2, and the
    worst of three could never win a group of two; in the code it does. *)
Theorem C17_ceil_group_size_refuted :
  exists (pop : list (individual bool)) (r : rng) (s : nat) (w : individual bool) r',
    length pop = 3 /\ Zceil (INR 3 * f2r fhalf) = 2%Z /\
    tournament fhalf 1 pop r = Ok ([s], r') /\ pop !! s = Some w /\
    (forall j a, pop !! j = Some a -> j <> s -> flt (fitness w) (fitness a) = true) /\
    (forall grp s', NoDup grp -> Forall (fun i => i < 3) grp -> length grp = 2 -> tournament_winner pop grp s' -> s' <> s).
Proof. exact tournament_ceil_refuted. Qed.
Print Assumptions C17_ceil_group_size_refuted.

(** ** C18 *)
Theorem C18_rank :
  forall (G : Type) (count : nat) (pop : list (individual G)) (r : rng),
  pop <> [] ->
  exists sel draws r', rank count pop r = Ok (sel, r') /\ length sel = count /\ Forall2 (rank_winner pop) draws sel.
Proof. exact @rank_ok. Qed.
Print Assumptions C18_rank.

Theorem C18_rank_every_draw_possible :
  forall (G : Type) (pop : list (individual G)) (draws : list (nat * nat)),
  Forall (fun ij => ij.1 < length pop /\ ij.2 < length pop) draws ->
  exists r sel r', rank (length draws) pop r = Ok (sel, r') /\ Forall2 (rank_winner pop) draws sel.
Proof. exact @rank_possible. Qed.
Print Assumptions C18_rank_every_draw_possible.

Theorem C18_rank_winner_is_fitter :
  forall (G : Type) (pop : list (individual G)) (i j s : nat) (a b : individual G),
  rank_winner pop (i, j) s -> pop !! i = Some a -> pop !! j = Some b ->
  (s = i \/ s = j) /\
  (is_nan (fitness a) = false -> is_nan (fitness b) = false ->
     exists w, pop !! s = Some w /\ fle (fitness a) (fitness w) = true /\ fle (fitness b) (fitness w) = true) /\
  (feq (fitness a) (fitness b) = true -> s = i).
Proof. exact @rank_winner_best. Qed.
Print Assumptions C18_rank_winner_is_fitter.

Example C18_nonvacuous :
  exists r', rank 2 [Ind [1] f0; Ind [2] f1] (rng_of [0; 1; 0; 0]%N) = Ok ([1; 0], r').
Proof. eexists. vm_compute. reflexivity. Qed.

(** ** C19 *)
Theorem C19_roulette_full :
  forall (G : Type) (count : nat) (pop : list (individual G)) (r : rng),
  pop <> [] -> Forall (fun p => fvalid (fitness p)) pop ->
  ffinite (total_fitness pop) = true -> fle f0 (total_fitness pop) = true ->
  exists sel r', roulette_wheel count pop r = Ok (sel, r') /\ length sel = count /\
    forall k i, sel !! k = Some i -> wheel_hit (fitness <$> pop) (fmul (total_fitness pop) (standard_draw r k)) i.
Proof. exact @roulette_spec. Qed.
Print Assumptions C19_roulette_full.

(** Positive fitness values whose total overflows, or a negative total: the pool comes out short. *)
Theorem C19_roulette_short :
  (exists (pop : list (individual bool)) r sel r',
    Forall (fun p => fvalid (fitness p) /\ flt f0 (fitness p) = true) pop /\
    roulette_wheel 2 pop r = Ok (sel, r') /\ length sel < 2) /\
  (exists (pop : list (individual bool)) r sel r',
    Forall (fun p => fvalid (fitness p) /\ ffinite (fitness p) = true) pop /\
    roulette_wheel 2 pop r = Ok (sel, r') /\ length sel < 2).
Proof. exact (conj roulette_overflow roulette_negative). Qed.
Print Assumptions C19_roulette_short.

Example C19_nonvacuous :
  let pop := [Ind [1] f1; Ind [2] f0; Ind [3] f1] in
  pop <> [] /\ Forall (fun p => fvalid (fitness p)) pop /\ ffinite (total_fitness pop) = true /\ fle f0 (total_fitness pop) = true /\
  exists r', roulette_wheel 3 pop (rng_of [0; 4503599627370497; 9007199254740991]%N) = Ok ([0; 2; 2], r').
Proof. cbn zeta. split; [discriminate|]. split; [repeat constructor|]. split; [reflexivity|]. split; [reflexivity|]. eexists. vm_compute. reflexivity. Qed.

(** ** C20 *)
Theorem C20_sus_result :
  forall (G : Type) (fuel count : nat) (pop : list (individual G)) (r : rng) (sel : list nat) (r' : rng),
  sus fuel count pop r = Ok (sel, r') ->
  let fs := fitness <$> pop in
  let d := fdiv (total_fitness pop) (f_of_nat count) in
  length sel = count /\
  (forall k1 k2 i1 i2, k1 <= k2 -> sel !! k1 = Some i1 -> sel !! k2 = Some i2 -> i1 <= i2) /\
  exists p0, fle f0 p0 = true /\ fle p0 d = true /\ pointer_hits fs p0 d sel /\ pointers_exhausted fs p0 d sel.
Proof. exact @sus_result. Qed.
Print Assumptions C20_sus_result.

(** The call ends (possibly by a panic) for non-negative fitness with a finite total, and at most 2^50 parents:
    the pointer loop runs at most 3*count+2 times per individual. *)
Theorem C20_sus_terminates :
  forall (G : Type) (fuel count : nat) (pop : list (individual G)) (r : rng),
  Forall (fun p => nonneg_finite (fitness p)) pop -> ffinite (total_fitness pop) = true ->
  (Z.of_nat count <= 2 ^ 50)%Z -> 3 * count + 2 <= fuel -> sus fuel count pop r <> Diverge.
Proof. exact @sus_terminates. Qed.
Print Assumptions C20_sus_terminates.

Example C20_nonvacuous :
  let pop := [Ind [1] f1; Ind [2] (f_of_nat 3)] in
  Forall (fun p => nonneg_finite (fitness p)) pop /\ ffinite (total_fitness pop) = true /\
  exists r', sus 8 2 pop (rng_of [4602678819172646912]%N) = Ok ([0; 1], r').
Proof. cbn zeta. split; [repeat constructor|]. split; [reflexivity|]. eexists. vm_compute. reflexivity. Qed.

(** A user calling it on positive fitness values may get a panic (the first pointer is 0) ... *)
Theorem C20_sus_always_returns_refuted :
  exists (pop : list (individual bool)) (r : rng),
    Forall (fun p => nonneg_finite (fitness p) /\ flt f0 (fitness p) = true) pop /\
    (forall fuel, 3 <= fuel -> sus fuel 1 pop r = Panic).
Proof. exact sus_zero_pointer. Qed.
Print Assumptions C20_sus_always_returns_refuted.

(** ... and with some negative fitness values and a positive total it never returns, whatever is drawn. *)
Theorem C20_sus_terminates_always_refuted :
  exists (pop : list (individual bool)), Forall (fun p => fvalid (fitness p) /\ ffinite (fitness p) = true) pop /\
    flt f0 (total_fitness pop) = true /\ (forall fuel r, sus fuel 1 pop r = Diverge).
Proof. exact sus_diverges. Qed.
Print Assumptions C20_sus_terminates_always_refuted.

(** ** C78 *)
(** [temp] is the temperature of the generation.  For any [exp] that is monotone, the weight does not increase with the fitness... *)
Theorem C78_boltzmann_prefers_low_fitness :
  forall (G : Type) (powf : f64 -> f64 -> f64) (exp : f64 -> f64) (alpha temp_0 : f64) (g mg : nat) (pop : list (individual G)) i j p q,
  let temp := fmul temp_0 (powf (fsub f1 alpha) (fadd f1 (fdiv (fmul (f_of_nat 100) (f_of_nat g)) (f_of_nat mg)))) in
  positive_f64 temp -> (forall a b, fle a b = true -> fle (exp a) (exp b) = true) ->
  pop !! i = Some p -> pop !! j = Some q -> finite_f64 (fitness p) -> finite_f64 (fitness q) -> fle (fitness p) (fitness q) = true ->
  exists wp wq, boltzmann_weights powf exp alpha temp_0 g mg pop !! i = Some wp /\ boltzmann_weights powf exp alpha temp_0 g mg pop !! j = Some wq /\
    fle wq wp = true.
Proof. exact @boltzmann_fitness. Qed.
Print Assumptions C78_boltzmann_prefers_low_fitness.
(** ... and, for a power that is antitone in the exponent (as it is for the base 1 - alpha <= 1), the weight of an individual with a fitness >= 0 does
    not increase from one generation to a later one: the selection pressure grows. *)
Theorem C78_boltzmann_cools :
  forall (G : Type) (powf : f64 -> f64 -> f64) (exp : f64 -> f64) (alpha temp_0 : f64) (g g' mg : nat) (pop : list (individual G)) i p,
  let k g := fadd f1 (fdiv (fmul (f_of_nat 100) (f_of_nat g)) (f_of_nat mg)) in
  (forall k k', fle k k' = true -> fle (powf (fsub f1 alpha) k') (powf (fsub f1 alpha) k) = true) ->
  (forall a b, fle a b = true -> fle (exp a) (exp b) = true) ->
  positive_f64 temp_0 -> (forall h, h = g \/ h = g' -> finite_f64 (powf (fsub f1 alpha) (k h)) /\ positive_f64 (fmul temp_0 (powf (fsub f1 alpha) (k h)))) ->
  g <= g' -> (Z.of_nat (100 * g') <= 2 ^ 53)%Z -> 0 < mg -> (Z.of_nat mg <= 2 ^ 53)%Z ->
  pop !! i = Some p -> finite_f64 (fitness p) -> fle f0 (fitness p) = true ->
  exists w w', boltzmann_weights powf exp alpha temp_0 g mg pop !! i = Some w /\ boltzmann_weights powf exp alpha temp_0 g' mg pop !! i = Some w' /\
    fle w' w = true.
Proof. exact @boltzmann_generation. Qed.
Print Assumptions C78_boltzmann_cools.
(** With alpha = 1, which the constructor accepts, the temperature is 0 (for a libm with 0^k = 0) and an individual with fitness 0 has the weight
    exp(0/0), so that any selection of at least one individual panics. *)
Theorem C78_alpha_one_panics :
  forall (G : Type) (powf : f64 -> f64 -> f64) (exp : f64 -> f64) (temp_0 : f64) (g mg count : nat) (pop : list (individual G)) (r : rng) p,
  (forall k, powf f0 k = f0) -> exp S754_nan = S754_nan -> p ∈ pop -> feq (fitness p) f0 = true -> 0 < count ->
  boltzmann powf exp f1 temp_0 g mg count pop r = Panic.
Proof.
  intros G powf exp temp_0 g mg count pop r p Hp He Hin Hf Hc. destruct (C15_selection_counts G pop count r) as (_ & _ & _ & _ & _ & _ & B & _).
  specialize (B powf exp f1 temp_0 g mg). cbv zeta in B. apply (proj1 B).
  destruct (fle (f_of_nat 5) temp_0 && fle temp_0 (f_of_nat 100)) eqn:T; [|right; left; reflexivity].
  right; right; right. split; [exact Hc|]. apply Exists_exists. exists S754_nan. split; [|reflexivity].
  unfold boltzmann_weights. apply elem_of_list_fmap. exists p. split; [|exact Hin]. change (fsub f1 f1) with f0. rewrite Hp.
  assert (exists s, fitness p = S754_zero s) as [s ->] by (destruct (fitness p) as [s|[]| |[]]; try discriminate Hf; eauto).
  apply andb_prop in T as [T1 T2]. 
  destruct temp_0 as [s0|s0| |s0 m0 e0]; try (destruct s0; try discriminate T1; try discriminate T2); try discriminate T1; destruct s; symmetry; exact He.
Qed.
Print Assumptions C78_alpha_one_panics.
Definition step_exp (x : f64) : f64 := if fle f0 x then f_of_nat 2 else f1.
Definition step_pow (x k : f64) : f64 := if fle k (f_of_nat 11) then f1 else fhalf.
Example C78_nonvacuous :
  let pop := [Ind [true] f0; Ind [false] (f_of_nat 3)] in
  boltzmann_weights step_pow step_exp fhalf (f_of_nat 10) 5 50 pop = [f_of_nat 2; f1] /\
  positive_f64 (fmul (f_of_nat 10) (step_pow (fsub f1 fhalf) (fadd f1 (fdiv (fmul (f_of_nat 100) (f_of_nat 5)) (f_of_nat 50))))) /\
  (forall a b, fle a b = true -> fle (step_exp a) (step_exp b) = true) /\
  (forall k k', fle k k' = true -> fle (step_pow fhalf k') (step_pow fhalf k) = true).
Proof.
  cbv zeta. split; [vm_compute; reflexivity|]. split; [repeat split; vm_compute; reflexivity|]. split.
  - intros a b H. unfold step_exp. destruct (fle f0 a) eqn:A; [rewrite (fle_trans f0 a b A H); reflexivity|]. destruct (fle f0 b); reflexivity.
  - intros k k' H. unfold step_pow. destruct (fle k' (f_of_nat 11)) eqn:A; [rewrite (fle_trans k k' _ H A); reflexivity|]. destruct (fle k (f_of_nat 11)); reflexivity.
Qed.
