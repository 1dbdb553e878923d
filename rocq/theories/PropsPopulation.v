(** * Property theorems: population generators (C29, C30) *)
From Verif Require Import PopulationProofs F64R.
Open Scope nat_scope.

(** ** C29 *)
Theorem C29_random_points :
  forall (dim : nat) (constraints : list (f64 * f64)) (r : rng) (kind : rng_kind) (count : nat),
  (* construction *)
  (random_points_with_constraints dim constraints r = Panic <-> dim = 0 \/ dim <> length constraints) /\
  (random_points_with_rng dim r = Panic <-> dim = 0) /\
  (* generation *)
  forall g, (random_points_with_constraints dim constraints r = Ok g \/ random_points_with_rng dim r = Ok g) ->
  exists pop g', random_points_generate kind g count = Ok (pop, g') /\ length pop = count /\
    rp_dim g' = dim /\ rp_constraints g' = rp_constraints g /\
    Forall (fun x => length (chromosome x) = dim /\ fitness x = fmin) pop.
Proof. exact random_points_all. Qed.
Print Assumptions C29_random_points.

Theorem C29_bit_strings :
  forall (g : bit_strings) (count : nat),
  (exists pop g', bit_strings_generate g count = (pop, g') /\ length pop = count /\ bs_dim g' = bs_dim g /\
     Forall (fun x => length (chromosome x) = bs_dim g /\ fitness x = fmin) pop) /\
  (* nothing is excluded *)
  (forall rows, Forall (fun row => length row = bs_dim g) rows ->
     exists r r', bit_strings_generate (BitStrings (bs_dim g) r) (length rows) = ((fun row => Ind row fmin) <$> rows, BitStrings (bs_dim g) r')).
Proof. exact (fun g count => conj (bit_strings_spec g count) (bit_strings_surj (bs_dim g))). Qed.
Print Assumptions C29_bit_strings.

Theorem C29_random_permutations :
  forall (G : Type) (g : random_permutations G) (count : nat),
  (exists pop g', random_permutations_generate g count = Ok (pop, g') /\ length pop = count /\ perm_genes g' = perm_genes g /\
     Forall (fun x => chromosome x ≡ₚ perm_genes g /\ fitness x = fmin) pop) /\
  (forall rows, Forall (fun row => row ≡ₚ perm_genes g) rows ->
     exists r r', random_permutations_generate (RandomPermutations (perm_genes g) r) (length rows) =
       Ok ((fun row => Ind row fmin) <$> rows, RandomPermutations (perm_genes g) r')).
Proof. exact (fun G g count => conj (random_permutations_spec g count) (random_permutations_surj (perm_genes g))). Qed.
Print Assumptions C29_random_permutations.

(** RandomPoints draws from a clone of its RNG: with a value-type RNG a second call repeats the population. *)
Theorem C29_random_points_repeats_itself :
  forall (g : random_points) (count : nat) pop (g' : random_points),
  random_points_generate ValueRng g count = Ok (pop, g') ->
  g' = g /\ random_points_generate ValueRng g' count = Ok (pop, g').
Proof. exact random_points_repeats. Qed.
Print Assumptions C29_random_points_repeats_itself.

Example C29_nonvacuous :
  (exists g, random_points_with_constraints 2 [(f0, f1); (f1, f_of_nat 3)] (rng_of [2251799813685248; 2251799813685248]%N) = Ok g /\
     exists g', random_points_generate ValueRng g 1 = Ok ([Ind [fhalf; f_of_nat 2] fmin], g')) /\
  (exists g', bit_strings_generate (BitStrings 2 (rng_of [1; 2; 3; 5]%N)) 2 = ([Ind [true; false] fmin; Ind [true; true] fmin], g')) /\
  (exists g', random_permutations_generate (RandomPermutations [7; 8; 9] (rng_of [0; 1]%N)) 1 = Ok ([Ind [9; 8; 7] fmin], g')).
Proof.
  split; [|split].
  - eexists. split; [reflexivity|]. eexists. vm_compute. reflexivity.
  - eexists. vm_compute. reflexivity.
  - eexists. vm_compute. reflexivity.
Qed.

(** ** C30 *)
(** The closed interval, rounding included.  Missing: the upper end is excluded; that is false (below). *)
Theorem C30_points_within_constraints :
  forall (kind : rng_kind) (g : random_points) (count : nat) pop (g' : random_points),
  random_points_generate kind g count = Ok (pop, g') -> Forall proper_range (rp_constraints g) ->
  Forall (fun x => Forall2 (fun c v => fle c.1 v = true /\ fle v c.2 = true) (rp_constraints g) (chromosome x)) pop.
Proof. exact random_points_within. Qed.
Print Assumptions C30_points_within_constraints.

(** Without constraints the coordinates are in the half-open [0, 1). *)
Theorem C30_default_points_half_open :
  forall (kind : rng_kind) (dim : nat) (r : rng) (g : random_points) (count : nat) pop (g' : random_points),
  random_points_with_rng dim r = Ok g -> random_points_generate kind g count = Ok (pop, g') ->
  Forall (fun x => Forall (fun v => fle f0 v = true /\ flt v f1 = true) (chromosome x)) pop.
Proof. exact random_points_default. Qed.
Print Assumptions C30_default_points_half_open.

(** 1..1+2^-52, draw 3/4: the coordinate is the excluded end of the range. *)
Theorem C30_half_open_refuted :
  exists (c : f64 * f64) (r : rng) g g' pop x,
    proper_range c /\ flt c.1 c.2 = true /\ random_points_with_constraints 1 [c] r = Ok g /\
    random_points_generate ValueRng g 1 = Ok (pop, g') /\ pop = [x] /\ chromosome x = [c.2].
Proof.
  exists (f1, S754_finite false 4503599627370497 (-52)), (rng_of [3377699720527872]%N). eexists _, _, _, _.
  split; [split_and!; try split; vm_compute; reflexivity|]. split; [reflexivity|]. split; [reflexivity|].
  split; [vm_compute; reflexivity|]. split; reflexivity.
Qed.
Print Assumptions C30_half_open_refuted.

(** A range whose width overflows gives coordinates that are not even numbers. *)
Theorem C30_overflowing_range_refuted :
  exists (c : f64 * f64) (r : rng) g g' pop,
    finite_f64 c.1 /\ finite_f64 c.2 /\ flt c.1 c.2 = true /\ random_points_with_constraints 1 [c] r = Ok g /\
    random_points_generate ValueRng g 2 = Ok (pop, g') /\ pop = [Ind [S754_nan] fmin; Ind [finf] fmin].
Proof.
  exists (fmin, fmax), (rng_of [0; 5]%N). eexists _, _, _.
  split; [split; reflexivity|]. split; [split; reflexivity|]. split; [reflexivity|]. split; [reflexivity|].
  split; vm_compute; reflexivity.
Qed.
Print Assumptions C30_overflowing_range_refuted.

Example C30_nonvacuous : proper_range (f_of_Z (-5), f_of_nat 15) /\ proper_range (f0, f0).
Proof. split; (split_and!; try split; vm_compute; reflexivity). Qed.
