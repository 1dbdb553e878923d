(** * Property theorems: evenly spread random populations, cuts and positions (C125, C126)

    The draws are the raw values of the operator's generator: the k-th value modulo n is the k-th index drawn below n, its parity the k-th
    bit, its value modulo 2^52 the k-th number drawn from [0, 1) times 2^52. *)
From Verif Require Import EvenProofs EvenPointProofs.
From Verif Require Import PopulationSpec PopulationModel SelectionModel CrossoverSpec CrossoverModel F64R.
From Coq Require Import Reals Lra Lia.
Open Scope nat_scope.

(** ** C125 *)
(** Of the n * (n-1) * ... * 2 sequences of index draws for one member, exactly one gives a chosen arrangement [q]. *)
Theorem C125_every_permutation_alike :
  forall (G : Type) (genes q : list G), NoDup genes -> q ≡ₚ genes ->
  exists ds, length ds = length genes - 1 /\ (forall k d, ds !! k = Some d -> d < length genes - k) /\
    forall count r, exists pop g', random_permutations_generate (RandomPermutations genes r) count = Ok (pop, g') /\ length pop = count /\
      forall m, m < count -> ((exists x, pop !! m = Some x /\ chromosome x = q) <->
        (forall k d, ds !! k = Some d -> N.to_nat (r (m * (length genes - 1) + k) mod N.of_nat (length genes - k)) = d)).
Proof. exact @permutation_draws. Qed.
Print Assumptions C125_every_permutation_alike.

Theorem C125_every_bit_string_alike :
  forall (g : bit_strings) (count m j : nat) (x : individual bool) (b : bool),
  (bit_strings_generate g count).1 !! m = Some x -> chromosome x !! j = Some b -> b = N.odd (bs_rng g (m * bs_dim g + j)).
Proof. exact bit_draws. Qed.
Print Assumptions C125_every_bit_string_alike.

(** The chance that a coordinate is at most [t] is the share of the range up to [t]. *)
Theorem C125_points_spread_evenly :
  forall lo hi, finite_f64 lo -> finite_f64 hi -> ffinite (fsub hi lo) = true -> (/ 2 ^ 900 <= f2r hi - f2r lo)%R ->
  forall t, (f2r lo <= t <= f2r hi)%R ->
  exists K, (K <= 2 ^ 52)%N /\
    (Rabs (IZR (Z.of_N K) / 2 ^ 52 - (t - f2r lo) / (f2r hi - f2r lo)) <= (6 + Rmax (Rabs (f2r lo)) (Rabs (f2r hi)) / (f2r hi - f2r lo)) / 2 ^ 53)%R /\
    forall kind (g : random_points) count pop g' m j x v, random_points_generate kind g count = Ok (pop, g') ->
      rp_constraints g !! j = Some (lo, hi) -> pop !! m = Some x -> chromosome x !! j = Some v ->
      ((f2r v <= t)%R <-> (rp_rng g (m * rp_dim g + j)%nat mod 2 ^ 52 < K)%N).
Proof.
  intros lo hi Hlo Hhi Hf Hw t Ht. destruct (range_share lo hi Hlo Hhi Hf Hw t Ht) as (K & HK & HP & B).
  exists K. split; [exact HK|]. split; [exact B|]. intros kind g count pop g' m j x v H Hc Hx Hv.
  rewrite (point_draws _ _ _ _ _ _ _ _ _ _ H Hx Hc Hv). apply HP. apply N.mod_lt. discriminate.
Qed.
Print Assumptions C125_points_spread_evenly.

Example C125_nonvacuous :
  (exists g', random_permutations_generate (RandomPermutations [7; 8; 9] (rng_of [0; 1; 2; 0]%N)) 2 = Ok ([Ind [9; 8; 7] fmin; Ind [8; 7; 9] fmin], g')) /\
  (bit_strings_generate (BitStrings 2 (rng_of [1; 2; 5; 7]%N)) 2).1 = [Ind [true; false] fmin; Ind [true; true] fmin] /\
  finite_f64 f0 /\ finite_f64 f1 /\ ffinite (fsub f1 f0) = true /\ (/ 2 ^ 900 <= f2r f1 - f2r f0)%R.
Proof.
  split; [eexists; vm_compute; reflexivity|]. split; [vm_compute; reflexivity|]. split; [split; vm_compute; reflexivity|]. split; [split; vm_compute; reflexivity|]. split; [vm_compute; reflexivity|].
  rewrite f2r_f0, f2r_f1. apply Rle_trans with (/ 1)%R; [apply Rinv_le_contravar; [lra|apply pow_R1_Rle; lra]|lra].
Qed.

(** ** C126 *)
(** Random: every position alike for every parent. *)
Theorem C126_random_selection :
  forall (G : Type) kind (count : nat) (pop : list (individual G)) (r : rng), pop <> [] ->
  exists sel r', random_sel kind count pop r = Ok (sel, r') /\ length sel = count /\
    forall k, k < count -> sel !! k = Some (N.to_nat (r k mod N.of_nat (length pop))).
Proof. exact @random_draws. Qed.
Print Assumptions C126_random_selection.

(** SinglePoint: every cut alike, the cut before the first gene (children = exchanged parents) included.
    TwoPoint: two positions drawn alike, in either order. *)
Theorem C126_cuts :
  forall (G : Type) (p1 p2 : list G) (r : rng), length p1 = length p2 -> 0 < length p1 ->
  let x := N.to_nat (r 0 mod N.of_nat (length p1)) in let y := N.to_nat (r 1 mod N.of_nat (length p1)) in
  (exists r', single_point p1 p2 r = Ok ((cut_once x p1 p2, cut_once x p2 p1), r')) /\
  (exists r', two_point p1 p2 r = Ok ((cut_twice (Nat.min x y) (Nat.max x y) p1 p2, cut_twice (Nat.min x y) (Nat.max x y) p2 p1), r')).
Proof. intros G p1 p2 r Hl Hn x y. split; [exact (single_point_draws p1 p2 r Hl Hn)|exact (two_point_draws p1 p2 r Hl Hn)]. Qed.
Print Assumptions C126_cuts.

(** Shuffle: the number of genes kept is any number below the length, and every arrangement [q] of the positions decides with
    exactly one sequence of index draws which they are: those whose number in the arrangement is below the number drawn. *)
Theorem C126_shuffle :
  forall (n : nat) (q : list nat), q ≡ₚ seq 0 n ->
  exists ds, length ds = n - 1 /\ (forall k d, ds !! k = Some d -> d < n - k) /\
    forall (G : Type) (p1 p2 : list G) (r : rng), length p1 = n -> length p2 = n -> 0 < n ->
      (forall k d, ds !! k = Some d -> N.to_nat (r (S k) mod N.of_nat (n - k)) = d) ->
      exists c1 c2 r', shuffle_xo p1 p2 r = Ok ((c1, c2), r') /\ length c1 = n /\ length c2 = n /\
        forall l a, q !! l = Some a ->
          if a <? N.to_nat (r 0 mod N.of_nat n) then c1 !! l = p1 !! l /\ c2 !! l = p2 !! l else c1 !! l = p2 !! l /\ c2 !! l = p1 !! l.
Proof. exact shuffle_xo_draws. Qed.
Print Assumptions C126_shuffle.

(** OrderedCrossover and Pmx: the kept segment starts at any position alike and ends anywhere from there up to the end alike;
    it may be empty or reach the end. *)
Theorem C126_segments :
  forall (G : Type) `{EqDecision G} (p1 p2 : list G) (r : rng), NoDup p1 -> p1 ≡ₚ p2 -> 0 < length p1 ->
  let b := N.to_nat (r 0 mod N.of_nat (length p1)) in let e := b + N.to_nat (r 1 mod N.of_nat (length p1 + 1 - b)) in
  (exists r', ordered p1 p2 r = Ok ((order_child p1 p2 b e, order_child p2 p1 b e), r')) /\
  (forall fuel, length p1 <= fuel ->
     exists c1 c2 r', pmx fuel p1 p2 r = Ok ((c1, c2), r') /\ partially_mapped_child p1 p2 b e c1 /\ partially_mapped_child p2 p1 b e c2).
Proof.
  intros G D p1 p2 r Hn Hp Hl b e. split; [exact (ordered_draws p1 p2 r Hn Hp Hl)|]. intros fuel Hf. exact (pmx_draws fuel p1 p2 r Hn Hp Hl Hf).
Qed.
Print Assumptions C126_segments.

Example C126_nonvacuous :
  (exists r', two_point [1; 2; 3; 4] [5; 6; 7; 8] (rng_of [7; 1]%N) = Ok (([1; 6; 7; 4], [5; 2; 3; 8]), r')) /\
  (exists r', shuffle_xo [1; 2; 3] [5; 6; 7] (rng_of [1; 0; 1]%N) = Ok (([5; 6; 3], [1; 2; 7]), r')) /\
  (exists r', ordered [1; 2; 3; 4] [4; 3; 2; 1] (rng_of [1; 2]%N) = Ok (([4; 2; 3; 1], [1; 3; 2; 4]), r')).
Proof. split; [|split]; eexists; vm_compute; reflexivity. Qed.
