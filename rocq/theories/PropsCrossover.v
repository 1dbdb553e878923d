(** * Property theorems: crossover operators (C01 - C09) *)
From Verif Require Import CrossoverPermProofs CrossoverMultiProofs.
Open Scope nat_scope.

(** ** C01 *)
Theorem C01_recombination :
  forall (G : Type) (p1 p2 : list G), length p1 = length p2 -> forall r : rng,
  (0 < length p1 ->
    exists c1 c2 r', single_point p1 p2 r = Ok ((c1, c2), r') /\ recombination p1 p2 c1 c2) /\
  (0 < length p1 ->
    exists c1 c2 r', two_point p1 p2 r = Ok ((c1, c2), r') /\ recombination p1 p2 c1 c2) /\
  (forall k, 1 <= k <= length p1 ->
    exists c1 c2 r', multi_point k p1 p2 r = Ok ((c1, c2), r') /\ recombination p1 p2 c1 c2) /\
  (forall cut,
    exists c1 c2, fixed_point cut p1 p2 = Ok (c1, c2) /\ recombination p1 p2 c1 c2) /\
  (forall kind,
    exists c1 c2 r', uniform kind p1 p2 r = Ok ((c1, c2), r') /\ recombination p1 p2 c1 c2) /\
  (forall kind bias,
    exists c1 c2 r', uniform_parameterized kind bias p1 p2 r = Ok ((c1, c2), r') /\ recombination p1 p2 c1 c2) /\
  (0 < length p1 ->
    exists c1 c2 r', shuffle_xo p1 p2 r = Ok ((c1, c2), r') /\ recombination p1 p2 c1 c2).
Proof.
  exact (fun G p1 p2 Hl r =>
    conj (single_point_recomb p1 p2 r Hl)
   (conj (two_point_recomb p1 p2 r Hl)
   (conj (fun k Hk => multi_point_recomb k p1 p2 r Hl Hk)
   (conj (fun cut => fixed_point_recomb cut p1 p2 Hl)
   (conj (fun kind => uniform_recomb kind p1 p2 r Hl)
   (conj (fun kind bias => uniform_parameterized_recomb kind bias p1 p2 r Hl)
         (shuffle_recomb p1 p2 r Hl))))))).
Qed.
Print Assumptions C01_recombination.

Example C01_nonvacuous :
  length [1; 2; 3] = length [4; 5; 6] /\ 0 < length [1; 2; 3] /\
  (exists r', two_point [1; 2; 3] [4; 5; 6] (rng_of [1; 2]%N) = Ok (([1; 5; 3], [4; 2; 6]), r')).
Proof. split; [reflexivity|]. split; [cbn; lia|]. eexists. vm_compute. reflexivity. Qed.

(** ** C02 *)
Theorem C02_segment_structure :
  forall (G : Type) (p1 p2 : list G), length p1 = length p2 ->
  (forall r, 0 < length p1 -> exists cut r', cut < length p1 /\
     single_point p1 p2 r = Ok ((cut_once cut p1 p2, cut_once cut p2 p1), r')) /\
  (forall cut, fixed_point cut p1 p2 = Ok (cut_once cut p1 p2, cut_once cut p2 p1)) /\
  (forall r, 0 < length p1 -> exists a b r', a <= b < length p1 /\
     two_point p1 p2 r = Ok ((cut_twice a b p1 p2, cut_twice a b p2 p1), r')) /\
  (forall cut, cut < length p1 -> exists r r',
     single_point p1 p2 r = Ok ((cut_once cut p1 p2, cut_once cut p2 p1), r')) /\
  (forall a b, a <= b < length p1 -> exists r r',
     two_point p1 p2 r = Ok ((cut_twice a b p1 p2, cut_twice a b p2 p1), r')).
Proof. exact @segment_structure. Qed.
Print Assumptions C02_segment_structure.

Example C02_nonvacuous :
  cut_once 1 [1; 2; 3] [4; 5; 6] = [1; 5; 6] /\ cut_twice 1 2 [1; 2; 3] [4; 5; 6] = [1; 5; 3] /\
  fixed_point 2 [1; 2; 3] [4; 5; 6] = Ok ([1; 2; 6], [4; 5; 3]).
Proof. split_and!; vm_compute; reflexivity. Qed.

(** ** C03 *)
Theorem C03_multipoint_alternates_refuted :
  exists (k : nat) (p1 p2 : list nat) (r : rng) c1 c2 r',
    length p1 = length p2 /\ 1 <= k <= length p1 /\
    multi_point k p1 p2 r = Ok ((c1, c2), r') /\
    ~ exists cuts, NoDup cuts /\ length cuts = k /\ Forall (fun c => c < length p1) cuts /\
        alternates cuts p1 p2 c1.
Proof. exact multi_point_refutation. Qed.
Print Assumptions C03_multipoint_alternates_refuted.

(** What the code does, exactly: with sorted distinct cuts [cuts] (first one [c0]) the gene of child 1 at
    locus l comes from parent 1 iff l < c0 or c0 + (number of cuts <= l) - 1 is even. *)
Theorem C03_multipoint_actual :
  forall (G : Type) k (p1 p2 : list G) r, length p1 = length p2 -> 1 <= k <= length p1 ->
  exists cuts c0 c1 c2 r', multi_point k p1 p2 r = Ok ((c1, c2), r') /\
    StronglySorted (≤) cuts /\ NoDup cuts /\ length cuts = k /\ Forall (fun x => x < length p1) cuts /\
    head cuts = Some c0 /\
    (exists s r1, sample_indices (length p1) k r = Ok (s, r1) /\ cuts ≡ₚ s) /\
    follows (fun l => bool_decide (l < c0) || Nat.even (c0 + cuts_before cuts l - 1)) p1 p2 c1 c2.
Proof. exact @multi_point_structure. Qed.
Print Assumptions C03_multipoint_actual.

(** When the documented alternation holds: with an odd first cut [c0] the children alternate at all cuts; with an even one they alternate at all cuts but the
    first; and where the parents differ at the first cut, alternation at all cuts is possible for odd first cuts only. *)
Theorem C03_multipoint_alternates_iff_first_cut_odd :
  forall (G : Type) k (p1 p2 : list G) r, length p1 = length p2 -> 1 <= k <= length p1 ->
  exists c0 cuts c1 c2 r', multi_point k p1 p2 r = Ok ((c1, c2), r') /\
    StronglySorted (≤) (c0 :: cuts) /\ NoDup (c0 :: cuts) /\ length (c0 :: cuts) = k /\ Forall (fun x => x < length p1) (c0 :: cuts) /\
    (exists s r1, sample_indices (length p1) k r = Ok (s, r1) /\ c0 :: cuts ≡ₚ s) /\
    (Nat.odd c0 = true -> alternates (c0 :: cuts) p1 p2 c1 /\ alternates (c0 :: cuts) p2 p1 c2) /\
    (Nat.even c0 = true -> alternates cuts p1 p2 c1 /\ alternates cuts p2 p1 c2) /\
    ((exists a b, p1 !! c0 = Some a /\ p2 !! c0 = Some b /\ a <> b) -> alternates (c0 :: cuts) p1 p2 c1 -> Nat.odd c0 = true).
Proof. exact @multi_point_iff. Qed.
Print Assumptions C03_multipoint_alternates_iff_first_cut_odd.

(** Cuts {1, 3}: the code alternates as documented; cuts {2, 4}: it does not switch at 2. *)
Example C03_nonvacuous :
  multi_point_with 2 [1; 3] [0; 0; 0; 0; 0] [1; 1; 1; 1; 1] = Ok ([0; 1; 1; 0; 0], [1; 0; 0; 1; 1]) /\
  multi_point_with 2 [2; 4] [0; 0; 0; 0; 0] [1; 1; 1; 1; 1] = Ok ([0; 0; 0; 0; 1], [1; 1; 1; 1; 0]) /\
  exists c r', multi_point 2 [0; 0; 0; 0; 0] [1; 1; 1; 1; 1] (rng_of [1; 3; 0; 1]%N) = Ok (c, r').
Proof. split; [vm_compute; reflexivity|]. split; [vm_compute; reflexivity|]. eexists _, _. vm_compute. reflexivity. Qed.

(** ** C04 *)
Theorem C04_ordered_permutation :
  forall (G : Type) `{EqDecision G} (p1 p2 : list G) r, NoDup p1 -> p1 ≡ₚ p2 -> 0 < length p1 ->
  exists b e r', ordered p1 p2 r = Ok ((order_child p1 p2 b e, order_child p2 p1 b e), r') /\
    b < length p1 /\ b <= e <= length p1 /\
    order_child p1 p2 b e ≡ₚ p1 /\ order_child p2 p1 b e ≡ₚ p1 /\
    keeps_segment p1 (order_child p1 p2 b e) b e /\ keeps_segment p2 (order_child p2 p1 b e) b e.
Proof. exact @ordered_spec. Qed.
Print Assumptions C04_ordered_permutation.

(** The documentation's example: P1 = 2 [4 1 3] 5, P2 = 5 2 1 4 3 gives 5 4 1 3 2. *)
Example C04_nonvacuous :
  NoDup [2; 4; 1; 3; 5] /\ [2; 4; 1; 3; 5] ≡ₚ [5; 2; 1; 4; 3] /\
  order_child [2; 4; 1; 3; 5] [5; 2; 1; 4; 3] 1 4 = [5; 4; 1; 3; 2] /\
  exists c r', ordered [2; 4; 1; 3; 5] [5; 2; 1; 4; 3] (rng_of [1; 3]%N) = Ok (([5; 4; 1; 3; 2], c), r').
Proof.
  split; [apply (bool_decide_unpack _); vm_compute; exact I|].
  split; [apply (bool_decide_unpack _); vm_compute; exact I|].
  split; [vm_compute; reflexivity|]. eexists _, _. vm_compute. reflexivity.
Qed.

(** ** C05 *)
Theorem C05_pmx_permutation :
  forall (G : Type) `{EqDecision G} (fuel : nat) (p1 p2 : list G) r,
  NoDup p1 -> p1 ≡ₚ p2 -> 0 < length p1 -> length p1 <= fuel ->
  exists b e c1 c2 r', pmx fuel p1 p2 r = Ok ((c1, c2), r') /\
    b < length p1 /\ b <= e <= length p1 /\
    c1 ≡ₚ p1 /\ c2 ≡ₚ p1 /\ keeps_segment p1 c1 b e /\ keeps_segment p2 c2 b e /\
    (forall l g, ~ b <= l < e -> p2 !! l = Some g -> g ∉ take (e - b) (drop b p1) -> c1 !! l = Some g) /\
    (forall l g, ~ b <= l < e -> p1 !! l = Some g -> g ∉ take (e - b) (drop b p2) -> c2 !! l = Some g) /\
    partially_mapped_child p1 p2 b e c1 /\ partially_mapped_child p2 p1 b e c2.
Proof. exact @pmx_spec. Qed.
Print Assumptions C05_pmx_permutation.

(** The documentation's example. *)
Example C05_nonvacuous :
  NoDup [8; 4; 7; 3; 6; 2; 5; 1; 9; 0] /\ [8; 4; 7; 3; 6; 2; 5; 1; 9; 0] ≡ₚ [0; 1; 2; 3; 4; 5; 6; 7; 8; 9] /\
  pmx_child 10 [8; 4; 7; 3; 6; 2; 5; 1; 9; 0] [0; 1; 2; 3; 4; 5; 6; 7; 8; 9] 3 8
    = Ok [0; 7; 4; 3; 6; 2; 5; 1; 8; 9] /\
  mapped [8; 4; 7; 3; 6; 2; 5; 1; 9; 0] [0; 1; 2; 3; 4; 5; 6; 7; 8; 9] 3 8 2 4.
Proof.
  split; [apply (bool_decide_unpack _); vm_compute; exact I|].
  split; [apply (bool_decide_unpack _); vm_compute; exact I|]. split; [vm_compute; reflexivity|].
  eapply (mapped_by _ _ 3 8 5); [lia|reflexivity|reflexivity|]. eapply (mapped_by _ _ 3 8 6); [lia|reflexivity|reflexivity|].
  eapply (mapped_by _ _ 3 8 4); [lia|reflexivity|reflexivity|]. apply mapped_free. apply (bool_decide_unpack _). vm_compute. exact I.
Qed.

(** ** C06 *)
(** Not even parents that are rearrangements of one another are enough when a gene repeats: on
    [1;0;0] and [0;1;0] with substring 1..3 the repair loop never ends, whatever the fuel. *)
Theorem C06_pmx_returns_or_panics_refuted :
  exists (p1 p2 : list nat) (r : rng), p1 ≡ₚ p2 /\ forall fuel, pmx fuel p1 p2 r = Diverge.
Proof. exact pmx_refutation. Qed.
Print Assumptions C06_pmx_returns_or_panics_refuted.

(** ** C07 *)
Theorem C07_ppx_precedence :
  forall (G : Type) `{EqDecision G} (p1 p2 : list G) r, NoDup p1 -> p1 ≡ₚ p2 ->
  exists c1 c2 mask r', ppx p1 p2 r = Ok ((c1, c2), r') /\ c1 ≡ₚ p1 /\ c2 ≡ₚ p1 /\
   (forall x y, before p1 x y -> before p2 x y -> before c1 x y /\ before c2 x y) /\
   repeatM (length p1) gen_bool r = (mask, r') /\ c1 = taking_turns mask p1 p2 /\ c2 = taking_turns mask p2 p1.
Proof. exact @ppx_spec. Qed.
Print Assumptions C07_ppx_precedence.

Example C07_nonvacuous :
  NoDup [2; 4; 1; 3; 5] /\ [2; 4; 1; 3; 5] ≡ₚ [5; 2; 1; 4; 3] /\
  before [2; 4; 1; 3; 5] 2 3 /\ before [5; 2; 1; 4; 3] 2 3 /\
  ppx_child [2; 4; 1; 3; 5] [5; 2; 1; 4; 3] [true; true; false; true; false] = Ok [2; 4; 5; 1; 3] /\
  taking_turns [true; true; false; true; false] [2; 4; 1; 3; 5] [5; 2; 1; 4; 3] = [2; 4; 5; 1; 3].
Proof.
  split; [apply (bool_decide_unpack _); vm_compute; exact I|].
  split; [apply (bool_decide_unpack _); vm_compute; exact I|].
  split; [exists 0, 3; vm_compute; auto|]. split; [exists 1, 4; split; [lia|vm_compute; auto]|].
  split; vm_compute; reflexivity.
Qed.

(** ** C08 *)
Theorem C08_apply_pairs_consecutively :
  forall (I S : Type) (single : I -> I -> S -> outcome ((I * I) * S)) (pool : list I) (s : S),
  (Nat.odd (length pool) = true -> crossover_apply single pool s = Panic) /\
  (forall out s', crossover_apply single pool s = Ok (out, s') -> pairwise_results single Ok pool s out s') /\
  (forall P : I -> Prop, Forall P pool -> Nat.even (length pool) = true ->
    (forall a b s, P a -> P b -> exists c d s', single a b s = Ok ((c, d), s')) ->
    exists out s', crossover_apply single pool s = Ok (out, s')).
Proof.
  exact (fun I S single pool s => conj (crossover_apply_odd single pool s)
    (conj (crossover_apply_pairs single pool s) (fun P => crossover_apply_ok single P pool s))).
Qed.
Print Assumptions C08_apply_pairs_consecutively.

(** The fitness the children carry: f64::MIN until they are evaluated, except that FixedPoint's children keep the
    fitness of the parent at their position. *)
Theorem C08_children_fitness :
  (forall (G : Type) (op : list G -> list G -> rng -> outcome ((list G * list G) * rng)) (pool out : list (individual G)) (r r' : rng),
    crossover_apply (lift_single op) pool r = Ok (out, r') -> Forall (fun c => fitness c = fmin) out) /\
  (forall (G : Type) (cut : nat) (pool out : list (individual G)),
    crossover_apply (fixed_single cut) pool tt = Ok (out, tt) -> map fitness out = map fitness pool).
Proof. exact (conj (@lift_children_fitness) (@fixed_children_fitness)). Qed.
Print Assumptions C08_children_fitness.

Example C08_nonvacuous :
  exists s', crossover_apply (lift_single single_point)
    [Ind [1; 2; 3] f0; Ind [4; 5; 6] f0; Ind [7; 8; 9] f0; Ind [10; 11; 12] f0] (rng_of [1; 2]%N)
  = Ok ([Ind [1; 5; 6] fmin; Ind [4; 2; 3] fmin; Ind [7; 8; 12] fmin; Ind [10; 11; 9] fmin], s').
Proof. eexists. vm_compute. reflexivity. Qed.

(** ** C09 *)
(** Independence is refuted in the strongest form: with a value-type RNG every pair of every pool of
    equal-length chromosomes is recombined with one and the same mask, and the operator's RNG never advances. *)
Theorem C09_uniform_masks_vary_refuted :
  forall (G : Type) (r : rng), exists mask : nat -> bool,
  forall n (pool : list (individual G)),
  Nat.even (length pool) = true -> Forall (fun i => length (chromosome i) = n) pool ->
  exists out, crossover_apply (lift_single (uniform ValueRng)) pool r = Ok (out, r) /\
   forall i a b c d, pool !! (2 * i) = Some a -> pool !! (2 * i + 1) = Some b ->
     out !! (2 * i) = Some c -> out !! (2 * i + 1) = Some d ->
     follows mask (chromosome a) (chromosome b) (chromosome c) (chromosome d).
Proof. exact uniform_one_mask_forever. Qed.
Print Assumptions C09_uniform_masks_vary_refuted.

Theorem C09_uniform_parameterized_state_refuted :
  forall (G : Type) (bias : f64) (r : rng), exists mask : nat -> bool,
  forall (p1 p2 : list G), length p1 = length p2 ->
  exists c1 c2, uniform_parameterized ValueRng bias p1 p2 r = Ok ((c1, c2), r) /\ follows mask p1 p2 c1 c2.
Proof. exact uniform_p_one_mask_forever. Qed.
Print Assumptions C09_uniform_parameterized_state_refuted.

(** With a shared RNG (ThreadRng) consecutive masks can differ. *)
Example C09_shared_rng_differs : exists r', 
  crossover_apply (lift_single (uniform SharedRng))
    [Ind [1; 2] f0; Ind [4; 5] f0; Ind [1; 2] f0; Ind [4; 5] f0] (rng_of [0; 4503599627370495; 4503599627370495; 0]%N)
  = Ok ([Ind [4; 2] fmin; Ind [1; 5] fmin; Ind [1; 5] fmin; Ind [4; 2] fmin], r').
Proof. eexists. vm_compute. reflexivity. Qed.

(** UniformParameterized with bias >= 1 copies the parents ("bias is the probability of a 1"). *)
Theorem C09_bias_one_copies :
  forall (G : Type) kind bias (p1 p2 : list G) r, length p1 = length p2 -> fle f1 bias = true ->
  exists r', uniform_parameterized kind bias p1 p2 r = Ok ((p1, p2), r').
Proof. exact @uniform_p_bias1. Qed.
Print Assumptions C09_bias_one_copies.
