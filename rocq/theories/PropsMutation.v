(** * Property theorems: mutation operators (C10 - C14) *)
From Verif Require Import MutationReproProofs MutationProofs.
Open Scope nat_scope.

(** ** C10 *)
Theorem C10_permuting_mutations :
  forall (G : Type) (rate : f64) (ch : list G) (r t : rng),
  (* Identity *)
  identity_mut ch r t = Ok (ch, r, t) /\
  (* Interchange: panics exactly on the empty chromosome *)
  (ch = [] -> interchange rate ch r t = Panic) /\
  (ch <> [] -> exists ch' r' t', interchange rate ch r t = Ok (ch', r', t') /\ ch' ≡ₚ ch) /\
  (ch <> [] -> fle rate f0 = true -> exists r', interchange rate ch r t = Ok (ch, r', t)) /\
  (* Reversing: never panics *)
  (exists ch' r', reversing rate ch r t = Ok (ch', r', t) /\ ch' ≡ₚ ch) /\
  (fle rate f0 = true -> exists r', reversing rate ch r t = Ok (ch, r', t)) /\
  (* Inversion *)
  (ch <> [] -> exists ch' r', inversion rate ch r t = Ok (ch', r', t) /\ ch' ≡ₚ ch).
Proof.
  exact (fun G rate ch r t =>
    conj eq_refl (conj (fun e => eq_ind_r (fun c => interchange rate c r t = Panic) (interchange_empty rate r t) e)
   (conj (fun H => interchange_perm rate ch r t (proj2 (length_pos_ne ch) H))
   (conj (fun H => interchange_rate0 rate ch r t (proj2 (length_pos_ne ch) H))
   (conj (reversing_perm rate ch r t)
   (conj (reversing_rate0 rate ch r t)
         (fun H => inversion_perm rate ch r t (proj2 (length_pos_ne ch) H)))))))).
Qed.
Print Assumptions C10_permuting_mutations.

(** A draw of 0 is below rate 1/2, so locus 0 is exchanged with the locus drawn from the thread RNG. *)
Example C10_nonvacuous :
  exists r' t', interchange fhalf [1; 2; 3] (rng_of [0; 4503599627370495; 4503599627370495]%N) (rng_of [2]%N)
    = Ok ([3; 2; 1], r', t').
Proof. eexists _, _. vm_compute. reflexivity. Qed.

(** Whatever the operator does to the chromosome, the individual keeps its fitness (mutation is followed by re-evaluation, not by a reset). *)
Theorem C10_mutation_keeps_fitness :
  forall (G : Type) (op : list G -> rng -> rng -> outcome (list G * rng * rng)) (a a' : individual G) (r t r' t' : rng),
  mutate_individual op a r t = Ok (a', r', t') -> fitness a' = fitness a /\ op (chromosome a) r t = Ok (chromosome a', r', t').
Proof.
  intros G op a a' r t r' t' H. unfold mutate_individual in H. destruct (op (chromosome a) r t) as [[[ch r1] t1]| |]; cbn [mbind outcome_bind] in H; try discriminate H.
  injection H as <- <- <-. auto.
Qed.
Print Assumptions C10_mutation_keeps_fitness.

(** ** C11 *)
Theorem C11_flipbit :
  forall (rate : f64) (ch : list bool) (r t : rng),
  (exists ch' r', flip_bit rate ch r t = Ok (ch', r', t) /\ length ch' = length ch /\
     forall i b, ch !! i = Some b -> ch' !! i = Some (if flt (unit_draw r i) rate then negb b else b)) /\
  (fle rate f0 = true -> exists r', flip_bit rate ch r t = Ok (ch, r', t)) /\
  (fle f1 rate = true -> exists r', flip_bit rate ch r t = Ok (negb <$> ch, r', t)).
Proof.
  exact (fun rate ch r t => conj (flip_bit_spec rate ch r t)
    (conj (flip_bit_rate0 rate ch r t) (flip_bit_rate1 rate ch r t))).
Qed.
Print Assumptions C11_flipbit.

Example C11_nonvacuous :
  fle f0 f0 = true /\ fle f1 f1 = true /\
  exists r', flip_bit fhalf [true; true; false] (rng_of [0; 4503599627370495; 1]%N) (rng_of [])
    = Ok ([false; true; true], r', rng_of []).
Proof. split; [reflexivity|]. split; [reflexivity|]. eexists. vm_compute. reflexivity. Qed.

(** ** C12 *)
Theorem C12_inversion_segment :
  forall (G : Type) (rate : f64) (ch : list G) (r t : rng),
  (flt rate (gen_f64 r).1 = true -> inversion rate ch r t = Ok (ch, rng_tail r, t)) /\
  (flt rate (gen_f64 r).1 = false -> ch <> [] ->
    exists from to r', from <= to < length ch /\ inversion rate ch r t = Ok (reverse_segment from to ch, r', t)) /\
  (flt rate (gen_f64 r).1 = false -> ch = [] -> inversion rate ch r t = Panic) /\
  (forall from to, fle f0 rate = true -> from <= to < length ch ->
    exists r r', inversion rate ch r t = Ok (reverse_segment from to ch, r', t)).
Proof.
  exact (fun G rate ch r t => conj (inversion_quiet rate ch r t)
   (conj (fun H H0 => inversion_fires rate ch r t H (proj2 (length_pos_ne ch) H0))
   (conj (fun H e => eq_ind_r (fun c => inversion rate c r t = Panic) (inversion_fires_empty rate r t H) e)
         (fun from to => inversion_surj rate ch t from to)))).
Qed.
Print Assumptions C12_inversion_segment.

Example C12_nonvacuous :
  reverse_segment 1 3 [10; 20; 30; 40; 50] = [10; 40; 30; 20; 50] /\
  exists r', inversion fhalf [10; 20; 30; 40; 50] (rng_of [0; 1; 2]%N) (rng_of [])
    = Ok ([10; 40; 30; 20; 50], r', rng_of []).
Proof. split; [reflexivity|]. eexists. vm_compute. reflexivity. Qed.

(** ** C13 *)
Theorem C13_reversing_adjacent_swaps :
  forall (G : Type) (rate : f64) (x : G) (rest : list G) (r t : rng),
  (exists r', reversing rate (x :: rest) r t =
    Ok (sweep (fun k => flt (unit_draw r k) rate) 0 x rest, r', t)) /\
  (fle f1 rate = true -> exists r', reversing rate (x :: rest) r t = Ok (rest ++ [x], r', t)) /\
  reversing rate ([] : list G) r t = Ok ([], r, t).
Proof.
  exact (fun G rate x rest r t => conj (reversing_sweep rate x rest r t)
    (conj (reversing_rotates rate x rest r t) eq_refl)).
Qed.
Print Assumptions C13_reversing_adjacent_swaps.

Example C13_nonvacuous :
  (exists r', reversing f1 [1; 2; 3; 4] (rng_of [5; 6; 7]%N) (rng_of []) = Ok ([2; 3; 4; 1], r', rng_of [])) /\
  (exists r', reversing fhalf [1; 2; 3; 4] (rng_of [0; 4503599627370495; 0]%N) (rng_of []) = Ok ([2; 1; 4; 3], r', rng_of [])).
Proof. split; eexists; vm_compute; reflexivity. Qed.

(** ** C14 *)
(** FlipBit, Identity, Reversing, Inversion: the result and the operator's own RNG after the call do not depend on the ambient thread RNG. *)
Theorem C14_seeded_mutation_reproducible :
  forall (r t1 t2 : rng) (rate : f64),
  (forall ch, own_part (flip_bit rate ch r t1) = own_part (flip_bit rate ch r t2)) /\
  (forall (G : Type) (ch : list G),
     own_part (identity_mut ch r t1) = own_part (identity_mut ch r t2) /\
     own_part (reversing rate ch r t1) = own_part (reversing rate ch r t2) /\
     own_part (inversion rate ch r t1) = own_part (inversion rate ch r t2)).
Proof.
  exact (fun r t1 t2 rate => conj (fun ch => flip_bit_own rate ch r t1 t2)
   (fun G ch => conj eq_refl (conj (reversing_own rate ch r t1 t2) (inversion_own rate ch r t1 t2)))).
Qed.
Print Assumptions C14_seeded_mutation_reproducible.

Theorem C14_interchange_reproducible_refuted :
  exists (rate : f64) (ch : list nat) (r t1 t2 : rng) ch1 ch2 r1 r2 t1' t2',
    fle f0 rate = true /\ fle rate f1 = true /\
    interchange rate ch r t1 = Ok (ch1, r1, t1') /\ interchange rate ch r t2 = Ok (ch2, r2, t2') /\ ch1 <> ch2.
Proof. exact interchange_irreproducible. Qed.
Print Assumptions C14_interchange_reproducible_refuted.
(** Interchange is reproducible only when it does nothing: as soon as one of its own draws is below the rate, two states of the thread RNG give different
    results, for every chromosome of at least two distinct genes. *)
Theorem C14_interchange_never_reproducible :
  forall (G : Type) rate (ch : list G) r, 2 <= length ch -> NoDup ch ->
  ((exists k, k < length ch /\ flt (unit_draw r k) rate = true) ->
   exists t1 t2 ch1 ch2 r1 r2 t1' t2', interchange rate ch r t1 = Ok (ch1, r1, t1') /\ interchange rate ch r t2 = Ok (ch2, r2, t2') /\ ch1 <> ch2) /\
  ((forall k, k < length ch -> flt (unit_draw r k) rate = false) -> forall t, exists r', interchange rate ch r t = Ok (ch, r', t)).
Proof.
  intros G rate ch r H Nd. split; [exact (interchange_never_reproducible rate ch r H Nd)|]. intros F t. apply interchange_idle; [lia|exact F].
Qed.
Print Assumptions C14_interchange_never_reproducible.
(** Its own RNG advances by one draw per gene, whatever the thread RNG *)
Theorem C14_interchange_own_rng :
  forall (G : Type) rate (ch : list G) r t ch' r' t', interchange rate ch r t = Ok (ch', r', t') -> r' = rng_skip (length ch) r.
Proof. exact @interchange_own_rng. Qed.
Print Assumptions C14_interchange_own_rng.
