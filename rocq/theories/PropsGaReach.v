(** * Property theorems: every history of populations is possible (C137) *)
From Verif Require Import GaReachProofs GaReachPresetProofs PresetSpec BuilderModel BuilderSpec GaSpec GaAssembleModel GaAssembleSpec GaAssembleRunProofs GaFitSelSpec GaFitSelProofs MutReachSpec F64R.
Open Scope nat_scope.

(** ** C137 *)
(** Bit strings, FlipBit and BothParents: whatever the draws of the generator, of the selection and of the crossover, there
    are draws of the mutation with which the populations after the initial one are any given ones. *)
Theorem C137_bit_strings_any_future :
  forall psize glimit duration fit dim rate sel size xo ck m0 g rs rx,
  order_based xo = false -> cuts_fit xo dim -> 0 < dim -> 0 < psize -> Nat.even psize = true -> (forall m, size m = psize) ->
  dependable_on sel psize fit (fun ch => length ch = dim) -> flt f0 rate = true -> fle rate largest_draw = true ->
  (forall k, (c_end ck k < duration)%N) ->
  exists P0, forall future, length future = glimit -> Forall (fun P => length P = psize /\ Forall (fun ch => length ch = dim) P) future ->
  exists rm rt evs b m s',
    run (assemble psize glimit duration fit (gen_bits dim) sel size xo (flip_bit rate) ReplBothParents) ck m0 (Streams g rs rx rm rt) = Ok (evs, b, m, s') /\
    populations evs = map (map (fun ch => Ind ch (fit ch))) (P0 :: future).
Proof.
  intros psize glimit duration fit dim rate sel size xo ck m0 g rs rx Ho Hc Hd Hp He Hs Hsel H0 H1 Hck.
  destruct (gen_bits_spec dim psize g Hd) as (raw & g' & Eg & _ & _). exists (map chromosome raw). intros future Hlf HF.
  exact (bits_future psize glimit duration fit dim rate sel size xo Ho Hc Hd Hp He Hs Hsel H0 H1 ck m0 g rs rx raw g' future Hck Eg Hlf HF).
Qed.
Print Assumptions C137_bit_strings_any_future.
(** The initial population can be any too, depending on the draws of the generator. *)
Theorem C137_bit_strings_any_history :
  forall psize glimit duration fit dim rate sel size xo ck m0 rs rx P0 future,
  order_based xo = false -> cuts_fit xo dim -> 0 < dim -> 0 < psize -> Nat.even psize = true -> (forall m, size m = psize) ->
  dependable_on sel psize fit (fun ch => length ch = dim) -> flt f0 rate = true -> fle rate largest_draw = true ->
  (forall k, (c_end ck k < duration)%N) -> length future = glimit ->
  Forall (fun P => length P = psize /\ Forall (fun ch => length ch = dim) P) (P0 :: future) ->
  exists g rm rt evs b m s',
    run (assemble psize glimit duration fit (gen_bits dim) sel size xo (flip_bit rate) ReplBothParents) ck m0 (Streams g rs rx rm rt) = Ok (evs, b, m, s') /\
    populations evs = map (map (fun ch => Ind ch (fit ch))) (P0 :: future).
Proof. intros psize glimit duration fit dim rate sel size xo ck m0 rs rx P0 future Ho Hc Hd Hp He Hs Hsel H0 H1. apply bits_history; assumption. Qed.
Print Assumptions C137_bit_strings_any_history.
(** Permutations, with Interchange. *)
Theorem C137_permutations_any_future :
  forall (G : Type) `{EqDecision G} psize glimit duration (fit : list G -> f64) genes rate sel size xo ck m0 g rs rx,
  NoDup genes -> genes <> [] -> order_based xo = true -> enough_fuel xo (length genes) -> 0 < psize -> Nat.even psize = true -> (forall m, size m = psize) ->
  dependable_on sel psize fit (fun ch => ch ≡ₚ genes) -> flt f0 rate = true -> (forall k, (c_end ck k < duration)%N) ->
  exists P0, forall future, length future = glimit -> Forall (fun P => length P = psize /\ Forall (fun ch => ch ≡ₚ genes) P) future ->
  exists rm rt evs b m s',
    run (assemble psize glimit duration fit (gen_permutations genes) sel size xo (mutation_fn (MutInterchange rate)) ReplBothParents) ck m0 (Streams g rs rx rm rt) = Ok (evs, b, m, s') /\
    populations evs = map (map (fun ch => Ind ch (fit ch))) (P0 :: future).
Proof.
  intros G EG psize glimit duration fit genes rate sel size xo ck m0 g rs rx Hnd Hne Ho Hf Hp He Hs Hsel H0 Hck.
  destruct (gen_permutations_spec genes psize g) as (raw & g' & Eg & _ & _). exists (map chromosome raw). intros future Hlf HF.
  exact (perms_future psize glimit duration fit genes rate sel size xo Hnd Hne Ho Hf Hp He Hs Hsel H0 ck m0 g rs rx raw g' future Hck Eg Hlf HF).
Qed.
Print Assumptions C137_permutations_any_future.
Theorem C137_permutations_any_history :
  forall (G : Type) `{EqDecision G} psize glimit duration (fit : list G -> f64) genes rate sel size xo ck m0 rs rx P0 future,
  NoDup genes -> genes <> [] -> order_based xo = true -> enough_fuel xo (length genes) -> 0 < psize -> Nat.even psize = true -> (forall m, size m = psize) ->
  dependable_on sel psize fit (fun ch => ch ≡ₚ genes) -> flt f0 rate = true -> (forall k, (c_end ck k < duration)%N) -> length future = glimit ->
  Forall (fun P => length P = psize /\ Forall (fun ch => ch ≡ₚ genes) P) (P0 :: future) ->
  exists g rm rt evs b m s',
    run (assemble psize glimit duration fit (gen_permutations genes) sel size xo (mutation_fn (MutInterchange rate)) ReplBothParents) ck m0 (Streams g rs rx rm rt) = Ok (evs, b, m, s') /\
    populations evs = map (map (fun ch => Ind ch (fit ch))) (P0 :: future).
Proof. intros G EG psize glimit duration fit genes rate sel size xo ck m0 rs rx P0 future Hnd Hne Ho Hf Hp He Hs Hsel H0. apply perms_history; assumption. Qed.
Print Assumptions C137_permutations_any_history.
(** The solver that Builder::with_bsc() makes, all operators drawing from one stream. *)
Theorem C137_default_bit_string_solver :
  forall calls dim c cfg P0 future ck m0,
  bitstring_builder calls = Ok (inl c) -> bitstring_solver c = Some cfg -> last_set p_dims calls = Some dim ->
  (forall ch, length ch = N.to_nat dim -> is_nan (gc_fitness c ch) = false) -> (0 < gp_size (gc_params c) <= 2 ^ 53)%N -> N.even (gp_size (gc_params c)) = true ->
  (forall k, (c_end ck k < gp_duration (gc_params c))%N) -> length future = N.to_nat (gp_limit (gc_params c)) ->
  Forall (fun P => length P = N.to_nat (gp_size (gc_params c)) /\ Forall (fun ch => length ch = N.to_nat dim) P) (P0 :: future) ->
  exists s evs b m s', run cfg ck m0 s = Ok (evs, b, m, s') /\ populations evs = map (map (fun ch => Ind ch (gc_fitness c ch))) (P0 :: future).
Proof. exact bitstring_history. Qed.
Print Assumptions C137_default_bit_string_solver.
(** So nothing can be promised of a result without the draws: every bit string can be the result of a run ... *)
Theorem C137_any_result :
  forall psize glimit duration fit dim rate sel size xo ck m0 rs rx ch,
  order_based xo = false -> cuts_fit xo dim -> 0 < psize -> Nat.even psize = true -> (forall m, size m = psize) ->
  dependable_on sel psize fit (fun ch => length ch = dim) -> flt f0 rate = true -> fle rate largest_draw = true ->
  (forall k, (c_end ck k < duration)%N) -> 0 < dim -> length ch = dim ->
  exists g rm rt evs m s',
    run (assemble psize glimit duration fit (gen_bits dim) sel size xo (flip_bit rate) ReplBothParents) ck m0 (Streams g rs rx rm rt) = Ok (evs, Ind ch (fit ch), m, s').
Proof.
  intros psize glimit duration fit dim rate sel size xo ck m0 rs rx ch Ho Hc Hp He Hs Hsel H0 H1 Hck Hd Hl.
  destruct (C137_bit_strings_any_history psize glimit duration fit dim rate sel size xo ck m0 rs rx (replicate psize ch) (replicate glimit (replicate psize ch))) as (g & rm & rt & evs & b & m & s' & E & V); auto.
  { apply replicate_length. }
  { change (replicate psize ch :: replicate glimit (replicate psize ch)) with (replicate (S glimit) (replicate psize ch)). apply Forall_replicate. split; [apply replicate_length|apply Forall_replicate; exact Hl]. }
  destruct (result_of_history _ _ _ _ _ _ _ _ fit _ E V) as [(P & c & HP & Hc2 & ->) _].
  { intros P c HP Hc2. apply (dependable_on_nan _ _ _ _ Hsel). change (replicate psize ch :: replicate glimit (replicate psize ch)) with (replicate (S glimit) (replicate psize ch)) in HP. apply elem_of_replicate in HP as [-> _]. apply elem_of_replicate in Hc2 as [-> _]. exact Hl. }
  change (replicate psize ch :: replicate glimit (replicate psize ch)) with (replicate (S glimit) (replicate psize ch)) in HP. apply elem_of_replicate in HP as [-> _]. apply elem_of_replicate in Hc2 as [-> _].
  exists g, rm, rt, evs, m, s'. exact E.
Qed.
Print Assumptions C137_any_result.
(** ... and nothing is out of reach: whatever the initial population, the selection and the crossover, one generation is enough for a
    result at least as good as any given string, if mutation has the right draws. *)
Theorem C137_any_fitness_in_one_generation :
  forall psize glimit duration fit dim rate sel size xo ck m0 g rs rx target,
  order_based xo = false -> cuts_fit xo dim -> 0 < psize -> Nat.even psize = true -> (forall m, size m = psize) ->
  dependable_on sel psize fit (fun ch => length ch = dim) -> flt f0 rate = true -> fle rate largest_draw = true ->
  (forall k, (c_end ck k < duration)%N) -> 0 < dim -> length target = dim -> 0 < glimit ->
  exists rm rt evs b m s',
    run (assemble psize glimit duration fit (gen_bits dim) sel size xo (flip_bit rate) ReplBothParents) ck m0 (Streams g rs rx rm rt) = Ok (evs, b, m, s') /\
    fle (fitness b) (fit target) = true.
Proof.
  intros psize glimit duration fit dim rate sel size xo ck m0 g rs rx t Ho Hc Hp He Hs Hsel H0 H1 Hck Hd Hl Hg.
  destruct (gen_bits_spec dim psize g Hd) as (raw & g' & Eg & Lr & Kr).
  destruct (bits_future psize glimit duration fit dim rate sel size xo Ho Hc Hd Hp He Hs Hsel H0 H1 ck m0 g rs rx raw g' (replicate glimit (replicate psize t)) Hck Eg) as (rm & rt & evs & b & m & s' & E & V).
  { apply replicate_length. }
  { apply Forall_replicate. split; [apply replicate_length|apply Forall_replicate; exact Hl]. }
  exists rm, rt, evs, b, m, s'. split; [exact E|].
  apply (proj2 (result_of_history _ _ _ _ _ _ _ _ fit _ E V ltac:(
    intros P c HP Hc2; apply (dependable_on_nan _ _ _ _ Hsel); apply elem_of_cons in HP as [->|HP];
      [apply elem_of_list_fmap in Hc2 as (x & -> & Hx); rewrite Forall_forall in Kr; exact (Kr x Hx)
      |apply elem_of_replicate in HP as [-> _]; apply elem_of_replicate in Hc2 as [-> _]; exact Hl])) (replicate psize t) t).
  - right. apply elem_of_replicate. split; [reflexivity|lia].
  - apply elem_of_replicate. split; [reflexivity|lia].
Qed.
Print Assumptions C137_any_fitness_in_one_generation.

(** A case: two individuals of two bits; the initial population is good, the next one bad, the one after good again. *)
Definition count_true (ch : list bool) : f64 := f_of_nat (length (List.filter (fun b => b) ch)).
Example C137_nonvacuous :
  dependable_on SelRank 2 count_true (fun ch => length ch = 2) /\ flt f0 fhalf = true /\ fle fhalf largest_draw = true /\
  (exists g rm rt evs b m s',
    run (assemble 2 2 1 count_true (gen_bits 2) SelRank (fun _ => 2) XoSinglePoint (flip_bit fhalf) ReplBothParents) (Clock 0 (fun _ => 0%N) (fun _ => 0%N) 0)
      (Metrics 0 2 None) (Streams g (fun _ => 0%N) (fun _ => 0%N) rm rt) = Ok (evs, b, m, s') /\
    populations evs = map (map (fun ch => Ind ch (count_true ch))) [[[false; false]; [true; false]]; [[true; true]; [true; true]]; [[false; false]; [false; true]]]).
Proof.
  assert (D : dependable_on SelRank 2 count_true (fun ch => length ch = 2)).
  { split; [exact I|]. intros ch Hc. destruct ch as [|a [|b [|]]]; try discriminate Hc. destruct a, b; reflexivity. }
  split; [exact D|]. split; [reflexivity|]. split; [reflexivity|].
  apply (C137_bit_strings_any_history 2 2 1 count_true 2 fhalf SelRank (fun _ => 2) XoSinglePoint); try reflexivity; try lia; try exact I; try exact D.
  repeat (apply Forall_cons; split); try apply Forall_nil; try exact I; split; try reflexivity; repeat (apply Forall_cons; split); try apply Forall_nil; try exact I; reflexivity.
Qed.
