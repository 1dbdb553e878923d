(** * Property theorems: which selections are possible (C138) *)
From Verif Require Import SelectReachProofs SelectionModel SelectionSpec SelectionRProofs F64R.
From Coq Require Import Reals.
From Flocq Require Import Core.
Open Scope nat_scope.

(** ** C138 *)
(** A list of positions is what Random may return exactly if it has the right length and each position exists; for UniqueRandom it must
    have no repetition. *)
Theorem C138_random_and_unique_random :
  forall (G : Type) (pop : list (individual G)) (kind : rng_kind) (count : nat) (sel : list nat),
  ((exists r r', random_sel kind count pop r = Ok (sel, r')) <-> pop <> [] /\ length sel = count /\ Forall (fun i => i < length pop) sel) /\
  ((exists r r', unique_random count pop r = Ok (sel, r')) <-> length sel = count /\ Forall (fun i => i < length pop) sel /\ NoDup sel).
Proof. intros G pop kind count sel. split; [exact (random_support kind count pop sel)|exact (unique_support count pop sel)]. Qed.
Print Assumptions C138_random_and_unique_random.
(** Rank and RankR exclude nothing, whatever the fitness values (NaN included): an individual can be compared with itself. *)
Theorem C138_rank_excludes_nothing :
  forall (G : Type) (pop : list (individual G)) (rr : f64) (count : nat) (sel : list nat),
  ((exists r r', rank count pop r = Ok (sel, r')) <-> length sel = count /\ Forall (fun i => i < length pop) sel) /\
  (fle f0 rr = true -> fle rr f1 = true ->
   ((exists r r', rank_r rr count pop r = Ok (sel, r')) <-> pop <> [] /\ length sel = count /\ Forall (fun i => i < length pop) sel)).
Proof. intros G pop rr count sel. split; [exact (rank_support count pop sel)|intros R0 R1; exact (rank_r_support rr count pop sel R0 R1)]. Qed.
Print Assumptions C138_rank_excludes_nothing.
(** Tournament: with groups of k = max(1, floor(factor * n)), the possible results are the lists of members that at least k members of the
    population (themselves included) do not beat. *)
Theorem C138_tournament :
  forall (G : Type) (factor : f64) (count : nat) (pop : list (individual G)) (sel : list nat),
  fvalid factor -> unit_factor factor -> pop <> [] -> (Z.of_nat (length pop) <= 2 ^ 53)%Z -> comparable pop ->
  ((exists r r', tournament factor count pop r = Ok (sel, r')) <->
   length sel = count /\ Forall (fun s => exists w, pop !! s = Some w /\
     (Z.max (Zfloor (rnd (INR (length pop) * f2r factor))) 1 <= Z.of_nat (length (List.filter (fun p => fle (fitness p) (fitness w)) pop)))%Z) sel).
Proof. intros G factor count pop sel. exact (tournament_support factor count pop sel). Qed.
Print Assumptions C138_tournament.
(** An individual of fitness zero (of either sign) is never selected by RouletteWheel or StochasticUniversalSampling, whatever the others, unless
    it is the first of the population ... *)
Theorem C138_zero_fitness_never_selected :
  forall (G : Type) (pop : list (individual G)) (count fuel : nat) (r r' : rng) (sel : list nat) (s : nat) (p : individual G),
  roulette_wheel count pop r = Ok (sel, r') \/ sus fuel count pop r = Ok (sel, r') ->
  pop !! s = Some p -> feq (fitness p) f0 = true -> 0 < s -> s ∉ sel.
Proof.
  intros G pop count fuel r r' sel s p [E|E] Hp Hz H0 Hs.
  - rewrite (roulette_zero count pop r sel r' s p E Hs Hp Hz) in H0. inversion H0.
  - rewrite (sus_zero fuel count pop r sel r' s p E Hs Hp Hz) in H0. inversion H0.
Qed.
Print Assumptions C138_zero_fitness_never_selected.
(** ... the first one is selected by the wheel whenever the draw is 0. *)
Theorem C138_first_with_zero_fitness_possible :
  forall (G : Type) (pop : list (individual G)) (count : nat) (p : individual G),
  ffinite (total_fitness (p :: pop)) = true -> feq (fitness p) f0 = true ->
  exists r r', roulette_wheel count (p :: pop) r = Ok (replicate count 0, r').
Proof. intros G pop count p F Hz. exists (fun _ => 0%N), (fun _ => 0%N). exact (roulette_first_zero count p pop F Hz). Qed.
Print Assumptions C138_first_with_zero_fitness_possible.

(** A case: four individuals, groups of two.  The weakest cannot win a tournament, but can win a rank comparison; with fitness zero it is
    never selected by the wheel in second place, and possible in first place. *)
Example C138_nonvacuous :
  let pop := [Ind [1] f1; Ind [2] f0; Ind [3] (f_of_nat 3); Ind [4] (f_of_nat 2)] in
  (exists r r', tournament fhalf 3 pop r = Ok ([2; 0; 3], r')) /\ ~ (exists r r', tournament fhalf 3 pop r = Ok ([2; 1; 3], r')) /\
  (exists r r', rank 3 pop r = Ok ([1; 1; 1], r')) /\
  (match roulette_wheel 4 pop (rng_of [0; 2 ^ 51; 2 ^ 52; 2 ^ 53 - 1]%N) with Ok (sel, _) => sel | _ => [] end) = [0; 2; 2; 3] /\
  ffinite (total_fitness [Ind [2] f0; Ind [1] f1]) = true.
Proof.
  intros pop.
  assert (T : forall sel, (exists r r', tournament fhalf 3 pop r = Ok (sel, r')) <->
    length sel = 3 /\ Forall (fun s => exists w, pop !! s = Some w /\
     (Z.max (Zfloor (rnd (INR (length pop) * f2r fhalf))) 1 <= Z.of_nat (length (List.filter (fun p => fle (fitness p) (fitness w)) pop)))%Z) sel).
  { intros sel. apply C138_tournament; [reflexivity|split; reflexivity|discriminate|cbn; lia|repeat constructor]. }
  assert (K : Z.max (Zfloor (rnd (INR (length pop) * f2r fhalf))) 1 = 2%Z).
  { destruct (tournament_size_bounds fhalf 4 eq_refl (conj eq_refl eq_refl) ltac:(lia) ltac:(cbn; lia)) as [_ E]. change (length pop) with 4. rewrite <- E. vm_compute. reflexivity. }
  rewrite K in T. split.
  { apply T. split; [reflexivity|]. apply Forall_cons. split; [exists (Ind [3] (f_of_nat 3)); split; [reflexivity|vm_compute; discriminate]|].
    apply Forall_cons. split; [exists (Ind [1] f1); split; [reflexivity|vm_compute; discriminate]|].
    apply Forall_cons. split; [exists (Ind [4] (f_of_nat 2)); split; [reflexivity|vm_compute; discriminate]|apply Forall_nil; exact I]. }
  split.
  { intros H. apply T in H as [_ H]. apply Forall_cons in H as [_ H]. apply Forall_cons in H as [(w & Hw & Hle) _].
    injection Hw as <-. vm_compute in Hle. apply Hle. reflexivity. }
  split.
  { apply (proj2 (proj1 (C138_rank_excludes_nothing nat pop f0 3 [1; 1; 1]))).
    split; [reflexivity|]. cbn. repeat (apply Forall_cons; split; [lia|]). apply Forall_nil. exact I. }
  split; vm_compute; reflexivity.
Qed.
