(** * Property theorems: replacement operators (C21 - C23) *)
From Verif Require Import ReplacementProofs GaProofs.
Open Scope nat_scope.

(** ** C21 *)
Theorem C21_weak_parent :
  forall (G : Type) (debug : bool) (pop children : list (individual G)),
  pop <> [] -> length children = length pop -> (debug = true -> length pop mod 2 = 0) ->
  comparable_all pop -> comparable_all children ->
  exists pop', weak_parent debug pop children = Ok pop' /\ length pop' = length pop /\
    (* an unpaired last individual stays as it is *)
    (forall i, length pop - length pop mod 2 <= i -> pop' !! i = pop !! i) /\
    forall k, 2 * k + 1 < length pop -> exists a b c d x y rest,
      pop !! (2 * k) = Some a /\ pop !! (2 * k + 1) = Some b /\
      children !! (2 * k) = Some c /\ children !! (2 * k + 1) = Some d /\
      pop' !! (2 * k) = Some x /\ pop' !! (2 * k + 1) = Some y /\ two_largest [a; b; c; d] x y rest.
Proof. exact @weak_parent_spec. Qed.
Print Assumptions C21_weak_parent.

(** The cases in which it panics: empty population, and with debug assertions unequal or odd sizes. *)
Theorem C21_weak_parent_panics :
  forall (G : Type) (debug : bool) (pop children : list (individual G)),
  pop = [] \/ (debug = true /\ (length pop <> length children \/ length pop mod 2 <> 0)) ->
  weak_parent debug pop children = Panic.
Proof. exact @weak_parent_panics. Qed.
Print Assumptions C21_weak_parent_panics.

Definition fit2 : f64 := f_of_nat 2.
Definition fit3 : f64 := f_of_nat 3.
Example C21_nonvacuous :
  let pop := [Ind [0] f0; Ind [1] fit3; Ind [2] f1; Ind [3] f1] in
  let children := [Ind [4] f1; Ind [5] fit2; Ind [6] f0; Ind [7] f0] in
  comparable_all pop /\ comparable_all children /\
  weak_parent true pop children = Ok [Ind [1] fit3; Ind [5] fit2; Ind [2] f1; Ind [3] f1].
Proof. cbn zeta. split; [repeat constructor|]. split; [repeat constructor|]. vm_compute. reflexivity. Qed.

(** ** C22 *)
(** Elitism fails: the individual that is best in the solver's sense (strictly smallest fitness of all) is
    discarded although it was in the population. *)
Theorem C22_weak_parent_elitism_refuted :
  exists (pop children pop' : list (individual bool)) b,
    weak_parent true pop children = Ok pop' /\ b ∈ pop /\
    (forall z, z ∈ pop ++ children -> z = b \/ flt (fitness b) (fitness z) = true) /\ ~ b ∈ pop'.
Proof. exact weak_parent_forgets_min. Qed.
Print Assumptions C22_weak_parent_elitism_refuted.

(** It is no accident: in every family of four different individuals the strict minimum is not kept. *)
Theorem C22_minimum_always_discarded :
  forall (G : Type) (a b c d x y : individual G) rest m,
  two_largest [a; b; c; d] x y rest -> m ∈ [a; b; c; d] ->
  (forall z, z ∈ [a; b; c; d] -> z = m \/ flt (fitness m) (fitness z) = true) ->
  NoDup [a; b; c; d] -> m <> x /\ m <> y.
Proof. exact @two_largest_drops_min. Qed.
Print Assumptions C22_minimum_always_discarded.

Example C22_nonvacuous :
  let a := Ind [0] f0 in let b := Ind [1] f1 in let c := Ind [2] fit2 in let d := Ind [3] fit3 in
  two_largest [a; b; c; d] d c [a; b] /\ NoDup [a; b; c; d] /\
  (forall z, z ∈ [a; b; c; d] -> z = a \/ flt (fitness a) (fitness z) = true).
Proof.
  cbn zeta. split; [|split].
  - split; [|split; [reflexivity|repeat constructor]].
    change ([Ind [0] f0; Ind [1] f1] ++ [Ind [2] fit2; Ind [3] fit3] ≡ₚ [Ind [3] fit3; Ind [2] fit2] ++ [Ind [0] f0; Ind [1] f1]).
    rewrite (Permutation_app_comm [Ind [0] f0; Ind [1] f1]). apply Permutation_app_tail, perm_swap.
  - repeat constructor; rewrite ?not_elem_of_cons; split_and?; try discriminate; apply not_elem_of_nil.
  - intros z Hz. repeat (apply elem_of_cons in Hz as [->|Hz]; [try (left; reflexivity); right; reflexivity|]). inversion Hz.
Qed.

(** ** C23 *)
Theorem C23_both_parents_and_noop :
  forall (G : Type) (pop children : list (individual G)),
  both_parents pop children = Ok children /\ noop pop children = Ok pop /\
  both_parents_requires_fitness = false /\ noop_requires_fitness = false.
Proof. exact (fun G pop children => conj eq_refl (conj eq_refl (conj eq_refl eq_refl))). Qed.
Print Assumptions C23_both_parents_and_noop.

(** One generation whose operators return normally: it panics exactly when the size changed (given that
    fitness values are numbers and the configured size is not 0). *)
Theorem C23_size_change_panics :
  forall (G St : Type) (cfg : config G St) ck g m pop best s sel s1 pool ch s2 ch2 s3 pop' s4,
  let m' := Metrics g (m_population_size m) (Some (c_start ck g)) in
  let evaluate := fmap (fun x => Ind (chromosome x) (op_fitness cfg (chromosome x))) in
  op_select cfg m' (evaluate pop) s = Ok (sel, s1) ->
  Forall2 (fun i x => evaluate pop !! i = Some x) sel pool ->
  op_crossover cfg m' pool s1 = Ok (ch, s2) ->
  mutate_all cfg m' ch s2 = Ok (ch2, s3) ->
  op_replace cfg m' (evaluate pop) (if op_requires_children_fitness cfg then evaluate ch2 else ch2) s3 = Ok (pop', s4) ->
  (length pop' <> population_size cfg -> generation cfg ck g m pop best s = Panic) /\
  (length pop' = population_size cfg -> 0 < population_size cfg -> (forall c, is_nan (op_fitness cfg c) = false) ->
     exists r, generation cfg ck g m pop best s = Ok r).
Proof. exact @generation_size. Qed.
Print Assumptions C23_size_change_panics.

(** If replacement never returns the configured size, no run over at least one generation succeeds. *)
Theorem C23_size_change_stops_run :
  forall (G St : Type) (cfg : config G St) ck m0 s,
  (forall m pop ch s pop' s', op_replace cfg m pop ch s = Ok (pop', s') -> length pop' <> population_size cfg) ->
  0 < generation_limit cfg -> forall x, run cfg ck m0 s <> Ok x.
Proof. exact @run_size_panic. Qed.
Print Assumptions C23_size_change_stops_run.

(** A configuration whose crossover makes one child too few. *)
Definition shrinking : config bool nat :=
  Config bool nat 2 3 100%N (fun n s => Ok (replicate n (Ind [true; false] f0), s)) (fun ch => f_of_nat (length ch))
    (fun _ pop s => Ok (seq 0 (length pop), s)) (fun _ pool s => Ok (drop 1 pool, s)) (fun _ x s => Ok (x, s))
    (fun _ pop ch s => Ok (ch, s)) false.
Example C23_nonvacuous :
  let ck := Clock 0 (fun _ => 0%N) (fun _ => 0%N) 0 in
  run shrinking ck (fresh_metrics shrinking) 0 = Panic /\
  (exists r, run (Config bool nat 2 3 100%N (op_generate shrinking) (op_fitness shrinking) (op_select shrinking)
     (fun _ pool s => Ok (pool, s)) (op_mutate shrinking) (op_replace shrinking) false) ck (fresh_metrics shrinking) 0 = Ok r).
Proof. cbn zeta. split; [vm_compute; reflexivity|]. eexists. vm_compute. reflexivity. Qed.
