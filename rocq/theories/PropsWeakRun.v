(** * Property theorems: whole runs with WeakParent or Noop (C101) *)
From Verif Require Import WeakRunProofs.
Open Scope nat_scope.

(** A configuration for the examples: the chromosome is a row of bits, its fitness the number of [true]; mutation clears the
    first gene of every other child, so better children (smaller fitness) are made in every generation. *)
Definition ones (ch : list bool) : nat := Nat.min (length (List.filter id ch)) 9.
Definition clearing (weak : bool) : config bool nat :=
  Config bool nat 4 3 50%N (fun n s => Ok (map (fun i => Ind [true; Nat.even i; true; false] f0) (seq 0 n), s)) (fun ch => f_of_nat (ones ch))
    (fun _ pop s => Ok (seq 0 (length pop), s)) (fun _ pool s => Ok (pool, s))
    (fun _ x s => Ok (Ind (if Nat.even s then false :: tail (chromosome x) else chromosome x ++ [Nat.even (s / 2)]) (fitness x), S s))
    (fun _ pop ch s => pop' ← (if weak then weak_parent true pop ch else noop pop ch); Ok (pop', s)) weak.
Definition minutes : clock := Clock 0 N.of_nat (fun g => N.of_nat (g + 1)) 100.

(** ** C101 *)
(** The solver minimises while WeakParent keeps the larger fitness values: whatever the other operators do, the individual
    returned is the best one of the initial population and on_new_best is called only once, before the first generation. *)
Theorem C101_weak_parent_returns_initial_best :
  forall (G St : Type) (cfg : config G St) (debug : bool),
  (forall m pop ch s pop' s', op_replace cfg m pop ch s = Ok (pop', s') -> weak_parent debug pop ch = Ok pop') ->
  op_requires_children_fitness cfg = weak_parent_requires_fitness ->
  forall ck m0 s evs b m s', run cfg ck m0 s = Ok (evs, b, m, s') ->
  omap new_best evs = [b] /\ exists q, head (populations evs) = Some q /\ b ∈ q.
Proof. exact @weak_run_best. Qed.
Print Assumptions C101_weak_parent_returns_initial_best.

(** Neither the smallest nor the largest fitness ever goes down from one generation to a later one. *)
Theorem C101_weak_parent_fitness_rises :
  forall (G St : Type) (cfg : config G St) (debug : bool),
  (forall m pop ch s pop' s', op_replace cfg m pop ch s = Ok (pop', s') -> weak_parent debug pop ch = Ok pop') ->
  op_requires_children_fitness cfg = weak_parent_requires_fitness ->
  forall ck m0 s evs b m s', run cfg ck m0 s = Ok (evs, b, m, s') ->
  forall i j q q', i <= j -> populations evs !! i = Some q -> populations evs !! j = Some q' -> 2 <= length q -> raised q q'.
Proof. exact @weak_run_raised. Qed.
Print Assumptions C101_weak_parent_fitness_rises.

(** With Noop every generation is the initial population. *)
Theorem C101_noop_keeps_initial_population :
  forall (G St : Type) (cfg : config G St),
  (forall m pop ch s pop' s', op_replace cfg m pop ch s = Ok (pop', s') -> noop pop ch = Ok pop') ->
  forall ck m0 s evs b m s', run cfg ck m0 s = Ok (evs, b, m, s') ->
  omap new_best evs = [b] /\ exists q, b ∈ q /\ Forall (fun q' => q' = q) (populations evs).
Proof. exact @noop_run_best. Qed.
Print Assumptions C101_noop_keeps_initial_population.

(** The fitness values of the generations are 3 2 3 2, then 3 3 3 2, 4 3 3 2 and 4 4 3 2. *)
Example C101_nonvacuous :
  exists evs m s', run (clearing true) minutes (fresh_metrics (clearing true)) 0 = Ok (evs, Ind [true; false; true; false] (f_of_nat 2), m, s') /\
    length (populations evs) = 4 /\ (last (populations evs) ≫= fun q => q !! 0) <> (head (populations evs) ≫= fun q => q !! 0).
Proof. eexists _, _, _. split; [vm_compute; reflexivity|]. split; [reflexivity|]. vm_compute. discriminate. Qed.
Example C101_hypotheses_nonvacuous : forall weak,
  (forall m pop ch s pop' s', op_replace (clearing weak) m pop ch s = Ok (pop', s') -> (if weak then weak_parent true pop ch else noop pop ch) = Ok pop') /\
  op_requires_children_fitness (clearing weak) = weak /\ (forall genes, is_nan (op_fitness (clearing weak) genes) = false).
Proof.
  intros weak. split; [|split; [reflexivity|]].
  - intros m pop ch s pop' s' H. cbn in H. apply obind_Ok in H as (q & Hq & H). injection H as <- <-. exact Hq.
  - intros genes. cbn [op_fitness clearing]. unfold ones. remember (Nat.min (length (List.filter id genes)) 9) as n.
    assert (n <= 9) by lia. clear Heqn. do 10 (destruct n as [|n]; [reflexivity|]). lia.
Qed.
Example C101_noop_nonvacuous :
  exists evs m s', run (clearing false) minutes (fresh_metrics (clearing false)) 0 = Ok (evs, Ind [true; false; true; false] (f_of_nat 2), m, s') /\
    length (populations evs) = 4.
Proof. eexists _, _, _. split; [vm_compute; reflexivity|]. reflexivity. Qed.
