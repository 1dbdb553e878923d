(** * Vocabulary for deposits on arbitrary paths (C134) *)
From Verif Require Import AcoModel AcoSpec.
Open Scope nat_scope.

(** How many times the closed path goes from a to b. *)
Definition moves (p : list nat) (a b : nat) : nat :=
  length (filter (fun i => p !! i = Some a /\ p !! ((i + 1) mod length p) = Some b) (seq 0 (length p))).
(** Adding [x] to [v], [k] times. *)
Definition added (x : f64) (k : nat) (v : f64) : f64 := Nat.iter k (fun y => fadd y x) v.
(** The value of the entry (a, b) after all these paths, one after the other: a move in either direction adds the fitness once. *)
Definition trodden (a b : nat) (sols : list solution) (v : f64) : f64 :=
  foldl (fun v s => added (sol_fitness s) (moves (sol_path s) a b + moves (sol_path s) b a) v) v sols.
(** All moves of the solution's path, and back, are inside the matrix. *)
Definition fits (m : matrix) (s : solution) : Prop := forall a b, neighbours (sol_path s) a b -> in_matrix m a b.
(** Either the update is possible, and [result] holds of what it makes, or it panics. *)
Definition possible_or_panic {A} (possible : Prop) (run : outcome A) (result : A -> Prop) : Prop :=
  (possible -> exists a, run = Ok a /\ result a) /\ (~ possible -> run = Panic).
(** How often the closed path uses the edge {a, b}, in either direction. *)
Definition uses (p : list nat) (a b : nat) : nat := if decide (a = b) then moves p a a else moves p a b + moves p b a.
(** [w] is [v] after adding the fitness and limiting the sum to the range, k times. *)
Inductive limited_adds (lo hi fit : f64) : nat -> f64 -> f64 -> Prop :=
| no_add v : limited_adds lo hi fit 0 v v
| one_more k v u w : cut_to lo hi (fadd v fit) u -> limited_adds lo hi fit k u w -> limited_adds lo hi fit (S k) v w.
