(** * Vocabulary: which tours ants can make *)
From Verif Require Import AcoModel AcoSpec F64R.
From Verif Require Export ChanceSpec.
From Coq Require Import Reals.
Open Scope nat_scope.

(** An n x n goodness matrix whose entries outside the diagonal are finite numbers from [lo] to [hi] *)
Definition goodness_within (lo hi : R) (n : nat) (g : matrix) : Prop :=
  nrows g = n /\ ncols g = n /\
  forall i j, i < n -> j < n -> i <> j -> nonneg_finite (entry g i j) /\ (lo <= f2r (entry g i j) <= hi)%R.
(** [lo] and [hi] are no further apart than binary64 resolves over [n] places. *)
Definition resolved (lo hi : R) (n : nat) : Prop :=
  (/ 2 ^ 900 <= lo <= hi)%R /\ (hi <= 2 ^ 900)%R /\ (INR n * INR n * hi <= 2 ^ 49 * lo)%R.
(** The ant with another random source *)
Definition with_draws (r : rng) (a : ant) : ant := Ant (a_unvisited a) (a_path a) (a_size a) (a_stuck a) (a_rate a) r (a_hash a).
(** An ExploitingAnt with a rate below 1, as its constructor demands, or a CanonicalAnt *)
Definition may_explore (a : ant) : Prop := forall rate, a_rate a = Some rate -> SpecFloat.valid_binary 53 1024 rate = true /\ flt rate f1 = true.
(** The first places of a tour, at least two *)
Definition partial_tour (n : nat) (q : list nat) : Prop := 2 <= length q /\ NoDup q /\ Forall (fun v => v < n) q.
