(** * Vocabulary: how the fitness of a population moves *)
From Verif Require Import IndividualModel.
Open Scope nat_scope.

(** Nothing in [q'] is below everything of [q], and nothing of [q] is above everything in [q']: neither the smallest nor
    the largest fitness value went down from [q] to [q']. *)
Definition raised {G} (q q' : list (individual G)) : Prop :=
  (forall y, y ∈ q' -> exists x, x ∈ q /\ fle (fitness x) (fitness y) = true) /\
  (forall x, x ∈ q -> exists y, y ∈ q' /\ fle (fitness x) (fitness y) = true).
