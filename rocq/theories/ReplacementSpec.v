(** * Vocabulary for the replacement properties *)
From Verif Require Import IndividualModel.
Open Scope nat_scope.

(** [x, y] are the two largest of [family], the larger one first, [rest] is what is left. *)
Definition two_largest {G} (family : list (individual G)) (x y : individual G) (rest : list (individual G)) : Prop :=
  family ≡ₚ x :: y :: rest /\ fle (fitness y) (fitness x) = true /\
  Forall (fun z => fle (fitness z) (fitness y) = true) rest.

(** All fitness values are numbers, so any two individuals can be compared. *)
Definition comparable_all {G} (pop : list (individual G)) : Prop := Forall (fun p => is_nan (fitness p) = false) pop.
