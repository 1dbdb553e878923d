(** * Vocabulary for what grading and local updates accept (C135) *)
From Verif Require Import AcoModel AcoSpec.
Open Scope nat_scope.

(** Every move of the solution's closed path, in its direction, is inside the matrix. *)
Definition moves_inside (m : matrix) (s : solution) : Prop := forall a b, follows (sol_path s) a b -> in_matrix m a b.
(** The partial path has a last edge, and that is inside the matrix. *)
Definition last_edge_inside (m : matrix) (p : list nat) : Prop := exists q s r, p = q ++ [s; r] /\ in_matrix m s r.
