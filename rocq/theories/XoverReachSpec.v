(** * Vocabulary: what a crossover can make of two parents *)
From Verif Require Import CrossoverModel.
Open Scope nat_scope.

(** There are draws with which the operator turns [p1] and [p2] into the children [c1] and [c2]. *)
Definition can_breed {G} (op : list G -> list G -> rng -> outcome ((list G * list G) * rng)) (p1 p2 c1 c2 : list G) : Prop :=
  exists r r', op p1 p2 r = Ok ((c1, c2), r').
