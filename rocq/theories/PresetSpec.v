(** * Vocabulary for the end-to-end properties of the preset solvers *)
From Verif Require Import BuilderModel GaSpec.
Open Scope nat_scope.

(** Every gene of every individual of [q] satisfies [P]. *)
Definition all_genes {G} (P : G -> Prop) (q : list (individual G)) : Prop := Forall (fun x => Forall P (chromosome x)) q.
(** [g] is a gene of some individual of [q]. *)
Definition occurs_in {G} (g : G) (q : list (individual G)) : Prop := exists x, x ∈ q /\ g ∈ chromosome x.
