(** * Vocabulary for the local updates made while an ant colony builds its paths (C116) *)
From Verif Require Import AcoModel.
Open Scope nat_scope.

(** The steps of an open path: every place with the next one. *)
Definition steps (p : list nat) : list (nat * nat) := zip p (tail p).
(** How often the directed edge (a, b) is walked in all. *)
Definition walks (a b : nat) (paths : list (list nat)) : nat := length (filter (fun e => e = (a, b)) (concat (map steps paths))).
(** Some of the paths (in order), each longer by one place. *)
Definition grown (ps ps' : list (list nat)) : Prop :=
  exists going : list (list nat), sublist going ps /\ Forall2 (fun q q' => exists v, q' = q ++ [v]) going ps'.
