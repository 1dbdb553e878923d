(** * Vocabulary: the size of the numbers of a swarm *)
From Verif Require Import F64R PsoModel.
From Coq Require Import Reals.
Open Scope R_scope.

(** A finite double of magnitude at most [B]. *)
Definition within (B : R) (x : f64) : Prop := fvalid x /\ ffinite x = true /\ Rabs (f2r x) <= B.
(** All coordinates of the positions, velocities and best positions of a swarm are. *)
Definition swarm_within (B : R) (s : swarm) : Prop :=
  Forall (within B) (gbest s) /\
  Forall (fun p => Forall (within B) (position p) /\ Forall (within B) (velocity p) /\ Forall (within B) (pbest p)) (particles s).
(** What one generation can multiply the magnitudes by: 1 + |w| + 2 |c1| + 2 |c2|, up to rounding. *)
Definition growth (w c1 c2 : f64) : R := (1 + / 2 ^ 50) * (1 + Rabs (f2r w) + 2 * Rabs (f2r c1) + 2 * Rabs (f2r c2)).
