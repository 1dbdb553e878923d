(** * Vocabulary for the population generators *)
From Verif Require Import Rng F64R.
Open Scope nat_scope.

(** A draw of the uniform distribution on [0, 1): k * 2^-52. *)
Definition in_unit_draws (u : f64) : Prop := exists k, (k < 2 ^ 52)%N /\ u = f_unit 52 k.
Definition finite_f64 (x : f64) : Prop := fvalid x /\ ffinite x = true.
(** A range start..end of finite numbers with start <= end whose width does not overflow. *)
Definition proper_range (c : f64 * f64) : Prop :=
  finite_f64 c.1 /\ finite_f64 c.2 /\ fle c.1 c.2 = true /\ ffinite (fsub c.2 c.1) = true.
