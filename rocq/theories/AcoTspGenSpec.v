(** * Vocabulary for the generated travelling salesman inputs *)
From Coq Require Import Reals.
From Verif Require Export AcoTspGenModel AcoSpec F64R.
Open Scope nat_scope.

(** A genuine finite binary64 number *)
Definition number (x : f64) : Prop := fvalid x /\ ffinite x = true.
(** In the square [0, 100) x [0, 100) *)
Definition in_square (c : f64 * f64) : Prop :=
  number c.1 /\ number c.2 /\ (0 <= f2r c.1 < 100)%R /\ (0 <= f2r c.2 < 100)%R.
(** The places coincide. *)
Definition same_place (a b : f64 * f64) : Prop := f2r a.1 = f2r b.1 /\ f2r a.2 = f2r b.2.
(** The Euclidean distance of two places, in the real numbers *)
Definition euclid (a b : f64 * f64) : R := R_sqrt.sqrt ((f2r a.1 - f2r b.1) ^ 2 + (f2r a.2 - f2r b.2) ^ 2).
(** The unit roundoff of binary64 *)
Definition half_ulp : R := (/ 2 ^ 53)%R.
(** The length of the closed tour through the places, in the real numbers *)
Definition leg (cities : list (f64 * f64)) (i j : nat) : R :=
  match cities !! i, cities !! j with Some a, Some b => euclid a b | _, _ => 0%R end.
Definition tour_length (cities : list (f64 * f64)) (p : list nat) : R :=
  fold_right Rplus 0%R (map (fun k => match p !! k, p !! ((k + 1) mod length p) with Some i, Some j => leg cities i j | _, _ => 0%R end) (seq 0 (length p))).
