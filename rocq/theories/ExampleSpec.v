(** * Vocabulary for the example programs *)
From Verif Require Import F64 F64R TfSpec PopulationSpec.
Open Scope nat_scope.

(** What is asked of the platform's libm: finite cosines between -1 and 1; exp is never negative or NaN, at most 3 up to 1 and
    positive from -700 on; a power of a base in [0, 1] with an exponent >= 0 lies in [0, 1]. *)
Record decent_libm (L : libm) : Prop := {
  dl_cos : forall x, finite_f64 x -> finite_f64 (l_cos L x) /\ fle (fneg f1) (l_cos L x) = true /\ fle (l_cos L x) f1 = true;
  dl_exp : forall x, fvalid x -> is_nan x = false -> fvalid (l_exp L x) /\ fle f0 (l_exp L x) = true;
  dl_exp_le : forall x, fvalid x -> fle x f1 = true -> fle (l_exp L x) (f_of_nat 3) = true;
  dl_exp_pos : forall x, fvalid x -> fle (fneg (f_of_nat 700)) x = true -> flt f0 (l_exp L x) = true;
  dl_powf : forall x y, fvalid x -> fvalid y -> fle f0 x = true -> fle x f1 = true -> fle f0 y = true ->
    fvalid (l_powf L x y) /\ fle f0 (l_powf L x y) = true /\ fle (l_powf L x y) f1 = true }.
(** The number of ones in a bit string. *)
Fixpoint ones (ch : list bool) : nat := match ch with [] => 0 | true :: ch => S (ones ch) | false :: ch => ones ch end.
(** Points of the half-open unit cube of dimension [n]. *)
Definition unit_cube (n : nat) (ch : list f64) : Prop := length ch = n /\ Forall (fun g => finite_f64 g /\ fle f0 g = true /\ flt g f1 = true) ch.
