(** * Vocabulary for the chances of random outcomes *)
From Verif Require Export Rng.
From Verif Require Export F64R.
From Coq Require Import Reals.
Open Scope nat_scope.

(** Out of [total] equally likely draws [hits] succeed, as they should for the probability [p]: rounded up ... *)
Definition chance_up (hits total : N) (p : R) : Prop :=
  (hits <= total)%N /\ (p * IZR (Z.of_N total) <= IZR (Z.of_N hits) < p * IZR (Z.of_N total) + 1)%R.
(** ... or the next larger whole number, capped at all draws. *)
Definition chance_over (hits total : N) (p : R) : Prop :=
  hits = total /\ (1 - / IZR (Z.of_N total) <= p)%R \/
  (hits <= total)%N /\ (p * IZR (Z.of_N total) < IZR (Z.of_N hits) <= p * IZR (Z.of_N total) + 1)%R.

(** The exact sum *)
Definition exact_total (fs : list f64) : R := fold_right (fun x t => (f2r x + t)%R) 0%R fs.

(** Exchange of the genes at two positions *)
Definition exchange {A} (i j : nat) (ch : list A) : list A :=
  match ch !! i, ch !! j with Some a, Some b => <[i := b]> (<[j := a]> ch) | _, _ => ch end.
(** Going over the positions i, i+1, ... (n of them): at each that fires, an exchange with the next partner. *)
Fixpoint exchanges {A} (fires : nat -> bool) (partner : nat -> nat) (n i m : nat) (ch : list A) : list A :=
  match n with
  | 0 => ch
  | S n => if fires i then exchanges fires partner n (S i) (S m) (exchange i (partner m) ch)
           else exchanges fires partner n (S i) m ch
  end.

(** All groups of [k] of the given positions *)
Fixpoint groups (k : nat) (l : list nat) : list (list nat) :=
  match k, l with
  | 0, _ => [[]]
  | S k, [] => []
  | S k', x :: l' => (cons x <$> groups k' l') ++ groups k l'
  end.
(** "n choose k" *)
Fixpoint choose (n k : nat) : nat :=
  match k, n with 0, _ => 1 | S _, 0 => 0 | S k', S n' => choose n' k' + choose n' k end.
