(** * Vocabulary for the mutation properties *)
From Verif Require Import Rng.
Open Scope nat_scope.

(** The i-th draw from Uniform(0,1) of an RNG from which only such draws are made. *)
Definition unit_draw (r : rng) (i : nat) : f64 := f_unit 52 (r i mod 2 ^ 52).

(** Adjacent swaps from left to right: before step [i] the carried gene [x] stands immediately left of
    [rest]; if step [i] fires it is exchanged with the next gene. *)
Fixpoint sweep {A} (fires : nat -> bool) (i : nat) (x : A) (rest : list A) : list A :=
  match rest with
  | [] => [x]
  | y :: rest' =>
      if fires i then y :: sweep fires (S i) x rest' else x :: sweep fires (S i) y rest'
  end.

(** The chromosome with the segment from..=to reversed. *)
Definition reverse_segment {A} (from to : nat) (ch : list A) : list A :=
  take from ch ++ reverse (take (to + 1 - from) (drop from ch)) ++ drop (to + 1) ch.
