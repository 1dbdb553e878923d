(** * Vocabulary for the selection properties *)
From Verif Require Import IndividualModel.
Open Scope nat_scope.

(** Cumulative fitness of the first [i+1] individuals, added from left to right in f64. *)
Definition cumulative (fs : list f64) (i : nat) : f64 := foldl fadd f0 (take (S i) fs).

(** The individual [i] is the first one whose cumulative fitness reaches the threshold. *)
Definition wheel_hit (fs : list f64) (threshold : f64) (i : nat) : Prop :=
  i < length fs /\ fle threshold (cumulative fs i) = true /\
  forall j, j < i -> fle threshold (cumulative fs j) = false.

(** The k-th of equidistant pointers, computed by repeated f64 addition. *)
Definition pointer_at (p0 d : f64) (k : nat) : f64 := Nat.iter k (fun p => fadd p d) p0.

(** The position from which the search for pointer [k] starts: that of the previous pointer. *)
Definition search_from (sel : list nat) (k : nat) : nat :=
  match k with 0 => 0 | S k' => default 0 (sel !! k') end.

(** [sel] is the list of individuals hit by consecutive pointers: pointer [k] hits the first individual,
    not before the one hit by pointer k-1, whose cumulative fitness reaches it. *)
Definition pointer_hits (fs : list f64) (p0 d : f64) (sel : list nat) : Prop :=
  forall k i, sel !! k = Some i ->
    i < length fs /\ search_from sel k <= i /\ fle (pointer_at p0 d k) (cumulative fs i) = true /\
    forall j, search_from sel k <= j < i -> fle (pointer_at p0 d k) (cumulative fs j) = false.
(** ... and no further pointer hits anybody. *)
Definition pointers_exhausted (fs : list f64) (p0 d : f64) (sel : list nat) : Prop :=
  forall j, search_from sel (length sel) <= j < length fs ->
    fle (pointer_at p0 d (length sel)) (cumulative fs j) = false.

(** No fitness is NaN. *)
Definition comparable {G} (pop : list (individual G)) : Prop := Forall (fun p => is_nan (fitness p) = false) pop.

(** Of the members at two positions, the fitter one, the first in case of a tie. *)
Definition rank_winner {G} (pop : list (individual G)) (ij : nat * nat) (s : nat) : Prop :=
  exists a b, pop !! ij.1 = Some a /\ pop !! ij.2 = Some b /\
    s = if fle (fitness b) (fitness a) then ij.1 else ij.2.

(** [s] is a position of the group, and no member of the group has higher fitness. *)
Definition tournament_winner {G} (pop : list (individual G)) (grp : list nat) (s : nat) : Prop :=
  s ∈ grp /\ forall j a b, j ∈ grp -> pop !! j = Some a -> pop !! s = Some b -> fle (fitness a) (fitness b) = true.

(** The documented domain [0, 1]. *)
Definition unit_factor (factor : f64) : Prop := fle f0 factor = true /\ fle factor f1 = true.

(** The k-th value of [gen::<f64>()]. *)
Definition standard_draw (r : rng) (k : nat) : f64 := f_unit 53 (r k mod 2 ^ 53).
