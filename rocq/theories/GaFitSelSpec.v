(** * Vocabulary: selections that look at the fitness values *)
From Verif Require Import GaSpec GaAssembleModel GaAssembleSpec F64R.
Open Scope nat_scope.

(** 2^900 *)
Definition f_2_900 : f64 := S754_finite false 4503599627370496 848.
(** The temperature of generation [g] (src/ga/operators/selection/impls.rs:682-685). *)
Definition temperature (powf : f64 -> f64 -> f64) (alpha temp_0 : f64) (max_gen g : nat) : f64 :=
  fmul temp_0 (powf (fsub f1 alpha) (fadd f1 (fdiv (fmul (f_of_nat 100) (f_of_nat g)) (f_of_nat max_gen)))).

(** What a selection needs of the fitness values of the chromosomes in [K] so as to fill a pool of [n]: RouletteWheel that they
    lie between 0 and 2^900, Boltzmann that all its weights are >= 0 (not NaN) and its constructor's conditions, the
    others only that they are numbers.  (SUS may panic for any fitness values: C20.) *)
Definition dependable_on {G} (sel : selection_op) (n : nat) (fit : list G -> f64) (K : list G -> Prop) : Prop :=
  match sel with
  | SelRouletteWheel => (Z.of_nat n < 2 ^ 53)%Z /\ forall ch, K ch -> fvalid (fit ch) /\ fle f0 (fit ch) = true /\ fle (fit ch) f_2_900 = true
  | SelBoltzmann powf exp alpha temp_0 max_gen =>
      fle f0 alpha = true /\ fle alpha f1 = true /\ fle (f_of_nat 5) temp_0 = true /\ fle temp_0 (f_of_nat 100) = true /\
      (forall ch, K ch -> is_nan (fit ch) = false) /\
      forall ch g, K ch -> fle f0 (exp (fdiv (fneg (fit ch)) (temperature powf alpha temp_0 max_gen g))) = true
  | _ => dependable sel n /\ forall ch, K ch -> is_nan (fit ch) = false
  end.
