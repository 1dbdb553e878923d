(** * Vocabulary for the range of the pheromone *)
From Verif Require Import AcoModel AcoSpec SusProofs.
From Verif Require Export F64R.
From Coq Require Import Reals.
Open Scope nat_scope.

(** A finite number of [0, B] *)
Definition in_range (B : R) (x : f64) : Prop := nonneg_finite x /\ (f2r x <= B)%R.
(** An n x n matrix of such numbers *)
Definition matrix_range (B : R) (n : nat) (m : matrix) : Prop :=
  nrows m = n /\ ncols m = n /\ forall i j, i < n -> j < n -> in_range B (entry m i j).
(** The parameters of an update rule: the evaporation rate is of [0, 1] and outweighs the deposits of [ants] tours of fitness at most
    [F] (and one more for the stored best) when the pheromone has reached [B]; a min-max rule has its limits within [0, B]. *)
Definition outweighs (rate : f64) (ants : nat) (F B : R) : Prop :=
  nonneg_finite rate /\ (f2r rate <= 1)%R /\ (2 * (INR ants + 1) * F <= f2r rate * B)%R /\ (16 * (INR ants + 4) <= f2r rate * 2 ^ 53)%R.
Definition sound_rule (u : update_rule) (ants : nat) (F B : R) : Prop :=
  match u with
  | AntSystemPU rate | ElitistAntSystemPU rate | AntColonySystemPU _ rate => outweighs rate ants F B
  | MMAntSystemPU _ rate lo hi => nonneg_finite rate /\ (f2r rate <= 1)%R /\ in_range B lo /\ in_range B hi /\ flt lo hi = true
  end.
