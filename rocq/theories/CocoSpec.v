(** * Vocabulary for the COCO experiment *)
From Verif Require Export CocoModel PopulationSpec F64R.
From Coq Require Import Reals.
Open Scope nat_scope.

(** The problems of the bbob suite: one objective that is always a number, no constraints, no integer variables. *)
Record bbob_problem (p : problem) : Prop := {
  bp_dimension : 0 < p_dimension p;
  bp_constraints : p_constraints p = 0;
  bp_objectives : p_objectives p = 1;
  bp_integers : p_integers p = 0;
  bp_ranges : length (p_ranges p) = p_dimension p;
  bp_initial : length (p_initial p) = p_dimension p;
  bp_number : forall x, is_nan (p_objective p x) = false }.
(** Coordinate i of [x] is in range i. *)
Definition in_ranges (ranges : list (f64 * f64)) (x : list f64) : Prop :=
  Forall2 (fun c v => fle c.1 v = true /\ fle v c.2 = true) ranges x.
(** A range of finite numbers whose width is computed without rounding. *)
Definition exact_width (c : f64 * f64) : Prop := proper_range c /\ f2r (fsub c.2 c.1) = (f2r c.2 - f2r c.1)%R.
(** The number of function evaluations *)
Definition evaluations (st : pstate) : nat := length (evaluated_points st).
(** How a problem is left by independent runs of the genetic search with [ks] generations each: each run evaluates the 100
    points it starts from and 300 points in every generation; all runs but the last one began within the budget; the reason
    to stop; and the points have the right length and every coordinate lies in one of the ranges. *)
Definition searched (p : problem) (st : pstate) (ks : list nat) : Prop :=
  constraint_calls st = 0 /\ ks <> [] /\ Forall (fun k => 0 < k <= N.to_nat 10000) ks /\
  evaluations st = list_sum (map (fun k => 100 + 300 * k) ks) /\
  400 * (length ks - 1) < 10 * p_dimension p /\
  ((exists x, x ∈ evaluated_points st /\ fle (p_objective p x) (p_target p) = true) \/ 10 * p_dimension p <= evaluations st \/ length ks = N.to_nat 100000) /\
  Forall (fun x => length x = p_dimension p) (evaluated_points st) /\
  (Forall proper_range (p_ranges p) -> Forall (Forall (fun v => exists c, c ∈ p_ranges p /\ fle c.1 v = true /\ fle v c.2 = true)) (evaluated_points st)).
