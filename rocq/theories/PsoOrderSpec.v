(** * Vocabulary: swarms that differ in the objective only *)
From Verif Require Import PsoModel.
Open Scope nat_scope.

(** The two objectives agree on which of two points is better. *)
Definition same_preferences (f1 f2 : list f64 -> f64) : Prop := forall a b, flt (f1 a) (f1 b) = flt (f2 a) (f2 b).

(** The same particle, swarm, callback, with values given by [f]. *)
Definition revalue (f : list f64 -> f64) (p : particle) : particle :=
  Particle (position p) (velocity p) (pbest p) (f (position p)) (f (pbest p)).
Definition revalue_swarm (f : list f64 -> f64) (s : swarm) : swarm :=
  Swarm (map (revalue f) (particles s)) (gbest s) (f (gbest s)).
Definition revalue_event (f : list f64 -> f64) (e : pso_event) : pso_event :=
  match e with
  | PsoBegin s => PsoBegin (revalue_swarm f s)
  | PsoNewGeneration s g => PsoNewGeneration (revalue_swarm f s) g
  | PsoEnd s g => PsoEnd (revalue_swarm f s) g
  end.
(** The same run, with values given by [f]; a run that fails stays as it is. *)
Definition revalue_run (f : list f64 -> f64) (o : outcome (list pso_event * swarm)) : outcome (list pso_event * swarm) :=
  match o with
  | Ok (evs, s) => Ok (map (revalue_event f) evs, revalue_swarm f s)
  | Panic => Panic
  | Diverge => Diverge
  end.
(** Build an algorithm with the setters [setters] and the objective [f], and run it. *)
Definition build_and_run (rosenbrock : list f64 -> f64) (setters : list pso_setter) (f : list f64 -> f64)
    (clock : nat -> N) (sched : nat -> list (nat * nat) * list nat) (workers : list rng) (fuel : nat) (r : rng) : outcome (list pso_event * swarm) :=
  match pso_build rosenbrock (setters ++ [SetFunction f]) r with
  | Ok (c, s, _) => pso_solve clock sched workers fuel c s
  | Panic => Panic
  | Diverge => Diverge
  end.
