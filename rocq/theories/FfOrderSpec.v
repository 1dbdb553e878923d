(** * Vocabulary: firefly runs that differ in the objective only *)
From Verif Require Import FfModel.
Open Scope nat_scope.

(** The brightness of a point, 1 / f(x) (src/ff.rs:117-127). *)
Definition shine (f : list f64 -> f64) (x : list f64) : f64 := fdiv f1 (f x).
(** The two objectives agree on which of two points is smaller and on which is brighter, on which brightnesses are positive
    and which infinite, and on which points are below f64::MAX. *)
Definition same_lights (f g : list f64 -> f64) : Prop :=
  (forall a b, flt (f a) (f b) = flt (g a) (g b)) /\
  (forall a b, flt (shine f a) (shine f b) = flt (shine g a) (shine g b)) /\
  (forall a, flt f0 (shine f a) = flt f0 (shine g a)) /\
  (forall a, feq (shine f a) finf = feq (shine g a) finf) /\
  (forall a, flt (f a) fmax = flt (g a) fmax).
(** The same callback at the same point; the values reported are those of one and the same point, or both f64::MAX. *)
Definition same_report (f g : list f64 -> f64) (e1 e2 : ff_event) : Prop :=
  match e1, e2 with
  | FfCurrentBest v x, FfCurrentBest w y => x = y /\ ((v = fmax /\ w = fmax) \/ exists z, v = f z /\ w = g z)
  | FfCurrentBest _ _, _ | _, FfCurrentBest _ _ => False
  | _, _ => e1 = e2
  end.
(** Both runs fail in the same way, or both end with the same fireflies after the same callbacks. *)
Definition same_flight (f g : list f64 -> f64) (o1 o2 : outcome (list ff_event * list (list f64))) : Prop :=
  match o1, o2 with
  | Ok (evs1, pop1), Ok (evs2, pop2) => pop1 = pop2 /\ Forall2 (same_report f g) evs1 evs2
  | Panic, Panic | Diverge, Diverge => True
  | _, _ => False
  end.
