(** * Vocabulary for the firefly properties *)
From Verif Require Import FfModel.
Open Scope nat_scope.

(** A coordinate inside the search space, or not a number. *)
Definition in_bounds (lo hi x : f64) : Prop := is_nan x = true \/ (fle lo x = true /\ fle x hi = true).
(** What becomes of a candidate coordinate: kept strictly inside, moved to the upper bound from above, and to the lower bound from below
    and from the upper bound itself. *)
Definition settled (lo hi candidate x : f64) : Prop :=
  (is_nan candidate = true /\ x = candidate) \/
  (flt lo candidate = true /\ flt candidate hi = true /\ x = candidate) \/
  (flt hi candidate = true /\ x = hi) \/
  ((fle candidate lo = true \/ feq candidate hi = true) /\ x = lo).

(** What the probe sees: iteration i reports the value [b] and the position [x]; [p] is the population at its end. *)
Definition ff_protocol (l : list (list (list f64) * f64 * list f64)) : list ff_event :=
  FfStart :: concat (imap (fun i '(_, b, x) => [FfIterStart i; FfCurrentBest b x; FfIterEnd i]) l) ++ [FfEnd].
(** The population after the iterations [l], when it was [pop] before. *)
Definition population_after (pop : list (list f64)) (l : list (list (list f64) * f64 * list f64)) : list (list f64) := List.last (map (fun e => e.1.1) l) pop.
Definition value_after (l : list (list (list f64) * f64 * list f64)) : f64 := List.last (map (fun e => e.1.2) l) fmax.
(** The same number of fireflies, each of the same dimension. *)
Definition same_shape (p q : list (list f64)) : Prop := map length p = map length q.
(** The brighter one with the greatest index. *)
Definition last_brighter (f : list f64 -> f64) (n : nat) (pop : list (list f64)) (x : list f64) (j : nat) (y : list f64) : Prop :=
  j < n /\ pop !! j = Some y /\ flt (fdiv f1 (f x)) (fdiv f1 (f y)) = true /\
  forall k z, j < k < n -> pop !! k = Some z -> flt (fdiv f1 (f x)) (fdiv f1 (f z)) = false.
(** The flight from x towards y in generation g: per coordinate a factor u of [0.01, 0.99) and a sample d of the distribution. *)
Inductive flown (c : ff_cfg) (attraction alfa g : f64) : list f64 -> list f64 -> list f64 -> Prop :=
| flown_nil ys : flown c attraction alfa g [] ys []
| flown_cons x xs y ys z zs u d : fle f_0_01 u = true -> flt u f_0_99 = true -> (exists r, d = (distribution c r).1) ->
    settled (ff_lower c) (ff_upper c)
      (fadd x (fadd (fmul attraction (fsub y x)) (fmul (fmul (fmul (alfa0 c) alfa) (fsub (fadd u (fdiv d g)) fhalf)) (fsub (ff_upper c) (ff_lower c))))) z ->
    flown c attraction alfa g xs ys zs -> flown c attraction alfa g (x :: xs) (y :: ys) (z :: zs).
(** The random walk: per coordinate a factor u of [-1, 1). *)
Definition walked (c : ff_cfg) (powf : f64 -> f64 -> f64) (alfa : f64) (xs zs : list f64) : Prop :=
  Forall2 (fun x z => exists u, fle f_m1 u = true /\ flt u f1 = true /\
    settled (ff_lower c) (ff_upper c) (fadd x (fmul (fmul u (powf alfa (f_of_nat 2))) (powf f_E (fmul (fmul f_m1 (beta0 c)) (gamma c))))) z) xs zs.
(** One firefly in one generation. *)
Definition moved (f : list f64 -> f64) (dist : list f64 -> list f64 -> outcome f64) (powf : f64 -> f64 -> f64) (sq : f64 -> f64) (c : ff_cfg) (alfa g : f64)
  (pop : list (list f64)) (x z : list f64) : Prop :=
  (exists j y d, last_brighter f (ff_population_size c) pop x j y /\ dist x y = Ok d /\
     flown c (fmul (beta0 c) (powf f_E (fmul (fmul f_m1 (gamma c)) (sq d)))) alfa g x y z) \/
  ((forall j y, j < ff_population_size c -> pop !! j = Some y -> flt (fdiv f1 (f x)) (fdiv f1 (f y)) = false) /\ walked c powf alfa x z).
(** The randomness after i generations. *)
Fixpoint alfa_at (c : ff_cfg) (i : nat) : f64 := match i with 0 => alfa0 c | S i => fmul (alfa_at c i) (delta c) end.

(** What reaches a probe behind a policy that logs the due iterations. *)
Definition ff_logged (due : nat -> bool) (l : list (list (list f64) * f64 * list f64)) : list ff_event :=
  FfStart :: concat (imap (fun i '(_, b, x) => if due i then [FfIterStart i; FfCurrentBest b x; FfIterEnd i] else []) l) ++ [FfEnd].
(** The instant from which the time is counted in iteration i: that of the last iteration that was due, or [start]. *)
Fixpoint counted_from (due : nat -> bool) (start : N) (reset : nat -> N) (i : nat) : N :=
  match i with 0 => start | S i => if due i then reset i else counted_from due start reset i end.
