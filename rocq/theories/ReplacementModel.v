(** * Replacement operators (src/ga/operators/replacement/impls.rs) *)
From Verif Require Export IndividualModel.
Open Scope nat_scope.

Section Replacement.
Context {G : Type}.
Notation population := (list (individual G)).

(** impls.rs:39-46 [BothParents::apply], 48-54 [requires_children_fitness] *)
Definition both_parents (pop children : population) : outcome population := Ok children.
Definition both_parents_requires_fitness : bool := false.
(** impls.rs:72-80 [Noop::apply], 82-88 [requires_children_fitness] *)
Definition noop (pop children : population) : outcome population := Ok pop.
Definition noop_requires_fitness : bool := false.

(** src/ga/individual.rs:147-152 [PartialOrd::partial_cmp] and the operators [<], [>] derived from it *)
Definition ind_lt (a b : individual G) : bool := flt (fitness a) (fitness b).
Definition ind_gt (a b : individual G) : bool := ind_lt b a.

(** [std::mem::swap(&mut xs[i], &mut ys[j])] *)
Definition mem_swap (i j : nat) (xs ys : population) : outcome (population * population) :=
  x ← index xs i;
  y ← index ys j;
  Ok (<[i := y]> xs, <[j := x]> ys).

(** impls.rs:158-177: body of the loop *)
Definition weak_parent_step (s : population * population) (i : nat) : outcome (population * population) :=
  let '(pop, ch) := s in
  a ← index pop i;
  b ← index pop (i + 1);
  pop ← (if ind_lt a b then swap i (i + 1) pop else Ok pop);
  c ← index ch i;
  d ← index ch (i + 1);
  ch ← (if ind_lt c d then swap i (i + 1) ch else Ok ch);
  c ← index ch i;
  a ← index pop i;
  if ind_gt c a then
    pop ← swap i (i + 1) pop;
    '(ch, pop) ← mem_swap i i ch pop;
    d ← index ch (i + 1);
    b ← index pop (i + 1);
    if ind_gt d b then '(ch, pop) ← mem_swap (i + 1) (i + 1) ch pop; Ok (pop, ch)
    else Ok (pop, ch)
  else
    b ← index pop (i + 1);
    if ind_gt c b then '(ch, pop) ← mem_swap i (i + 1) ch pop; Ok (pop, ch)
    else Ok (pop, ch).

(** [(0..n).step_by(2)] *)
Definition step_by_2 (n : nat) : list nat := (fun k => 2 * k) <$> seq 0 ((n + 1) / 2).

(** impls.rs:139-180 [WeakParent::apply].  [debug] says whether debug assertions are compiled in.  On an empty
    population [population.len() - 1] panics in a debug build; in a release build it wraps around and the
    first index expression panics. *)
Definition weak_parent (debug : bool) (pop children : population) : outcome population :=
  _ ← rassert (negb debug || bool_decide (length pop = length children));
  _ ← rassert (negb debug || bool_decide (length pop mod 2 = 0));
  _ ← rassert (bool_decide (pop <> []));
  '(pop, _) ← ofold weak_parent_step (pop, children) (step_by_2 (length pop - 1));
  Ok pop.
(** src/ga/operators/replacement.rs:40-42: the default implementation, not overridden by WeakParent *)
Definition weak_parent_requires_fitness : bool := true.
End Replacement.
