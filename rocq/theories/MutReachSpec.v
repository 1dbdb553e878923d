(** * Vocabulary: what repeated mutation can make of a chromosome *)
From Verif Require Import MutationModel.
Open Scope nat_scope.

(** One application can turn [a] into [b]: there are draws (of the operator's own generator and of the thread's) with which it does. *)
Definition can_make {G} (op : list G -> rng -> rng -> outcome (list G * rng * rng)) (a b : list G) : Prop :=
  exists r t r' t', op a r t = Ok (b, r', t').
(** [k] applications, one after the other, can. *)
Fixpoint can_make_in {G} (op : list G -> rng -> rng -> outcome (list G * rng * rng)) (k : nat) (a b : list G) : Prop :=
  match k with
  | 0 => a = b
  | S k => exists c, can_make op a c /\ can_make_in op k c b
  end.
(** The largest number Uniform(0,1) yields, 1 - 2^-52. *)
Definition largest_draw : f64 := f_unit 52 (2 ^ 52 - 1).
