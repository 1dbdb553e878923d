(** * The test functions (src/test_functions/mod.rs)

    Generated by tools/gen_tf.py, one definition for each function of the module.  The arithmetic is a parameter, so that
    the same text is read in two ways (TfSpec): with IEEE-754 numbers, as the program runs, and with exact real numbers,
    as the mathematical function the documentation speaks of. *)
From Verif Require Export F64.
Open Scope nat_scope.

(** The operations of f64 used by the module; [nlit p q] is the decimal literal p/q. *)
Class Num (T : Type) := {
  nlit : Z -> positive -> T;
  nadd : T -> T -> T; nsub : T -> T -> T; nmul : T -> T -> T; ndiv : T -> T -> T; nneg : T -> T; nabs : T -> T; nmin : T -> T -> T;
  nsqrt : T -> T; nexp : T -> T; nln : T -> T; nlog : T -> T -> T; npowf : T -> T -> T;
  nsin : T -> T; ncos : T -> T; ntan : T -> T; ntanh : T -> T; npi : T; nE : T }.

Declare Scope num_scope.
Delimit Scope num_scope with num.
Notation "a + b" := (nadd a b) : num_scope.
Notation "a - b" := (nsub a b) : num_scope.
Notation "a * b" := (nmul a b) : num_scope.
Notation "a / b" := (ndiv a b) : num_scope.
Notation "- a" := (nneg a) : num_scope.
Notation "# z" := (nlit z%Z 1%positive) (at level 9, z constr at level 8, format "# z") : num_scope.
Notation lit p q := (nlit p%Z q%positive) (only parsing).

Section Functions.
Context {T : Type} {num : Num T}.

(** [n as f64] for an integer n *)
Definition of_nat (n : nat) : T := nlit (Z.of_nat n) 1.
(** [f64::powi]: the algorithm of compiler-rt's __powidf2 (for the exponent 2 the compiler emits one multiplication, with
    the same result) *)
Fixpoint powi_pos (a r : T) (p : positive) : T :=
  match p with
  | xH => nmul r a
  | xO p => powi_pos (nmul a a) r p
  | xI p => powi_pos (nmul a a) (nmul r a) p
  end.
Definition powi (a : T) (n : Z) : T :=
  match n with
  | Z0 => nlit 1 1
  | Zpos p => powi_pos a (nlit 1 1) p
  | Zneg p => ndiv (nlit 1 1) (powi_pos a (nlit 1 1) p)
  end.

Local Open Scope num_scope.
