(** * Two readings of the test functions, and what the documentation claims about them *)
From Coq Require Export Reals.
From Verif Require Export TfModel.

(** ** IEEE-754 numbers: the functions of the platform's libm are arbitrary functions *)
Record libm := Libm {
  l_exp : f64 -> f64; l_ln : f64 -> f64; l_log : f64 -> f64 -> f64; l_powf : f64 -> f64 -> f64;
  l_sin : f64 -> f64; l_cos : f64 -> f64; l_tan : f64 -> f64; l_tanh : f64 -> f64 }.
(** std::f64::consts::PI and E *)
Definition f64_pi : f64 := S754_finite false 7074237752028440 (-51).
Definition f64_e : f64 := S754_finite false 6121026514868073 (-51).
(** A literal p/q is the f64 nearest to it: the correctly rounded quotient (p and q are below 2^53 and hence exact). *)
Definition num_f64 (L : libm) : Num f64 := {|
  nlit := fun p q => fdiv (f_of_Z p) (f_of_Z (Zpos q));
  nadd := fadd; nsub := fsub; nmul := fmul; ndiv := fdiv; nneg := fneg; nabs := fabs; nmin := f_min; nsqrt := fsqrt;
  nexp := l_exp L; nln := l_ln L; nlog := l_log L; npowf := l_powf L; nsin := l_sin L; ncos := l_cos L; ntan := l_tan L;
  ntanh := l_tanh L; npi := f64_pi; nE := f64_e |}.

(** ** Exact real numbers: [None] when an operation is not defined (division by zero, root of a negative number, ...) *)
Definition r1 (g : R -> R) (a : option R) : option R := x ← a; Some (g x).
Definition r2 (g : R -> R -> R) (a b : option R) : option R := x ← a; y ← b; Some (g x y).
Definition rdiv (a b : option R) : option R := x ← a; y ← b; if Req_EM_T y 0 then None else Some (x / y)%R.
Definition rsqrt (a : option R) : option R := x ← a; if Rle_dec 0 x then Some (R_sqrt.sqrt x) else None.
Definition rln (a : option R) : option R := x ← a; if Rlt_dec 0 x then Some (ln x) else None.
(** x^y for a positive base, and for base 0 with exponent y >= 0 *)
Definition rpowf (a b : option R) : option R :=
  x ← a; y ← b;
  if Rlt_dec 0 x then Some (Rpower x y)
  else if Req_EM_T x 0 then if Rlt_dec 0 y then Some 0%R else if Req_EM_T y 0 then Some 1%R else None
  else None.
Definition num_R : Num (option R) := {|
  nlit := fun p q => Some (IZR p / IZR (Zpos q))%R;
  nadd := r2 Rplus; nsub := r2 Rminus; nmul := r2 Rmult; ndiv := rdiv; nneg := r1 Ropp; nabs := r1 Rabs; nmin := r2 Rmin;
  nsqrt := rsqrt; nexp := r1 exp; nln := rln; nlog := fun a b => rdiv (rln a) (rln b); npowf := rpowf;
  nsin := r1 sin; ncos := r1 cos; ntan := fun a => rdiv (r1 sin a) (r1 cos a); ntanh := r1 tanh; npi := Some PI; nE := Some (exp 1) |}.

(** ** The documented claims *)
(** The function, computed exactly, has the value [v] at [x]. *)
Definition value (f : list (option R) -> outcome (option R)) (x : list R) (v : R) : Prop := f (map Some x) = Ok (Some v).
(** "Global minimum: f(xs) = m" among the vectors whose number of dimensions satisfies [dims]. *)
Definition global_minimum (f : list (option R) -> outcome (option R)) (dims : nat -> Prop) (xs : list R) (m : R) : Prop :=
  dims (length xs) /\ value f xs m /\
  forall x, dims (length x) -> exists v, value f x v /\ (m <= v)%R.
(** No real number is a lower bound. *)
Definition unbounded_below (f : list (option R) -> outcome (option R)) (d : nat) : Prop :=
  forall b : R, exists x v, length x = d /\ value f x v /\ (v < b)%R.
(** A number that is not NaN and not negative, or NaN *)
Definition nonneg_or_nan (v : f64) : Prop := is_nan v = true \/ fle f0 v = true.
(** The vector with n coordinates c *)
Definition constant {A} (n : nat) (c : A) : list A := repeat c n.
(** The same as [global_minimum] for a function that is not defined everywhere: the bound holds wherever there is a value. *)
Definition minimum_where_defined (f : list (option R) -> outcome (option R)) (dims : nat -> Prop) (xs : list R) (m : R) : Prop :=
  dims (length xs) /\ value f xs m /\ forall x v, dims (length x) -> value f x v -> (m <= v)%R.
(** The function has no real value at x, though it returns: some operation on the way is undefined. *)
Definition undefined_at (f : list (option R) -> outcome (option R)) (x : list R) : Prop := f (map Some x) = Ok None.

(** ** Numbers of dimensions *)
(** The function returns for every vector with an admissible number of dimensions, and panics for every other. *)
Definition accepts {T} (f : list T -> outcome T) (dims : nat -> Prop) : Prop :=
  forall x, (dims (length x) -> exists v, f x = Ok v) /\ (~ dims (length x) -> f x = Panic).

(** ** Documented minima up to the precision of their decimal digits *)
(** "Global minimum: f(xs) = m" for vectors with [d] coordinates, read with the tolerance [tol]: the value at [xs] is within [tol] of [m], and no
    value of the function is more than [tol] below [m]. *)
Definition minimum_within (f : list (option R) -> outcome (option R)) (d : nat) (xs : list R) (m tol : R) : Prop :=
  length xs = d /\ (exists v, value f xs v /\ Rabs (v - m) <= tol)%R /\ (forall x w, length x = d -> value f x w -> m - tol <= w)%R.

(** ** Published formulas *)
(** g(m) + ... + g(n) and g(m) * ... * g(n) *)
Definition Sum (m n : nat) (g : nat -> R) : R := fold_right Rplus 0%R (map g (seq m (n + 1 - m))).
Definition Prod (m n : nat) (g : nat -> R) : R := fold_right Rmult 1%R (map g (seq m (n + 1 - m))).
(** The i-th coordinate, counted from 1 *)
Definition coord (x : list R) (i : nat) : R := nth (i - 1) x 0%R.
