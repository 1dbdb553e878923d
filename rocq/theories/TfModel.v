(** * The test functions (src/test_functions/mod.rs)

    Generated by tools/gen_tf.py, one definition for each function of the module.  The arithmetic is a parameter, so that
    the same text is read in two ways (TfSpec): with IEEE-754 numbers, as the program runs, and with exact real numbers,
    as the mathematical function the documentation speaks of. *)
From Verif Require Export F64.
Open Scope nat_scope.

(** The operations of f64 used by the module; [nlit p q] is the decimal literal p/q. *)
Class Num (T : Type) := {
  nlit : Z -> positive -> T;
  nadd : T -> T -> T; nsub : T -> T -> T; nmul : T -> T -> T; ndiv : T -> T -> T; nneg : T -> T; nabs : T -> T; nmin : T -> T -> T;
  nsqrt : T -> T; nexp : T -> T; nln : T -> T; nlog : T -> T -> T; npowf : T -> T -> T;
  nsin : T -> T; ncos : T -> T; ntan : T -> T; ntanh : T -> T; npi : T; nE : T }.

Declare Scope num_scope.
Delimit Scope num_scope with num.
Notation "a + b" := (nadd a b) : num_scope.
Notation "a - b" := (nsub a b) : num_scope.
Notation "a * b" := (nmul a b) : num_scope.
Notation "a / b" := (ndiv a b) : num_scope.
Notation "- a" := (nneg a) : num_scope.
Notation "# z" := (nlit z%Z 1%positive) (at level 9, z constr at level 8, format "# z") : num_scope.
Notation lit p q := (nlit p%Z q%positive) (only parsing).

Section Functions.
Context {T : Type} {num : Num T}.

(** [n as f64] for an integer n *)
Definition of_nat (n : nat) : T := nlit (Z.of_nat n) 1.
(** [f64::powi]: the algorithm of compiler-rt's __powidf2 (for the exponent 2 the compiler emits one multiplication, with
    the same result) *)
Fixpoint powi_pos (a r : T) (p : positive) : T :=
  match p with
  | xH => nmul r a
  | xO p => powi_pos (nmul a a) r p
  | xI p => powi_pos (nmul a a) (nmul r a) p
  end.
Definition powi (a : T) (n : Z) : T :=
  match n with
  | Z0 => nlit 1 1
  | Zpos p => powi_pos a (nlit 1 1) p
  | Zneg p => ndiv (nlit 1 1) (powi_pos a (nlit 1 1) p)
  end.

Local Open Scope num_scope.
(** mod.rs:12-26 *)
Definition ackley (x : list T) : outcome T :=
  _ ← rassert (bool_decide (x <> []));
  let '(temp1, temp2) := foldl (fun t x_curr => (t.1 + powi x_curr 2, t.2 + ncos (# 2 * npi * x_curr))) (# 0, # 0) x in
  let temp1 := temp1 * (# 1 / of_nat (length x)) in
  let temp2 := temp2 * (# 1 / of_nat (length x)) in
  Ok (- # 20 * nexp (- lit 2 10 * nsqrt temp1) - nexp temp2 + # 20 + nexp (# 1)).
(** mod.rs:33-42 *)
Definition ackley2 (x : list T) : outcome T :=
  _ ← rassert (bool_decide (length x = 2));
  x1 ← index x 0; x2 ← index x 1;
  Ok (npowf (- # 200 * nE) (- lit 2 100) * nsqrt (powi x1 2 + powi x2 2)).
(** mod.rs:49-63 *)
Definition ackley3 (x : list T) : outcome T :=
  _ ← rassert (bool_decide (length x = 2));
  x1 ← index x 0; x2 ← index x 1;
  Ok (# 200 * npowf nE (- lit 2 100 * nsqrt (powi x1 2 + powi x2 2)) + # 5 * npowf nE (ncos (# 3 * x1) + nsin (# 3 * x2))).
(** mod.rs:72-81 *)
Definition adijman (x : list T) : outcome T :=
  _ ← rassert (bool_decide (length x = 2));
  x1 ← index x 0; x2 ← index x 1;
  Ok (ncos x1 * nsin x2 - x1 / (powi x2 2 + # 1)).
(** mod.rs:88-94 *)
Definition alpine (x : list T) : outcome T :=
  Ok (foldl (fun res arg => res + nabs (arg * nsin arg + arg / # 10)) (# 0) x).
(** mod.rs:101-107 *)
Definition alpine2 (x : list T) : outcome T :=
  Ok (foldl (fun res arg => res * (nsqrt arg * nsin arg)) (# 0) x).
(** mod.rs:114-134: only y[0] = 0.14 of the table y is used *)
Definition brad (x : list T) : outcome T :=
  _ ← rassert (bool_decide (length x = 3));
  x1 ← index x 0; x2 ← index x 1; x3 ← index x 2;
  let y0 := lit 14 100 in
  Ok (foldl (fun res i => res + powi ((y0 - x1 - of_nat i) / (of_nat (16 - i)%nat * x2 + nmin (of_nat i) (of_nat (16 - i)%nat) * x3)) 2) (# 0) (seq 0 15)).
(** mod.rs:141-150 *)
Definition bartels_conn (x : list T) : outcome T :=
  _ ← rassert (bool_decide (length x = 3));
  x1 ← index x 0; x2 ← index x 1;
  Ok (nabs (powi x1 2 + powi x2 2 + x1 * x2) + nabs (nsin x1) + nabs (ncos x2)).
(** mod.rs:156-167 *)
Definition beale (x : list T) : outcome T :=
  _ ← rassert (bool_decide (length x = 2));
  x1 ← index x 0; x2 ← index x 1;
  Ok (powi (lit 15 10 - x1 + x1 * x2) 2 + powi (lit 225 100 - x1 + x1 * powi x2 2) 2 + powi (lit 2625 1000 - x1 + x1 * powi x2 3) 2).
(** mod.rs:174-193 *)
Definition biggs_exp2 (x : list T) : outcome T :=
  _ ← rassert (bool_decide (length x = 2));
  x1 ← index x 0; x2 ← index x 1;
  Ok (foldl (fun res i => res + powi (npowf nE (- lit 1 10 * of_nat i * x1) - # 5 * npowf nE (- lit 1 10 * of_nat i * x2) - npowf nE (- lit 1 10 * of_nat i) - # 5 * npowf nE (of_nat i)) 2) (# 0) (seq 1 10)).
(** mod.rs:200-221 *)
Definition biggs_exp3 (x : list T) : outcome T :=
  _ ← rassert (bool_decide (length x = 3));
  x1 ← index x 0; x2 ← index x 1; x3 ← index x 2;
  Ok (foldl (fun res i => res + powi (npowf nE (- lit 1 10 * of_nat i * x1) - x3 * npowf nE (- lit 1 10 * of_nat i * x2) - npowf nE (- lit 1 10 * of_nat i) - # 5 * npowf nE (of_nat i)) 2) (# 0) (seq 1 10)).
(** mod.rs:228-250 *)
Definition biggs_exp4 (x : list T) : outcome T :=
  _ ← rassert (bool_decide (length x = 4));
  x1 ← index x 0; x2 ← index x 1; x3 ← index x 2; x4 ← index x 3;
  Ok (foldl (fun res i => res + powi (x3 * npowf nE (- lit 1 10 * of_nat i * x1) - x4 * npowf nE (- lit 1 10 * of_nat i * x2) - npowf nE (- lit 1 10 * of_nat i) - # 5 * npowf nE (of_nat i)) 2) (# 0) (seq 1 10)).
(** mod.rs:257-285 *)
Definition biggs_exp5 (x : list T) : outcome T :=
  _ ← rassert (bool_decide (length x = 5));
  x1 ← index x 0; x2 ← index x 1; x3 ← index x 2; x4 ← index x 3; x5 ← index x 4;
  Ok (foldl (fun res i => res + powi (x3 * npowf nE (- lit 1 10 * of_nat i * x1) - x4 * npowf nE (- lit 1 10 * of_nat i * x2) - npowf nE (- lit 1 10 * of_nat i) - # 5 * npowf nE (of_nat i + # 3 * npowf nE (- lit 1 10 * x5)) + # 3 * npowf nE (- lit 4 10 * of_nat i)) 2) (# 0) (seq 1 10)).
(** mod.rs:292-321 *)
Definition biggs_exp6 (x : list T) : outcome T :=
  _ ← rassert (bool_decide (length x = 6));
  x1 ← index x 0; x2 ← index x 1; x3 ← index x 2; x4 ← index x 3; x5 ← index x 4; x6 ← index x 5;
  Ok (foldl (fun res i => res + powi (x3 * npowf nE (- lit 1 10 * of_nat i * x1) - x4 * npowf nE (- lit 1 10 * of_nat i * x2) - npowf nE (- lit 1 10 * of_nat i) - # 5 * npowf nE (of_nat i + x6 * npowf nE (- lit 1 10 * x5)) + # 3 * npowf nE (- lit 4 10 * of_nat i)) 2) (# 0) (seq 1 11)).
(** mod.rs:328-339 *)
Definition bird (x : list T) : outcome T :=
  _ ← rassert (bool_decide (length x = 2));
  x1 ← index x 0; x2 ← index x 1;
  Ok (nsin x1 * npowf nE (powi (# 1 - ncos x2) 2) + ncos x2 * npowf nE (powi (# 1 - nsin x1) 2) + powi (x1 - x2) 2).
(** mod.rs:346-358 *)
Definition bohachevsky_n1 (x : list T) : outcome T :=
  _ ← rassert (bool_decide (length x = 2));
  x1 ← index x 0; x2 ← index x 1;
  Ok (powi x1 2 + # 2 * powi x2 2 - lit 3 10 * ncos (# 3 * npi * x1) - lit 4 10 * ncos (# 4 * npi * x2) + lit 7 10).
(** mod.rs:366-377 *)
Definition bohachevsky_n2 (x : list T) : outcome T :=
  _ ← rassert (bool_decide (length x = 2));
  x1 ← index x 0; x2 ← index x 1;
  Ok (powi x1 2 + # 2 * powi x2 2 - lit 3 10 * ncos (# 3 * npi * x1) * ncos (# 4 * npi * x2) + lit 3 10).
(** mod.rs:385-396 *)
Definition bohachevsky_n3 (x : list T) : outcome T :=
  _ ← rassert (bool_decide (length x = 2));
  x1 ← index x 0; x2 ← index x 1;
  Ok (powi x1 2 + # 2 * powi x2 2 - lit 3 10 * ncos (# 3 * npi * x1 + # 4 * npi * x2) + lit 3 10).
(** mod.rs:402-411 *)
Definition booth (x : list T) : outcome T :=
  _ ← rassert (bool_decide (length x = 2));
  x1 ← index x 0; x2 ← index x 1;
  Ok (powi (x1 + # 2 * x2 - # 7) 2 + powi (# 2 * x1 + x2 - # 5) 2).
(** mod.rs:418-440 *)
Definition box_betts (x : list T) : outcome T :=
  _ ← rassert (bool_decide (length x = 3));
  x1 ← index x 0; x2 ← index x 1; x3 ← index x 2;
  Ok (foldl (fun res i => res + powi (npowf nE (- lit 1 10 * of_nat (i + 1)%nat * x1) + npowf nE (- lit 1 10 * of_nat (i + 1)%nat * x2) + npowf nE (x3 * (- lit 1 10 * of_nat i) - npowf nE (- # 1 * of_nat (i + 1)%nat))) 2) (# 0) (seq 0 3)).
(** mod.rs:445-454 *)
Definition branin (x : list T) (a b c r s t : T) : outcome T :=
  _ ← rassert (bool_decide (length x = 2));
  x1 ← index x 0; x2 ← index x 1;
  Ok (a * powi (x2 - b * powi x1 2 + c * x1 - r) 2 + s * (# 1 - t) * ncos x1 + s).
(** mod.rs:461-475 *)
Definition branin_rcos (x : list T) : outcome T :=
  _ ← rassert (bool_decide (length x = 2));
  x1 ← index x 0; x2 ← index x 1;
  Ok (powi (x2 - lit 51 10 * powi x1 2 / # 4 * powi npi 2 + # 5 * x1 / npi - # 6) 2 + # 10 * (# 1 - # 1 / # 8 * npi) * ncos x1 + # 10).
(** mod.rs:482-500 *)
Definition branin_rcos2 (x : list T) : outcome T :=
  _ ← rassert (bool_decide (length x = 2));
  x1 ← index x 0; x2 ← index x 1;
  Ok (powi (x2 - lit 51 10 * powi x1 2 / # 4 * powi npi 2 + # 5 * x1 / npi - # 6) 2 + # 10 * (# 1 - # 1 / # 8 * npi) * ncos x1 * ncos x2 * nln (powi x1 2 + powi x2 2 + # 1) + # 10).
(** mod.rs:506-521 *)
Definition branin_default (x : list T) : outcome T :=
  _ ← rassert (bool_decide (length x = 2));
  let a := # 1 in
  let b := lit 51 10 / # 4 * powi npi 2 in
  let c := # 5 / npi in
  let r := # 6 in
  let s := # 10 in
  let t := # 1 / # 8 * npi in
  x1 ← index x 0; x2 ← index x 1;
  Ok (a * powi (x2 - b * powi x1 2 + c * x1 - r) 2 + s * (# 1 - t) * ncos x1 + s).
(** mod.rs:528-539 *)
Definition brent (x : list T) : outcome T :=
  _ ← rassert (bool_decide (length x = 2));
  x1 ← index x 0; x2 ← index x 1;
  Ok (powi (x1 + # 10) 2 + powi (x2 + # 10) 2 + npowf nE (- # 1 * powi x1 2 - powi x2 2)).
(** mod.rs:546-553: xi = x[i], xj = x[i + 1]; for an empty x the subtraction (or, without overflow checks, x[0]) panics *)
Definition brown (x : list T) : outcome T :=
  _ ← rassert (bool_decide (x <> []));
  ofold (fun res i => xi ← index x i; xj ← index x (i + 1);
    Ok (res + (npowf (powi xi 2) (powi xj 2 + # 1) + npowf (powi xj 2) (powi xi 2 + # 1)))) (# 0) (seq 0 (length x - 1)).
(** mod.rs:560-569 *)
Definition bukin_2 (x : list T) : outcome T :=
  _ ← rassert (bool_decide (length x = 2));
  x1 ← index x 0; x2 ← index x 1;
  Ok (# 100 * (x2 - lit 1 100 * powi x1 2 + # 1) + lit 1 100 * powi (x1 + # 10) 2).
(** mod.rs:576-585 *)
Definition bukin_4 (x : list T) : outcome T :=
  _ ← rassert (bool_decide (length x = 2));
  x1 ← index x 0; x2 ← index x 1;
  Ok (# 100 * powi x2 2 + lit 1 100 * nabs (x1 + # 10)).
(** mod.rs:591-600 *)
Definition bukin_n6 (x : list T) : outcome T :=
  _ ← rassert (bool_decide (length x = 2));
  x1 ← index x 0; x2 ← index x 1;
  Ok (# 100 * nsqrt (nabs (x2 - lit 1 100 * powi x1 2)) + lit 1 100 * nabs (x1 + # 10)).
(** mod.rs:606-615 *)
Definition three_hump_camel (x : list T) : outcome T :=
  _ ← rassert (bool_decide (length x = 2));
  x1 ← index x 0; x2 ← index x 1;
  Ok (# 2 * powi x1 2 + - lit 105 100 * powi x1 4 + powi x1 6 / # 6 + x1 * x2 + powi x2 2).
(** mod.rs:622-633 *)
Definition six_hump_camel (x : list T) : outcome T :=
  _ ← rassert (bool_decide (length x = 2));
  x1 ← index x 0; x2 ← index x 1;
  Ok ((# 4 - lit 21 10 * powi x1 2 + powi x1 3 / # 3) * powi x1 2 + x1 * x2 + (- # 4 + # 4 * powi x2 2) * powi x2 2).
(** mod.rs:640-650 *)
Definition chen_bird (x : list T) : outcome T :=
  _ ← rassert (bool_decide (length x = 2));
  x1 ← index x 0; x2 ← index x 1;
  Ok (- lit 1 1000 / (lit 1 1000 * lit 1 1000 + powi (x1 - lit 4 10 * x2 + lit 1 10) 2) - lit 1 1000 / (lit 1 1000 * lit 1 1000 + powi (# 2 * x1 + x2 - lit 15 10) 2)).
(** mod.rs:657-668 *)
Definition chen_v (x : list T) : outcome T :=
  _ ← rassert (bool_decide (length x = 2));
  x1 ← index x 0; x2 ← index x 1;
  Ok (- lit 1 1000 / (lit 1 1000 * lit 1 1000 + powi (powi x1 2 + powi x2 2 - # 1) 2) - lit 1 1000 / (lit 1 1000 * lit 1 1000 + powi (powi x1 2 + powi x2 2 - lit 5 10) 2) - lit 1 1000 / (lit 1 1000 * lit 1 1000 + powi (powi x1 2 - powi x2 2) 2)).
(** mod.rs:675-688 *)
Definition chichinadze (x : list T) : outcome T :=
  _ ← rassert (bool_decide (length x = 2));
  x1 ← index x 0; x2 ← index x 1;
  Ok (powi x1 2 - # 12 * x1 + # 11 + # 10 * ncos (npi * x1 / # 2) + # 8 * nsin (# 5 * npi * x1 / # 2) - npowf (lit 2 10) (lit 5 10) * nexp (- lit 5 10 * powi (x2 - lit 5 10) 2)).
(** mod.rs:694-700 *)
Definition chung_reynolds (x : list T) : outcome T :=
  let res := foldl (fun res arg => res + powi arg 2) (# 0) x in Ok (powi res 2).
(** mod.rs:708-724 *)
Definition colville (x : list T) : outcome T :=
  _ ← rassert (bool_decide (length x = 4));
  x1 ← index x 0; x2 ← index x 1; x3 ← index x 2; x4 ← index x 3;
  Ok (# 100 * powi (powi x1 2 - x2) 2 + powi (x1 - # 1) 2 + powi (x3 - # 1) 2 + # 90 * powi (powi x3 2 - x4) 2 + lit 101 10 * (powi (x2 - # 1) 2 + powi (x4 - # 1) 2) + lit 198 10 * (x2 - # 1) * (x4 - # 1)).
(** mod.rs:732-740 *)
Definition cosine_mixture (x : list T) : outcome T :=
  let '(sum1, sum2) := foldl (fun t arg => (t.1 + ncos (# 5 * npi * arg), t.2 + powi arg 2)) (# 0, # 0) x in
  Ok (- lit 1 10 * sum1 - sum2).
(** mod.rs:749-768 *)
Definition cross_in_tray (x : list T) : outcome T :=
  _ ← rassert (bool_decide (length x = 2));
  x1 ← index x 0; x2 ← index x 1;
  Ok (- lit 1 10000 * npowf (nabs (nsin x1 * nsin x2 * nexp (nabs (# 100 - nsqrt (powi x1 2 + powi x2 2) / npi))) + # 1) (lit 1 10)).
(** mod.rs:774-780 *)
Definition csendes (x : list T) : outcome T :=
  Ok (foldl (fun res arg => res + powi arg 6 * (# 2 + nsin (# 1 / arg))) (# 0) x).
(** mod.rs:787-796 *)
Definition cube (x : list T) : outcome T :=
  _ ← rassert (bool_decide (length x = 2));
  x1 ← index x 0; x2 ← index x 1;
  Ok (# 100 * powi (x2 - powi x1 3) 2 + powi (# 1 - x1) 2).
(** mod.rs:803-820 *)
Definition damavandi (x : list T) : outcome T :=
  _ ← rassert (bool_decide (length x = 2));
  x1 ← index x 0; x2 ← index x 1;
  Ok ((# 1 - powi (nsin (npi * (x1 - # 2)) * nsin (npi * (x2 - # 2)) / powi npi 2 * (x1 - # 2) * (x2 - # 2)) 5) * (# 2 + powi (x1 - # 7) 2 + # 2 * powi (x2 - # 7) 2)).
(** mod.rs:826-832: the subtraction panics for an empty x (with overflow checks) *)
Definition deb1 (x : list T) : outcome T :=
  let res := foldl (fun res arg => res + powi (nsin (# 5 * npi * arg)) 6) (# 0) x in
  _ ← rassert (bool_decide (x <> []));
  Ok (- # 1 / of_nat (((length x)) - 1)%nat * res).
(** mod.rs:838-847: the subtraction panics for an empty x (with overflow checks) *)
Definition deb3 (x : list T) : outcome T :=
  let res := foldl (fun res arg => res + powi (nsin (# 5 * npi * (npowf arg (lit 75 100) - lit 5 100))) 6) (# 0) x in
  _ ← rassert (bool_decide (x <> []));
  Ok (- # 1 / of_nat (((length x)) - 1)%nat * res).
(** mod.rs:854-864 *)
Definition deckkers_aarts (x : list T) : outcome T :=
  _ ← rassert (bool_decide (length x = 2));
  x1 ← index x 0; x2 ← index x 1;
  Ok (# 100000 * powi x1 2 + powi x2 2 - powi (powi x1 2 + powi x2 2) 2 + nlit (1 / 100000)%Z 1 * powi (powi x1 2 + powi x2 2) 4).
(** mod.rs:871-894 *)
Definition devilliers_glasser1 (x : list T) : outcome T :=
  _ ← rassert (bool_decide (length x = 2));
  x1 ← index x 0; x2 ← index x 1; x3 ← index x 2; x4 ← index x 3;
  Ok (foldl (fun res i => res + powi (x1 * npowf x2 (lit 1 10 * of_nat (i - 1)%nat) * nsin (x3 * lit 1 10 * of_nat (i - 1)%nat + x4) - lit 60137 1000 * npowf (lit 1371 1000) (lit 1 10 * of_nat (i - 1)%nat * nsin (lit 3112 1000 * lit 1 10 * of_nat (i - 1)%nat + lit 1761 1000))) 2) (# 0) (seq 1 24)).
(** mod.rs:901-926 *)
Definition devilliers_glasser2 (x : list T) : outcome T :=
  _ ← rassert (bool_decide (length x = 5));
  x1 ← index x 0; x2 ← index x 1; x3 ← index x 2; x4 ← index x 3; x5 ← index x 4;
  Ok (foldl (fun res i => res + powi (x1 * npowf x2 (lit 1 10 * of_nat (i - 1)%nat) * ntanh (x3 * lit 1 10 * of_nat (i - 1)%nat + nsin (x4 * lit 1 10 * of_nat (i - 1)%nat)) * ncos (lit 1 10 * of_nat (i - 1)%nat * npowf nE x5) - lit 5381 100 * npowf (lit 127 100) (lit 1 10 * of_nat (i - 1)%nat) * ntanh (lit 3012 1000 * lit 1 10 * of_nat (i - 1)%nat + nsin (lit 213 100 * lit 1 10 * of_nat (i - 1)%nat)) * ncos (npowf nE (lit 507 1000) * lit 1 10 * of_nat (i - 1)%nat)) 2) (# 0) (seq 1 24)).
(** mod.rs:932-942: xi = x[i], xp = x[i - 1] *)
Definition dixon_price (x : list T) : outcome T :=
  _ ← rassert (bool_decide (2 <= length x)%nat);
  x0 ← index x 0;
  ofold (fun result i => xi ← index x i; xp ← index x (i - 1);
    Ok (result + of_nat i * powi (# 2 * powi xi 2 - xp) 2)) (powi (x0 - # 1) 2) (seq 1 (length x - 1)).
(** mod.rs:947-969: a[0] = a1 has 20 elements, a[1] = b has 25 *)
Definition de_jong_n5 (x : list T) : outcome T :=
  _ ← rassert (bool_decide (length x = 2));
  x1 ← index x 0; x2 ← index x 1;
  let a1 := concat (repeat [- # 32; - # 16; # 16; # 32] 5) in
  let b := concat (map (fun v => repeat v 5) [- # 32; - # 16; # 0; # 16; # 32]) in
  sum ← ofold (fun sum i => p ← index a1 i; q ← index b i;
    Ok (sum + (# 1 / of_nat i + powi (x1 - p) 6 + powi (x2 - q) 6))) (# 0) (seq 1 25);
  Ok (npowf (lit 2 1000 + sum) (- # 1)).
(** mod.rs:976-990 *)
Definition dolan (x : list T) : outcome T :=
  _ ← rassert (bool_decide (length x = 5));
  x1 ← index x 0; x2 ← index x 1; x3 ← index x 2; x4 ← index x 3; x5 ← index x 4;
  Ok ((x1 + lit 17 10 * x2) * nsin x1 - lit 15 10 * x3 - lit 1 10 * x4 * ncos (x4 + x5 - x1) + lit 2 10 * powi x5 2 - x2 - # 1).
(** mod.rs:997-1007 *)
Definition drop_wave (x : list T) : outcome T :=
  _ ← rassert (bool_decide (length x = 2));
  x1 ← index x 0; x2 ← index x 1;
  Ok (- # 1 * (# 1 + ncos (# 12 * nsqrt (powi x1 2 + powi x2 2))) / (lit 5 10 * (powi x1 2 + powi x2 2) + # 2)).
(** mod.rs:1013-1024 *)
Definition easom (x : list T) : outcome T :=
  _ ← rassert (bool_decide (length x = 2));
  x1 ← index x 0; x2 ← index x 1;
  Ok (- # 1 * ncos x1 * ncos x2 * nexp (- # 1 * (powi (x1 - npi) 2 + powi (x2 - npi) 2))).
(** mod.rs:1031-1042 *)
Definition eavd (x : list T) : outcome T :=
  _ ← rassert (bool_decide (length x = 2));
  x1 ← index x 0; x2 ← index x 1;
  Ok (powi (powi x1 2 + x2 - # 10) 2 + powi (x1 + powi x2 2 - # 7) 2 + powi (powi x1 2 + powi x2 3 - # 1) 2).
(** mod.rs:1049-1058 *)
Definition egg_crate (x : list T) : outcome T :=
  _ ← rassert (bool_decide (length x = 2));
  x1 ← index x 0; x2 ← index x 1;
  Ok (powi x1 2 + powi x2 2 + # 25 * (powi (nsin x1) 2 + powi (nsin x2) 2)).
(** mod.rs:1064-1074 *)
Definition eggholder (x : list T) : outcome T :=
  _ ← rassert (bool_decide (length x = 2));
  x1 ← index x 0; x2 ← index x 1;
  Ok (- # 1 * (x2 + # 47) * nsin (nsqrt (nabs (x1 / # 2 + x2 + # 47))) + - # 1 * x1 * nsin (nsqrt (nabs (x1 - x2 - # 47)))).
(** mod.rs:1080-1086 *)
Definition exponential (x : list T) : outcome T :=
  let res := foldl (fun res arg => res + powi arg 2) (# 0) x in Ok (- # 1 * nexp (- lit 5 10 * res)).
(** mod.rs:1093-1112: [-i / 10] is an integer division *)
Definition exp2 (x : list T) : outcome T :=
  _ ← rassert (bool_decide (length x = 2));
  x1 ← index x 0; x2 ← index x 1;
  Ok (foldl (fun res i => res + powi (npowf nE (- # 1 * of_nat i * x1 / # 10) - # 5 * npowf nE (- # 1 * of_nat i * x2 / # 10)
    - powi nE (Z.quot (- Z.of_nat i) 10) + # 5 * powi nE (- Z.of_nat i)) 2) (# 0) (seq 1 9)).
(** mod.rs:1118-1125 *)
Definition forrester_et_al (x : T) : outcome T := Ok (powi (# 6 * x - # 2) 2 * nsin (# 12 * x - # 4)).
(** mod.rs:1132-1142 *)
Definition freudenstein_roth (x : list T) : outcome T :=
  _ ← rassert (bool_decide (length x = 2));
  x1 ← index x 0; x2 ← index x 1;
  Ok (powi (x1 - # 13 + ((# 5 - x2) * x2 - # 2) * x2) 2 + powi (x1 - # 29 + ((x2 + # 1) * x2 - # 14) * x2) 2).
(** mod.rs:1149-1162 *)
Definition giunta (x : list T) : outcome T :=
  _ ← rassert (bool_decide (length x = 2));
  Ok (foldl (fun res arg => res + (nsin (nlit (16 / 15)%Z 1 * arg - # 1) + powi (nlit (16 / 15)%Z 1 * arg - # 1) 2 + lit 2 100 * nsin (# 4 * (nlit (16 / 15)%Z 1 * arg - # 1)))) (# 0) x).
(** mod.rs:1168-1182 *)
Definition goldstein_price (x : list T) : outcome T :=
  _ ← rassert (bool_decide (length x = 2));
  x1 ← index x 0; x2 ← index x 1;
  Ok ((# 1 + powi (x1 + x2 + # 1) 2 * (# 19 - # 14 * x1 + # 3 * powi x1 2 - # 14 * x2 + # 6 * x1 * x2 + # 3 * powi x2 2)) * (# 30 + powi (# 2 * x1 - # 3 * x2) 2 * (# 18 - # 32 * x1 + # 12 * powi x1 2 + # 48 * x2 - # 36 * x1 * x2 + # 27 * powi x2 2))).
(** mod.rs:1187-1194 *)
Definition gramacy_lee (x : T) : outcome T := Ok (nsin (# 10 * npi * x) / # 2 * x + powi (x - # 1) 4).
(** mod.rs:1200-1212 *)
Definition griewank (x : list T) : outcome T :=
  _ ← rassert (bool_decide (x <> []));
  let '(temp1, temp2) := foldl (fun t '(index, x_curr) => (t.1 + powi x_curr 2 / # 4000, t.2 * ncos (x_curr / nsqrt (of_nat (index + 1)%nat)))) (# 0, # 1) (imap pair x) in
  Ok (temp1 - temp2 + # 1).
(** mod.rs:1218-1240: xi = x[i] *)
Definition gulf_research (x : list T) : outcome T :=
  _ ← rassert (bool_decide (length x = 99));
  x3 ← index x 2;
  Ok (foldl (fun res '(i, xi) => res + powi (nexp (- # 1 * npowf (# 25 + npowf (- # 50 * nln (lit 1 100 * of_nat i)) (# 1 / lit 15 10)) x3 / xi)) 2) (# 0) (imap pair x)).
(** mod.rs:1249-1277: i runs over 1, 2, 3, 4 while the arrays have four elements *)
Definition hartmann_3d (x : list T) : outcome T :=
  _ ← rassert (bool_decide (length x = 3));
  let alfa := [# 1; lit 12 10; # 3; lit 32 10] in
  let a := [[# 3; # 10; # 30];
    [lit 1 10; # 10; # 35];
    [# 3; # 10; # 30];
    [lit 1 10; # 10; # 35]] in
  let p := [[lit 3689 1000; lit 117 100; lit 2673 1000];
    [lit 4699 1000; lit 4387 1000; lit 747 100];
    [lit 1091 1000; lit 8732 1000; lit 5547 1000];
    [lit 381 1000; lit 5743 1000; lit 8828 1000]] in
  sum ← ofold (fun sum i =>
    inner ← ofold (fun inner '(j, xj) => ai ← index a i; aij ← index ai j; pi ← index p i; pij ← index pi j; Ok (inner + aij * powi (xj - pij) 2)) (# 0) (imap pair x);
    al ← index alfa i; Ok (sum - al * nexp (- # 1 * inner))) (# 0) (seq 1 4);
  Ok (sum).
(** mod.rs:1282-1310: i runs over 1, 2, 3, 4 while the arrays have four elements *)
Definition hartmann_4d (x : list T) : outcome T :=
  _ ← rassert (bool_decide (length x = 4));
  let alfa := [# 1; lit 12 10; # 3; lit 32 10] in
  let a := [[# 10; # 3; # 17; lit 35 10; lit 17 10; # 8];
    [lit 5 100; # 10; # 17; lit 1 10; # 8; # 14];
    [# 3; lit 35 10; lit 17 10; # 10; # 17; # 8];
    [# 17; # 8; lit 5 100; # 10; lit 1 10; # 14]] in
  let p := [[lit 1312 1000; lit 1696 1000; lit 5569 1000; lit 124 100; lit 8283 1000; lit 5886 1000];
    [lit 2329 1000; lit 4135 1000; lit 8307 1000; lit 3736 1000; lit 1004 1000; lit 9991 1000];
    [lit 2348 1000; lit 1451 1000; lit 3522 1000; lit 2883 1000; lit 3047 1000; lit 665 100];
    [lit 4047 1000; lit 8828 1000; lit 8732 1000; lit 5743 1000; lit 1091 1000; lit 381 100]] in
  sum ← ofold (fun sum i =>
    inner ← ofold (fun inner '(j, xj) => ai ← index a i; aij ← index ai j; pi ← index p i; pij ← index pi j; Ok (inner + aij * powi (xj - pij) 2)) (# 0) (imap pair x);
    al ← index alfa i; Ok (sum + al * nexp (- inner))) (# 0) (seq 1 4);
  Ok (# 1 / lit 839 1000 * (lit 11 10 - sum)).
(** mod.rs:1317-1345: i runs over 1, 2, 3, 4 while the arrays have four elements *)
Definition hartmann_6d (x : list T) : outcome T :=
  _ ← rassert (bool_decide (length x = 6));
  let alfa := [# 1; lit 12 10; # 3; lit 32 10] in
  let a := [[# 10; # 3; # 17; lit 35 10; lit 17 10; # 8];
    [lit 5 100; # 10; # 17; lit 1 10; # 8; # 14];
    [# 3; lit 35 10; lit 17 10; # 10; # 17; # 8];
    [# 17; # 8; lit 5 100; # 10; lit 1 10; # 14]] in
  let p := [[lit 1312 1000; lit 1696 1000; lit 5569 1000; lit 124 100; lit 8283 1000; lit 5886 1000];
    [lit 2329 1000; lit 4135 1000; lit 8307 1000; lit 3736 1000; lit 1004 1000; lit 9991 1000];
    [lit 2348 1000; lit 1451 1000; lit 522 1000; lit 2883 1000; lit 3047 1000; lit 665 100];
    [lit 4047 1000; lit 8828 1000; lit 8732 1000; lit 5743 1000; lit 1091 1000; lit 381 100]] in
  sum ← ofold (fun sum i =>
    inner ← ofold (fun inner '(j, xj) => ai ← index a i; aij ← index ai j; pi ← index p i; pij ← index pi j; Ok (inner + aij * powi (xj - pij) 2)) (# 0) (imap pair x);
    al ← index alfa i; Ok (sum + al * nexp (- # 1 * inner))) (# 0) (seq 1 4);
  Ok (- # 1 * sum).
(** mod.rs:1356-1365 *)
Definition himmelblau (x : list T) : outcome T :=
  _ ← rassert (bool_decide (length x = 2));
  x1 ← index x 0; x2 ← index x 1;
  Ok (powi (powi x1 2 + x2 - # 11) 2 + powi (x1 + powi x2 2 - # 7) 2).
(** mod.rs:1374-1389 *)
Definition holder_table (x : list T) : outcome T :=
  _ ← rassert (bool_decide (length x = 2));
  x1 ← index x 0; x2 ← index x 1;
  Ok (- # 1 * nabs (nsin x1 * ncos x2 * nexp (nabs (# 1 - nsqrt (powi x1 2 + powi x2 2) / npi)))).
(** mod.rs:1396-1411 *)
Definition holder_table2 (x : list T) : outcome T :=
  _ ← rassert (bool_decide (length x = 2));
  x1 ← index x 0; x2 ← index x 1;
  Ok (- # 1 * nabs (ncos x1 * ncos x2 * nexp (nabs (# 1 - nsqrt (powi x1 2 + powi x2 2) / npi)))).
(** mod.rs:1418-1435 *)
Definition holder_table3 (x : list T) : outcome T :=
  _ ← rassert (bool_decide (length x = 2));
  x1 ← index x 0; x2 ← index x 1;
  Ok (- # 1 * nabs (ncos x1 * ncos x2 * nexp (nabs (powi (# 1 - nsqrt (powi x1 2 + powi x2 2) / npi) 2)) / # 30)).
(** mod.rs:1442-1454 *)
Definition hosaki (x : list T) : outcome T :=
  _ ← rassert (bool_decide (length x = 2));
  x1 ← index x 0; x2 ← index x 1;
  Ok ((# 1 - # 8 * x1 + # 7 * powi x1 2 - # 7 / # 3 * powi x1 3 + lit 25 100 * powi x1 4) * powi x2 2 * npowf nE (- # 1 * x2)).
(** mod.rs:1461-1478 *)
Definition jennrich_sampson (x : list T) : outcome T :=
  _ ← rassert (bool_decide (length x = 2));
  x1 ← index x 0; x2 ← index x 1;
  Ok (foldl (fun res i => res + powi (# 2 + # 2 * of_nat i - (npowf nE (of_nat i * x1) + npowf nE (of_nat i * x2))) 2) (# 0) (seq 1 10)).
(** mod.rs:1485-1495: m is an i32 there *)
Definition langermann (x : list T) (m : nat) (c : list T) (a : list (list T)) : outcome T :=
  ofold (fun res i =>
    inner ← ofold (fun inner '(j, xj) => ai ← index a i; aij ← index ai j; Ok (inner + powi (xj - aij) 2)) (# 0) (imap pair x);
    ci ← index c i; Ok (res + ci * nexp (- # 1 * npi / inner) * ncos (npi * inner))) (# 0) (seq 1 m).
(** mod.rs:1503-1517: x0 = x[0], xl = x[x.len() - 1] *)
Definition levy (x : list T) : outcome T :=
  _ ← rassert (bool_decide (x <> []));
  x0 ← index x 0;
  let result := powi (nsin (npi * (# 1 + (x0 - # 1) / # 4))) 2 in
  let result := foldl (fun result x_i =>
      let temp := # 1 + (x_i - # 1) / # 4 in
      result + powi (temp - # 1) 2 * (# 1 + # 10 * powi (nsin (npi * temp + # 1)) 2)) result (take (length x - 1) x) in
  xl ← index x (length x - 1);
  let temp := # 1 + (xl - # 1) / # 4 in
  Ok (result + powi (temp - # 1) 2 * (# 1 + powi (nsin (# 2 * npi * temp)) 2)).
(** mod.rs:1523-1534 *)
Definition levy_n13 (x : list T) : outcome T :=
  _ ← rassert (bool_decide (length x = 2));
  x1 ← index x 0; x2 ← index x 1;
  Ok (powi (nsin (# 3 * npi * x1)) 2 + powi (x1 - # 1) 2 * (# 1 + powi (nsin (# 3 * npi * x2)) 2) + powi (x2 - # 1) 2 * (# 1 + powi (nsin (# 2 * npi * x2)) 2)).
(** mod.rs:1541-1551 *)
Definition keane (x : list T) : outcome T :=
  _ ← rassert (bool_decide (length x = 2));
  x1 ← index x 0; x2 ← index x 1;
  Ok (powi (nsin (x1 - x2)) 2 * powi (nsin (x1 + x2)) 2 / nsqrt (powi x1 2 + powi x2 2)).
(** mod.rs:1558-1567 *)
Definition leon (x : list T) : outcome T :=
  _ ← rassert (bool_decide (length x = 2));
  x1 ← index x 0; x2 ← index x 1;
  Ok (# 100 * powi (x2 - powi x1 2) 2 + powi (# 1 - x1) 2).
(** mod.rs:1573-1582 *)
Definition matyas (x : list T) : outcome T :=
  _ ← rassert (bool_decide (length x = 2));
  x1 ← index x 0; x2 ← index x 1;
  Ok (lit 26 100 * (powi x1 2 + powi x2 2) + - lit 48 100 * x1 * x2).
(** mod.rs:1588-1597 *)
Definition mcormick (x : list T) : outcome T :=
  _ ← rassert (bool_decide (length x = 2));
  x1 ← index x 0; x2 ← index x 1;
  Ok (nsin (x1 + x2) + powi (x1 - x2) 2 + - lit 15 10 * x1 + lit 25 10 * x2 + # 1).
(** mod.rs:1604-1618 *)
Definition michalewicz (x : list T) : outcome T :=
  _ ← rassert (bool_decide (x <> []));
  Ok (foldl (fun result '(index, x_curr) => result - nsin x_curr * powi (nsin (of_nat (index + 1)%nat * powi x_curr 2 / npi)) 20) (# 0) (imap pair x)).
(** mod.rs:1625-1639 *)
Definition miele_cantrell (x : list T) : outcome T :=
  _ ← rassert (bool_decide (length x = 4));
  x1 ← index x 0; x2 ← index x 1; x3 ← index x 2; x4 ← index x 3;
  Ok (powi (npowf nE (- # 1 * x1) - x2) 4 + # 100 * powi (x2 - x3) 6 + powi (ntan (x3 - x4)) 4 + powi x1 8).
(** mod.rs:1646-1655 *)
Definition parsopoulos (x : list T) : outcome T :=
  _ ← rassert (bool_decide (length x = 2));
  x1 ← index x 0; x2 ← index x 1;
  Ok (powi (ncos x1) 2 + powi (nsin x2) 2).
(** mod.rs:1662-1684 *)
Definition pen_holder (x : list T) : outcome T :=
  _ ← rassert (bool_decide (length x = 2));
  x1 ← index x 0; x2 ← index x 1;
  Ok (- # 1 * nexp (powi (nabs (ncos x1 * ncos x2 * npowf nE (nabs (# 1 - npowf (powi x1 2 + powi x2 2) (lit 5 10 / npi))))) (-1))).
(** mod.rs:1690-1706: xi = x[i], xj = x[i + 1]; [x.len() - 2] panics (or x[1] does) for fewer than two *)
Definition pathological (x : list T) : outcome T :=
  _ ← rassert (bool_decide (2 <= length x)%nat);
  ofold (fun res i => xi ← index x i; xj ← index x (i + 1);
    Ok (res + (lit 5 10 + (powi (nsin (nsqrt (# 100 * powi xi 2 + powi xj 2))) 2 - lit 5 10)
      / (# 1 + lit 1 1000 * powi (powi xi 2 - # 2 * xi * xj + powi xj 2) 2)))) (# 0) (seq 1 (length x - 3)).
(** mod.rs:1712-1726 *)
Definition paviani (x : list T) : outcome T :=
  _ ← rassert (bool_decide (length x = 10));
  let '(res, sum) := foldl (fun t arg => (t.1 + (powi (nln (arg - # 2)) 2 + powi (nln (# 10 - arg)) 2), t.2 * arg)) (# 0, # 0) x in
  Ok (res - npowf sum (lit 2 10)).
(** mod.rs:1732-1750: xp = x[i - 1] (a panic for i = 0 either way), xn = x[i + 1] *)
Definition pinter (x : list T) : outcome T :=
  ofold (fun res '(i, val) =>
    _ ← rassert (bool_decide (i <> 0%nat));
    xp ← index x (i - 1); xn ← index x (i + 1);
    Ok (res + (of_nat i * powi val 2 + # 20 * of_nat i * powi (nsin (xp * nsin val + nsin xn)) 2
      + of_nat i * nlog (# 1 + of_nat i * powi (powi xp 2 - # 2 * val - # 3 * xp - ncos val + # 1) 2) (# 10)))) (# 0) (imap pair x).
(** mod.rs:1756-1766 *)
Definition periodic (x : list T) : outcome T :=
  _ ← rassert (bool_decide (length x = 2));
  x1 ← index x 0; x2 ← index x 1;
  Ok (# 1 + powi (nsin x1) 2 + powi (nsin x2) 2 - lit 1 10 * npowf nE (- # 1 * (powi x1 2 + powi x2 2))).
(** mod.rs:1772-1788: xj = x[j] *)
Definition perm_0_d_beta (x : list T) (beta : T) : outcome T :=
  _ ← rassert (bool_decide (length x = 2));
  Ok (foldl (fun res i =>
    let sum := foldl (fun sum '(j, xj) => sum + ((of_nat j + beta) * powi xj (Z.of_nat i) - # 1 / powi (of_nat j) (Z.of_nat i))) (# 0) (imap pair x) in
    res + powi sum 2) (# 0) (seq 1 (length x))).
(** mod.rs:1795-1806: xj = x[j] *)
Definition perm_d_beta (x : list T) (beta : T) : outcome T :=
  Ok (foldl (fun res i =>
    let sum := foldl (fun sum '(j, xj) => sum + (powi (of_nat j) (Z.of_nat i) + beta) * (powi (xj / of_nat j) (Z.of_nat i) - # 1)) (# 0) (imap pair x) in
    res + powi sum 2) (# 0) (seq 1 (length x))).
(** mod.rs:1813-1827: a = x[4 * i - 3], b = x[4 * i - 2], c = x[4 * i - 1], d = x[4 * i] *)
Definition powell (x : list T) : outcome T :=
  _ ← rassert (bool_decide (3 < length x)%nat);
  ofold (fun res i => a ← index x (4 * i - 3); b ← index x (4 * i - 2); c ← index x (4 * i - 1); d ← index x (4 * i);
    Ok (res + (powi (a + # 10 * b) 2 + # 5 * powi (c - d) 2 + powi (b - # 2 * c) 4 + # 10 * powi (a - d) 4))) (# 0) (seq 1 (length x / 4)).
(** mod.rs:1834-1847: a = x[i - 1], b = x[i], c = x[i + 1], d = x[i + 2] *)
Definition powell2 (x : list T) : outcome T :=
  _ ← rassert (bool_decide (3 < length x)%nat);
  ofold (fun res i => a ← index x (i - 1); b ← index x i; c ← index x (i + 1); d ← index x (i + 2);
    Ok (res + (powi (a + # 10 * b) 2 + # 5 * powi (c - d) 2 + powi (b - # 2 * c) 4 + # 1 * powi (a - d) 4))) (# 0) (seq 1 (length x - 4)).
(** mod.rs:1854-1860 *)
Definition powell_sum (x : list T) : outcome T :=
  Ok (foldl (fun res '(dim, arg) => res + powi (nabs arg) (Z.of_nat (dim + 1)%nat)) (# 0) (imap pair x)).
(** mod.rs:1867-1882: bi = b[i] *)
Definition power_sum (x b : list T) : outcome T :=
  _ ← rassert (bool_decide (length b = length x));
  Ok (foldl (fun res '(i, bi) => res + powi (foldl (fun sum j => sum + powi j (Z.of_nat i)) (# 0) x - bi) 2) (# 0) (imap pair b)).
(** mod.rs:1888-1897 *)
Definition price1 (x : list T) : outcome T :=
  _ ← rassert (bool_decide (length x = 2));
  x1 ← index x 0; x2 ← index x 1;
  Ok (powi (nabs x1 - # 5) 2 + powi (nabs x2 - # 5) 2).
(** mod.rs:1903-1913 *)
Definition price2 (x : list T) : outcome T :=
  _ ← rassert (bool_decide (length x = 2));
  x1 ← index x 0; x2 ← index x 1;
  Ok (# 1 + powi (nsin x1) 2 + powi (nsin x2) 2 - lit 1 10 * npowf nE (- # 1 * powi x1 2 - powi x2 2)).
(** mod.rs:1919-1929 *)
Definition price3 (x : list T) : outcome T :=
  _ ← rassert (bool_decide (length x = 2));
  x1 ← index x 0; x2 ← index x 1;
  Ok (# 100 * powi (x2 - powi x1 2) 2 + # 6 * powi (lit 64 10 * powi (x2 - lit 5 10) 2 - x1 - lit 6 10) 2).
(** mod.rs:1935-1945 *)
Definition price4 (x : list T) : outcome T :=
  _ ← rassert (bool_decide (length x = 2));
  x1 ← index x 0; x2 ← index x 1;
  Ok (powi (# 2 * powi x1 3 * x2 - powi x2 3) 2 + powi (# 6 * x1 - powi x2 2 + x2) 2).
(** mod.rs:1951-1957 *)
Definition qing (x : list T) (i : T) : outcome T :=
  Ok (foldl (fun res arg => res + powi (powi arg 2 - i) 2) (# 0) x).
(** mod.rs:1963-1975 *)
Definition quadratic (x : list T) : outcome T :=
  _ ← rassert (bool_decide (length x = 2));
  x1 ← index x 0; x2 ← index x 1;
  Ok (- lit 380384 100 - lit 13808 100 * x1 - lit 23292 100 * x2 + lit 12808 100 * powi x1 2 + lit 2364 100 * powi x2 2 + lit 18225 100 * x1 * x2).
(** mod.rs:1993-2005 *)
Definition quintic (x : list T) : outcome T :=
  Ok (foldl (fun res arg => res + nabs (powi arg 5 - # 3 * powi arg 4 + # 4 * powi arg 3 + # 2 * powi arg 2 - # 10 * arg - # 4)) (# 0) x).
(** mod.rs:2010-2018: xn = x[dim + 1] *)
Definition rana (x : list T) : outcome T :=
  ofold (fun res '(dim, arg) => xn ← index x (dim + 1);
    let t1 := nsqrt (nabs (xn + arg + # 1)) in
    let t2 := nsqrt (nabs (xn - arg + # 1)) in
    Ok (res + ((xn + # 1) * ncos t2 * nsin t1 + arg * ncos t1 * nsin t2))) (# 0) (imap pair x).
(** mod.rs:2024-2035 *)
Definition rastrigin (x : list T) : outcome T :=
  _ ← rassert (bool_decide (x <> []));
  Ok (foldl (fun result x_curr => result + (powi x_curr 2 - # 10 * ncos (# 2 * npi * x_curr))) (# 0) x + # 10 * of_nat (length x)).
(** mod.rs:2040-2057 *)
Definition ripple1 (x : list T) : outcome T :=
  _ ← rassert (bool_decide (length x = 2));
  Ok (foldl (fun res arg => res + (- # 1 * npowf nE (- # 2 * nln (# 2 * powi ((arg - # 1) / lit 8 10) 2)) * (powi (nsin (# 5 * npi * arg)) 6 + lit 1 10 * powi (ncos (# 500 * npi * arg)) 2))) (# 0) x).
(** mod.rs:2062-2078 *)
Definition ripple25 (x : list T) : outcome T :=
  _ ← rassert (bool_decide (length x = 2));
  Ok (foldl (fun res arg => res + (- # 1 * npowf nE (- # 2 * nln (# 2 * powi ((arg - # 1) / lit 8 10) 2)) * powi (nsin (# 5 * npi * arg)) 6)) (# 0) x).
(** mod.rs:2085-2095: xi = x[i], xj = x[i + 1] *)
Definition rosenbrock (x : list T) : outcome T :=
  _ ← rassert (bool_decide (2 <= length x)%nat);
  ofold (fun result i => xi ← index x i; xj ← index x (i + 1);
    Ok (result + (# 100 * powi (xj - powi xi 2) 2 + powi (# 1 - xi) 2))) (# 0) (seq 0 (length x - 1)).
(** mod.rs:2102-2116 *)
Definition rosenbrock_modified (x : list T) : outcome T :=
  _ ← rassert (bool_decide (length x = 2));
  x1 ← index x 0; x2 ← index x 1;
  Ok (# 74 + # 100 * powi (x2 - powi x1 2) 2 + powi (# 1 - x2) 2 - # 400 * npowf nE (- # 1 * powi (x1 + # 1) 2 + powi (x2 + # 1) 2 / lit 1 10)).
(** mod.rs:2123-2132 *)
Definition rotated_ellipse (x : list T) : outcome T :=
  _ ← rassert (bool_decide (length x = 2));
  x1 ← index x 0; x2 ← index x 1;
  Ok (# 7 * powi x1 2 - # 6 * nsqrt (# 3) * x1 * x2 + # 13 * powi x2 2).
(** mod.rs:2139-2148 *)
Definition rotated_ellipse2 (x : list T) : outcome T :=
  _ ← rassert (bool_decide (length x = 2));
  x1 ← index x 0; x2 ← index x 1;
  Ok (powi x1 2 - x1 * x2 + powi x2 2).
(** mod.rs:2154-2166 *)
Definition rotated_hyper_ellipsoid (x : list T) : outcome T :=
  _ ← rassert (bool_decide (x <> []));
  Ok (foldl (fun result i => foldl (fun result x_j => result + powi x_j 2) result (take (i + 1) x)) (# 0) (seq 0 (length x))).
(** mod.rs:2173-2186 *)
Definition rump (x : list T) : outcome T :=
  _ ← rassert (bool_decide (length x = 2));
  x1 ← index x 0; x2 ← index x 1;
  Ok ((lit 33375 100 - powi x1 2) * powi x2 6 + powi x1 2 * (# 11 * powi x1 2 * powi x2 2 - # 121 * powi x2 4 - # 2) + lit 55 10 * powi x2 8 + x1 / # 2 * x2).
(** mod.rs:2191-2197 *)
Definition salomon (x : list T) : outcome T :=
  let res := foldl (fun res arg => res + powi arg 2) (# 0) x in
  Ok (# 1 - ncos (# 2 * npi * res) + lit 1 10 * nsqrt res).
(** mod.rs:2202-2214: xj = x[j]; t = (res, innersum) *)
Definition sargan (x : list T) : outcome T :=
  Ok (foldl (fun res '(dim, val) =>
    fst (foldl (fun t '(j, xj) =>
        let innersum := if decide (dim <> j) then t.2 + val * xj else t.2 in
        (t.1 + of_nat (length x) * (powi val 2 + lit 4 10 * innersum), innersum)) (res, # 0) (imap pair x))) (# 0) (imap pair x)).
(** mod.rs:2220-2230 *)
Definition schaffer_n1 (x : list T) : outcome T :=
  _ ← rassert (bool_decide (length x = 2));
  x1 ← index x 0; x2 ← index x 1;
  Ok (lit 5 10 + (powi (nsin (powi x1 2 + powi x2 2)) 2 - lit 5 10) / (# 1 + lit 1 1000 * (powi x1 2 + powi x2 2))).
(** mod.rs:2236-2246 *)
Definition schaffer_n2 (x : list T) : outcome T :=
  _ ← rassert (bool_decide (length x = 2));
  x1 ← index x 0; x2 ← index x 1;
  Ok (lit 5 10 + (powi (nsin (powi x1 2 - powi x2 2)) 2 - lit 5 10) / powi (# 1 + lit 1 1000 * (powi x1 2 + powi x2 2)) 2).
(** mod.rs:2251-2264 *)
Definition schaffer_n3 (x : list T) : outcome T :=
  _ ← rassert (bool_decide (length x = 2));
  x1 ← index x 0; x2 ← index x 1;
  Ok (lit 5 10 + (powi (nsin (ncos (nabs (powi x1 2 - powi x2 2)))) 2 - lit 5 10) / (# 1 + lit 1 1000 * powi (powi x1 2 + powi x2 2) 2)).
(** mod.rs:2273-2286 *)
Definition schaffer_n4 (x : list T) : outcome T :=
  _ ← rassert (bool_decide (length x = 2));
  x1 ← index x 0; x2 ← index x 1;
  Ok (lit 5 10 + (powi (ncos (nsin (nabs (powi x1 2 - powi x2 2)))) 2 - lit 5 10) / powi (# 1 + lit 1 1000 * (powi x1 2 + powi x2 2)) 2).
(** mod.rs:2293-2305 *)
Definition schmidt_vetters (x : list T) : outcome T :=
  _ ← rassert (bool_decide (length x = 3));
  x1 ← index x 0; x2 ← index x 1; x3 ← index x 2;
  Ok (# 1 / (# 1 + powi (x1 - x2) 2) + nsin ((npi * x2 + x3) / # 2) + npowf nE (powi ((x1 + x2) / # 2 - # 2) 2)).
(** mod.rs:2312-2318 *)
Definition schumer_steiglitz (x : list T) : outcome T :=
  Ok (foldl (fun res arg => res + powi arg 4) (# 0) x).
(** mod.rs:2324-2334 *)
Definition schwefel (x : list T) : outcome T :=
  _ ← rassert (bool_decide (x <> []));
  Ok (foldl (fun result x_curr => result - x_curr * nsin (nsqrt (nabs x_curr))) (lit 4189829 10000 * of_nat (length x)) x).
(** mod.rs:2345-2363: m is an i32 there *)
Definition shekel (x : list T) (m : nat) (beta : list T) (c : list (list T)) : outcome T :=
  _ ← rassert (bool_decide (length x = 4));
  c0 ← index c 0;
  _ ← rassert (bool_decide (length c0 = 4));
  _ ← rassert (bool_decide (length c = m));
  _ ← rassert (bool_decide (length beta = m));
  ofold (fun res i =>
    sum ← ofold (fun sum j => xj ← index x j; cj ← index c j; cjj ← index cj j; Ok (sum + powi (xj - cjj) 2)) (# 0) (seq 1 4);
    bi ← index beta i; Ok (res + powi (sum + bi) (-1))) (# 0) (seq 1 m).
(** mod.rs:2371-2394 *)
Definition shekel_default (x : list T) : outcome T :=
  _ ← rassert (bool_decide (length x = 4));
  let beta := map (fun x => lit 1 10 * x) [# 1; # 2; # 2; # 4; # 4; # 6; # 3; # 7; # 5; # 5] in
  let c := [[# 4; # 1; # 8; # 6; # 3; # 2; # 5; # 8; # 6; # 7];
    [# 4; # 1; # 8; # 6; # 7; # 9; # 3; # 1; # 2; lit 36 10];
    [# 4; # 1; # 8; # 6; # 3; # 2; # 5; # 8; # 6; # 7];
    [# 4; # 1; # 8; # 6; # 7; # 9; # 3; # 1; # 2; lit 36 10]] in
  ofold (fun res i =>
    sum ← ofold (fun sum j => xj ← index x j; cj ← index c j; cjj ← index cj j; Ok (sum + powi (xj - cjj) 2)) (# 0) (seq 1 4);
    bi ← index beta i; Ok (res + powi (sum + bi) (-1))) (# 0) (seq 1 10).
(** mod.rs:2403-2418 *)
Definition shubert (x : list T) : outcome T :=
  _ ← rassert (bool_decide (length x = 2));
  x1 ← index x 0; x2 ← index x 1;
  let '(y1, y2) := foldl (fun t i => (t.1 + of_nat i * ncos (of_nat (i + 1)%nat * x1 + of_nat i), t.2 + of_nat i * ncos (of_nat (i + 1)%nat * x2 + of_nat i))) (# 0, # 0) (seq 1 5) in
  Ok (y1 * y2).
(** mod.rs:2426-2436 *)
Definition sphere (x : list T) : outcome T :=
  _ ← rassert (bool_decide (x <> []));
  Ok (foldl (fun result x_curr => result + powi x_curr 2) (# 0) x).
(** mod.rs:2442-2453 *)
Definition styblinski_tang (x : list T) : outcome T :=
  _ ← rassert (bool_decide (x <> []));
  let result := foldl (fun result x_curr => result + (powi x_curr 4 - # 16 * powi x_curr 2 + # 5 * x_curr)) (# 0) x in
  Ok (result * lit 5 10).
(** mod.rs:2459-2473: xn = x[index + 1] *)
Definition stretched_v_sine_wave (x : list T) : outcome T :=
  _ ← rassert (bool_decide (x <> []));
  ofold (fun result '(i, x_curr) => xn ← index x (i + 1);
    Ok (result + npowf (powi xn 2 + powi x_curr 2) (lit 25 100)
      * (powi (nsin (# 50 * npowf (powi xn 2 + powi x_curr 2) (lit 1 10))) 2 + lit 1 10))) (# 0) (imap pair x).
(** mod.rs:2479-2489 *)
Definition sum_of_powers (x : list T) : outcome T :=
  _ ← rassert (bool_decide (x <> []));
  Ok (foldl (fun result '(index, x_curr) => result + powi (nabs x_curr) (Z.of_nat (index + 1)%nat)) (# 0) (imap pair x)).
(** mod.rs:2495-2505 *)
Definition sum_squares (x : list T) : outcome T :=
  _ ← rassert (bool_decide (x <> []));
  Ok (foldl (fun result '(index, x_curr) => result + of_nat (index + 1)%nat * powi x_curr 2) (# 0) (imap pair x)).
(** mod.rs:2512-2527 *)
Definition testtube_holder (x : list T) : outcome T :=
  _ ← rassert (bool_decide (length x = 2));
  x1 ← index x 0; x2 ← index x 1;
  Ok (- # 4 * nsin x1 * ncos x2 * npowf nE (nabs (ncos (powi x1 2 + powi x2 2) / # 200))).
(** mod.rs:2534-2543 *)
Definition trecanni (x : list T) : outcome T :=
  _ ← rassert (bool_decide (length x = 2));
  x1 ← index x 0; x2 ← index x 1;
  Ok (powi x1 4 - # 4 * powi x1 3 + # 4 * x1 + powi x2 2).
(** mod.rs:2550-2560: xi = x[i], xp = x[i - 1] *)
Definition trid (x : list T) : outcome T :=
  _ ← rassert (bool_decide (2 <= length x)%nat);
  x0 ← index x 0;
  ofold (fun result i => xi ← index x i; xp ← index x (i - 1);
    Ok (result + (powi (xi - # 1) 2 - xi * xp))) (powi (x0 - # 1) 2) (seq 1 (length x - 1)).
(** mod.rs:2566-2578: xp = x[dim - 1], a panic for dim = 0 either way *)
Definition trid10 (x : list T) : outcome T :=
  _ ← rassert (bool_decide (2 <= length x)%nat);
  '(temp1, temp2) ← ofold (fun t '(dim, val) =>
    _ ← rassert (bool_decide (dim <> 0%nat)); xp ← index x (dim - 1);
    Ok (fst t + powi (val - # 1) 2, snd t + val * xp)) (# 0, # 0) (imap pair x);
  Ok (temp1 - temp2).
(** mod.rs:2584-2601 *)
Definition trigonometric1 (x : list T) : outcome T :=
  _ ← rassert (bool_decide (2 <= length x)%nat);
  let sum := foldl (fun sum arg => sum + ncos arg) (# 0) x in
  Ok (foldl (fun res '(dim, arg) => res + powi (of_nat (length x) - sum + of_nat dim * (# 1 - ncos arg - nsin arg)) 2) (# 0) (imap pair x)).
(** mod.rs:2607-2622: x0 = x[0] *)
Definition trigonometric2 (x : list T) : outcome T :=
  _ ← rassert (bool_decide (2 <= length x)%nat);
  x0 ← index x 0;
  let sum := foldl (fun sum arg => sum + ncos arg) (# 0) x in
  let sum := foldl (fun sum arg => sum + (# 8 * powi (nsin (# 7 * powi (arg - lit 9 10) 2)) 2 + # 6 * powi (nsin (# 14 * powi (x0 - lit 9 10) 2)) 2 + powi (arg - lit 9 10) 2)) sum x in
  Ok (# 1 + sum).
(** mod.rs:2629-2638 *)
Definition ursem1 (x : list T) : outcome T :=
  _ ← rassert (bool_decide (length x = 2));
  x1 ← index x 0; x2 ← index x 1;
  Ok (- # 1 * nsin (# 2 * x1 - lit 5 10 * npi) - # 3 * ncos x2 - lit 5 10 * x1).
(** mod.rs:2643-2659 *)
Definition ursem3 (x : list T) : outcome T :=
  _ ← rassert (bool_decide (length x = 2));
  x1 ← index x 0; x2 ← index x 1;
  Ok (- # 1 * nsin (lit 22 10 * npi * x1 + lit 5 10 * npi) * (# 2 - nabs x1 / # 2) * (# 3 - nabs x1 / # 2) - # 1 * nsin (lit 22 10 * npi * x2 + lit 5 10 * npi) * (# 2 - nabs x2 / # 2) * (# 3 - nabs x2 / # 2)).
(** mod.rs:2664-2676 *)
Definition ursem4 (x : list T) : outcome T :=
  _ ← rassert (bool_decide (length x = 2));
  x1 ← index x 0; x2 ← index x 1;
  Ok (- # 3 * nsin (lit 5 10 * npi * x1 + npi * lit 5 10) * (# 2 - nsqrt (powi x1 2 + powi x2 2)) / # 4).
(** mod.rs:2681-2692 *)
Definition ursem_waves (x : list T) : outcome T :=
  _ ← rassert (bool_decide (length x = 2));
  x1 ← index x 0; x2 ← index x 1;
  Ok (- lit 9 10 * powi x1 2 + x1 * x2 * (powi x2 2 - lit 45 10 * powi x2 2) + lit 47 10 * ncos (# 3 * x1 - powi x2 2 * (# 2 + x1)) * nsin (lit 25 10 * npi)).
(** mod.rs:2698-2712 *)
Definition trefethen (x : list T) : outcome T :=
  _ ← rassert (bool_decide (length x = 2));
  x1 ← index x 0; x2 ← index x 1;
  Ok (npowf nE (nsin (# 50 * x1)) + nsin (# 60 * npowf nE x2) + nsin (# 70 * nsin x1) + nsin (nsin (# 80 * x2)) - nsin (# 10 * (x1 + x2)) + lit 25 100 * (powi x1 2 + powi x2 2)).
(** mod.rs:2718-2733 *)
Definition vss (x : list T) : outcome T :=
  _ ← rassert (bool_decide (length x = 2));
  x1 ← index x 0; x2 ← index x 1;
  Ok (powi x1 2 - # 100 * powi (ncos x1) 2 - # 100 * ncos (powi x1 2 / # 30) + powi x2 2 - # 100 * npowf (ncos x2) (# 2 - # 100 * ncos (powi x2 2 / # 30))).
(** mod.rs:2741-2750 *)
Definition wayburn_seader1 (x : list T) : outcome T :=
  _ ← rassert (bool_decide (length x = 2));
  x1 ← index x 0; x2 ← index x 1;
  Ok (powi (powi x1 6 + powi x2 4 - # 17) 2 + powi (# 2 * x1 + x2 - # 4) 2).
(** mod.rs:2758-2770 *)
Definition wayburn_seader2 (x : list T) : outcome T :=
  _ ← rassert (bool_decide (length x = 2));
  x1 ← index x 0; x2 ← index x 1;
  Ok (powi (lit 1613 1000 - # 4 * powi (x1 - lit 3125 10000) 2 - # 4 * powi (x2 - lit 1625 1000) 2) 2 + powi (x1 - # 2) 2).
(** mod.rs:2778-2789 *)
Definition wayburn_seader3 (x : list T) : outcome T :=
  _ ← rassert (bool_decide (length x = 2));
  x1 ← index x 0; x2 ← index x 1;
  Ok (# 2 * powi x1 3 / # 3 - # 8 * powi x1 2 + # 33 * x1 - x1 * x2 + # 5 + powi (powi (x1 - # 4) 2 + powi (x2 - # 5) 2 - # 4) 2).
(** mod.rs:2794-2796 *)
Definition wordmax (chromosome : list bool) : T := of_nat (length (filter (fun gene => gene = true) chromosome)).
(** mod.rs:2803-2813 *)
Definition wolfe (x : list T) : outcome T :=
  _ ← rassert (bool_decide (length x = 3));
  x1 ← index x 0; x2 ← index x 1; x3 ← index x 2;
  Ok (nlit (4 / 3)%Z 1 * npowf (powi x1 2 + powi x2 2 - x1 * x2) (lit 75 100) + x3).
(** mod.rs:2835-2847 *)
Definition xin_she_yang_2 (x : list T) : outcome T :=
  _ ← rassert (bool_decide (x <> []));
  let '(temp1, temp2) := foldl (fun t x_curr => (t.1 + nabs x_curr, t.2 + nsin (powi x_curr 2))) (# 0, # 0) x in
  Ok (temp1 * nexp (- temp2)).
(** mod.rs:2853-2865 *)
Definition zakharov (x : list T) : outcome T :=
  _ ← rassert (bool_decide (x <> []));
  let '(temp1, temp2) := foldl (fun t '(index, x_curr) => (t.1 + powi x_curr 2, t.2 + lit 5 10 * of_nat (index + 1)%nat * x_curr)) (# 0, # 0) (imap pair x) in
  Ok (temp1 + powi temp2 2 + powi temp2 4).
(** mod.rs:2873-2882 *)
Definition zettl (x : list T) : outcome T :=
  _ ← rassert (bool_decide (length x = 2));
  x1 ← index x 0; x2 ← index x 1;
  Ok (powi (powi x1 2 + powi x2 2 - # 2 * x1) 2 + lit 25 100 * x1).
(** mod.rs:2890-2899 *)
Definition zirilli (x : list T) : outcome T :=
  _ ← rassert (bool_decide (length x = 2));
  x1 ← index x 0; x2 ← index x 1;
  Ok (lit 25 100 * powi x1 4 - lit 5 10 * powi x1 2 + lit 1 10 * x1 + lit 5 10 * powi x2 2).
End Functions.
