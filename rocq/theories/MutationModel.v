(** * Mutation operators (src/ga/operators/mutation/impls.rs)

    Each operator mutates the chromosome in place; the model returns the new chromosome and the RNG.
    [r] is the operator's own RNG, [t] the process-wide [rand::thread_rng()].  (When the operator's own RNG
    is itself ThreadRng the two streams are interleavings of one; every outcome is still one of the model's.) *)
From Verif Require Export IndividualModel.
Open Scope nat_scope.

Section Mutation.
Context {G : Type}.

(** impls.rs:26-28 [Identity::apply] *)
Definition identity_mut (ch : list G) (r t : rng) : outcome (list G * rng * rng) := Ok (ch, r, t).

(** impls.rs:131-137: body of the loop of [Interchange::apply]. *)
Definition interchange_step (rate : f64) (len : nat) (s : list G * rng * rng) (i : nat)
  : outcome (list G * rng * rng) :=
  let '(ch, r, t) := s in
  let '(u, r1) := uni_f64 r in
  if flt u rate then
    '(j, t1) ← gen_range 0 len t;
    gene ← index ch j;
    gi ← index ch i;
    ch ← assign ch j gi;
    ch ← assign ch i gene;
    Ok (ch, r1, t1)
  else Ok (ch, r1, t).
(** impls.rs:123-138 [Interchange::apply]; [Uniform::from(0..0)] panics. *)
Definition interchange (rate : f64) (ch : list G) (r t : rng) : outcome (list G * rng * rng) :=
  _ ← rassert (bool_decide (0 < length ch));
  ofold (interchange_step rate (length ch)) (ch, r, t) (seq 0 (length ch)).

(** impls.rs:186-192: body of the loop of [Reversing::apply]. *)
Definition reversing_step (rate : f64) (s : list G * rng * rng) (i : nat) : outcome (list G * rng * rng) :=
  let '(ch, r, t) := s in
  let '(u, r1) := uni_f64 r in
  if flt u rate then
    gene ← index ch i;
    prev ← index ch (i - 1);
    ch ← assign ch i prev;
    ch ← assign ch (i - 1) gene;
    Ok (ch, r1, t)
  else Ok (ch, r1, t).
(** impls.rs:181-193 [Reversing::apply] *)
Definition reversing (rate : f64) (ch : list G) (r t : rng) : outcome (list G * rng * rng) :=
  ofold (reversing_step rate) (ch, r, t) (seq 1 (length ch - 1)).

(** impls.rs:253-257: the while loop of [Inversion::apply]. *)
Fixpoint inversion_loop (fuel from to : nat) (ch : list G) : outcome (list G) :=
  match fuel with
  | 0 => Diverge
  | S fuel =>
      if decide (from < to) then ch ← swap from to ch; inversion_loop fuel (from + 1) (to - 1) ch
      else Ok ch
  end.
(** impls.rs:240-258 [Inversion::apply] *)
Definition inversion (rate : f64) (ch : list G) (r t : rng) : outcome (list G * rng * rng) :=
  let '(u, r1) := gen_f64 r in
  if fgt u rate then Ok (ch, r1, t)
  else
    '(from, r2) ← gen_range 0 (length ch) r1;
    '(to, r3) ← gen_range from (length ch) r2;
    ch ← inversion_loop (S (length ch)) from to ch;
    Ok (ch, r3, t).
End Mutation.

(** impls.rs:75-79: body of the loop of [FlipBit::apply]. *)
Definition flip_step (rate : f64) (s : list bool * rng * rng) (i : nat) : outcome (list bool * rng * rng) :=
  let '(ch, r, t) := s in
  let '(u, r1) := uni_f64 r in
  if flt u rate then
    g ← index ch i;
    ch ← assign ch i (negb g);
    Ok (ch, r1, t)
  else Ok (ch, r1, t).
(** impls.rs:70-80 [FlipBit::apply] *)
Definition flip_bit (rate : f64) (ch : list bool) (r t : rng) : outcome (list bool * rng * rng) :=
  ofold (flip_step rate) (ch, r, t) (seq 0 (length ch)).

(** The operator trait on individuals (src/ga/operators/mutation.rs:12-19): [chromosome_mut] only, so the
    fitness field is left as it is. *)
Definition mutate_individual {G} (op : list G -> rng -> rng -> outcome (list G * rng * rng))
    (a : individual G) (r t : rng) : outcome (individual G * rng * rng) :=
  '(ch, r1, t1) ← op (chromosome a) r t; Ok (Ind ch (fitness a), r1, t1).
