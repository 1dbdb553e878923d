(** * Property theorems: what the firefly example programs write (C115) *)
From Verif Require Import FfExampleModel FfSpec FfExampleProofs.
Open Scope nat_scope.

(** Bests reported over 1000 generations: [value i] is a number, never negative, never grows, is the least value of the sphere function at the reported
    positions so far (or still f64::MAX), and the reported positions are points of the square [-5, 5]^2. *)
Definition sphere_bests (L : libm) (value : nat -> f64) (position : nat -> list f64) : Prop :=
  forall i, i < 1000 ->
    is_nan (value i) = false /\ fle f0 (value i) = true /\ (forall j, i <= j -> j < 1000 -> fle (value j) (value i) = true) /\
    (value i = fmax \/ exists k, k <= i /\ sphere (num := num_f64 L) (position k) = Ok (value i)) /\
    (forall k v, k <= i -> sphere (num := num_f64 L) (position k) = Ok v -> is_nan v = false -> fle (value i) v = true) /\
    length (position i) = 2 /\ Forall (in_bounds (fneg (f_of_nat 5)) (f_of_nat 5)) (position i).

(** ** C115 *)
(** examples/ff.rs returns for all draws and has printed 1000 generations. *)
Theorem C115_ff_example :
  forall (L : libm) powf sq r, exists value position,
  ff_example L powf sq r = Ok (TextStart :: concat (map (fun i => [TextIteration i; TextBest (value i) (position i); TextRule]) (seq 0 1000)) ++ [TextEnd]) /\
  sphere_bests L value position.
Proof. exact ff_example_run. Qed.
Print Assumptions C115_ff_example.

(** examples/ff_logging.rs returns for all draws; it prints and writes to its CSV file generations 25, 40, ..., 985 only, the last ones of the run missing. *)
Theorem C115_ff_logging_example :
  forall debug (L : libm) powf sq r, exists value position csv,
  ff_logging_example debug L powf sq r =
    Ok (TextStart :: concat (map (fun k => [TextIteration (25 + 15 * k); TextBest (value (25 + 15 * k)) (position (25 + 15 * k)); TextRule]) (seq 0 65)) ++ [TextEnd], csv) /\
  fc_file csv = Some (map (fun k => (25 + 15 * k, value (25 + 15 * k))) (seq 0 65)) /\ sphere_bests L value position.
Proof. exact ff_logging_run. Qed.
Print Assumptions C115_ff_logging_example.
