(** * The firefly example programs (examples/ff.rs, examples/ff_logging.rs) *)
From Verif Require Export FfModel TfSpec TfModel.
Open Scope nat_scope.

(** src/ff/probe/stdout_probe.rs:3-31: what is printed; one constructor per callback, with the printed numbers *)
Inductive ff_text :=
| TextStart
| TextIteration (i : nat)
| TextBest (v : f64) (x : list f64)
| TextRule
| TextEnd.
Definition ff_stdout_probe : probe ff_event (list ff_text) := fun out e =>
  Ok (out ++ [match e with FfStart => TextStart | FfIterStart i => TextIteration i | FfCurrentBest v x => TextBest v x | FfIterEnd _ => TextRule | FfEnd => TextEnd end]).
(** src/ff/probe/csv_probe.rs:4-67: the fields, and what has been written; file errors: FileModel *)
Record ff_csv := FfCsv { fc_records : list (nat * f64); fc_iteration : nat; fc_best : f64; fc_position : list f64; fc_file : option (list (nat * f64)) }.
Definition ff_csv_new : ff_csv := FfCsv [] 0 f0 [] None.
Definition ff_csv_probe : probe ff_event ff_csv := fun l e =>
  let 'FfCsv rs i b x file := l in
  match e with
  | FfStart => Ok l
  | FfIterStart i => Ok (FfCsv rs i b x file)
  | FfCurrentBest b x => Ok (FfCsv rs i b x file)
  | FfIterEnd _ => Ok (FfCsv (rs ++ [(i, b)]) i b x file)
  | FfEnd => Ok (FfCsv rs i b x (Some rs))
  end.

(** src/ff.rs:77-91 [Default for FireflyAlgorithm]: unlike the builder's, the objective is [sphere].  Objectives are total in FfModel; where [sphere]
    would panic (no coordinates) the value is left NaN.  [sq] is powi(_, 2); probe 0 is the StdoutProbe. *)
Definition sphere_objective (L : libm) (x : list f64) : f64 := match sphere (num := num_f64 L) x with Ok v => v | _ => S754_nan end.
Definition ff_default (L : libm) (sq : f64 -> f64) (r : rng) : outcome (firefly * rng) :=
  '(pop, r) ← from_config ff_default_cfg r;
  Ok (Firefly ff_default_cfg (sphere_objective L) 0 (cartesian_distance sq) pop, r).

(** examples/ff.rs:5-9: what is printed *)
Definition ff_example (L : libm) (powf : f64 -> f64 -> f64) (sq : f64 -> f64) (r : rng) : outcome (list ff_text) :=
  '(a, r) ← ff_default L sq r;
  '(evs, _) ← ff_solve powf sq a r;
  feed ff_stdout_probe [] evs.
(** examples/ff_logging.rs:11-26: standard output and firefly_example.csv; the probe is number 1, [debug] as in ff_interval_policy *)
Definition both_probes : probe ff_event (list ff_text * ff_csv) :=
  aggregated (aggregated_add (aggregated_add aggregated_new
    (fun w e => x ← ff_stdout_probe (fst w) e; Ok (x, snd w)))
    (fun w e => x ← ff_csv_probe (snd w) e; Ok (fst w, x))).
Definition ff_logging_example (debug : bool) (L : libm) (powf : f64 -> f64 -> f64) (sq : f64 -> f64) (r : rng) : outcome (list ff_text * ff_csv) :=
  '(a, r) ← ff_default L sq r;
  let a := ff_set a (FfSetProbe 1) in
  '(evs, _) ← ff_solve powf sq a r;
  '(_, out) ← feed (policy_driven (ff_interval_policy debug) both_probes) (gi_new 15 25, ([], ff_csv_new)) evs;
  Ok out.
