(** * The particle swarm example program (examples/pso_multiple_probes.rs) *)
From Verif Require Export PsoModel TfSpec TfModel.
Open Scope nat_scope.

(** src/pso/probe/stdout_probe.rs:4-33: what is printed, the text of a swarm being represented by the swarm *)
Inductive pso_text :=
| SwarmAtStart (s : swarm)
| SwarmAfter (generations : nat) (s : swarm)
| SwarmAtEnd (s : swarm).
Definition pso_stdout_probe : probe pso_event (list pso_text) := fun out e =>
  match e with
  | PsoBegin s => Ok (out ++ [SwarmAtStart s])
  | PsoNewGeneration s n => Ok (out ++ [SwarmAfter n s])
  | PsoEnd s _ => Ok (out ++ [SwarmAtEnd s])
  end.
(** src/pso/probe/csv_probe.rs:5-50: the records collected so far and what has been written; file errors: FileModel *)
Record pso_csv := PsoCsv { csv_records : list (nat * f64); csv_file : option (list (nat * f64)) }.
Definition pso_csv_push (c : pso_csv) (s : swarm) (n : nat) : pso_csv := PsoCsv (csv_records c ++ [(n, gbest_value s)]) (csv_file c).
Definition pso_csv_probe : probe pso_event pso_csv := fun c e =>
  match e with
  | PsoBegin s => Ok (pso_csv_push c s 0)
  | PsoNewGeneration s n => Ok (pso_csv_push c s n)
  | PsoEnd _ _ => Ok (PsoCsv (csv_records c) (Some (csv_records c)))
  end.

(** What the program leaves behind: standard output, pso_example.csv and pso_example.json *)
Record pso_output := PsoOutput { printed : list pso_text; in_csv : pso_csv; in_json : pso_log }.
Definition on_stdout (p : probe pso_event (list pso_text)) : probe pso_event pso_output :=
  fun w e => x ← p (printed w) e; Ok (PsoOutput x (in_csv w) (in_json w)).
Definition on_csv (p : probe pso_event pso_csv) : probe pso_event pso_output :=
  fun w e => x ← p (in_csv w) e; Ok (PsoOutput (printed w) x (in_json w)).
Definition on_json (p : probe pso_event pso_log) : probe pso_event pso_output :=
  fun w e => x ← p (in_json w) e; Ok (PsoOutput (printed w) (in_csv w) x).

(** src/pso.rs:56 and src/test_functions/mod.rs, the default objective as a plain function.  Objectives are total in PsoModel; where [rosenbrock]
    would panic (below two coordinates) the value is left NaN. *)
Definition default_objective (L : libm) (x : list f64) : f64 := match rosenbrock (num := num_f64 L) x with Ok v => v | _ => S754_nan end.

(** examples/pso_multiple_probes.rs:5-26.  [clock], [sched] and [workers] as in PsoModel; the probe is number 1. *)
Definition pso_example (L : libm) (clock : nat -> N) (sched : nat -> list (nat * nat) * list nat) (workers : list rng) (fuel : nat) (r : rng)
  : outcome pso_output :=
  let aggregated_probe := aggregated (aggregated_with [on_stdout pso_stdout_probe; on_csv pso_csv_probe; on_json pso_json_probe]) in
  '(c, s, _) ← pso_build (default_objective L) [SetDimensions 3; SetGenerationLimit 2000; PsoModel.SetProbe 1] r;
  '(evs, _) ← pso_solve clock sched workers fuel c s;
  '(_, out) ← feed (pso_policy_driven (pso_interval_policy 50) aggregated_probe) (0, PsoOutput [] (PsoCsv [] None) (PsoLog [] None)) evs;
  Ok out.
