(** * Probes and builder of the ant colony solver (src/aco/probe/, src/aco/builder.rs) *)
From Verif Require Export AcoModel ProbeModel.
Open Scope nat_scope.

(** ** CsvProbe *)
(** src/aco/probe/csv_probe.rs:8-23: [BestSolutionRecord] and [FMatrixRecord] *)
Record edge_row := EdgeRow { er_from : nat; er_to : nat; er_iter : nat }.
Record cell_row := CellRow { cr_from : nat; cr_to : nat; cr_iter : nat; cr_val : f64 }.
(** csv_probe.rs:28-33: the fields of [CsvProbe]; the last two are the files best.csv and pheromone.csv, [None] as long as
    they have not been created by this probe. *)
Record csv_probe := Csv {
  csv_iteration : nat; csv_best_sols : list edge_row; csv_pher : list cell_row; csv_best_sol : solution;
  best_csv : option (list edge_row); pheromone_csv : option (list cell_row) }.
(** csv_probe.rs:36-43 [new] *)
Definition csv_new : csv_probe := Csv 0 [] [] sol_default None None.
(** csv_probe.rs:46-60 [flush]; file operations succeed here (failures: FileModel), and one write is one step. *)
Definition csv_flush (c : csv_probe) : csv_probe :=
  Csv (csv_iteration c) (csv_best_sols c) (csv_pher c) (csv_best_sol c) (Some (csv_best_sols c)) (Some (csv_pher c)).
(** csv_probe.rs:64-74 [on_pheromone_update]: the pushes of the two nested loops *)
Definition csv_push_pheromone (c : csv_probe) (m : matrix) : csv_probe :=
  foldl (fun c i => foldl (fun c j =>
      Csv (csv_iteration c) (csv_best_sols c) (csv_pher c ++ [CellRow i j (csv_iteration c) (entry m i j)]) (csv_best_sol c) (best_csv c) (pheromone_csv c))
    c (seq 0 (ncols m))) c (seq 0 (nrows m)).
(** csv_probe.rs:84-97 [on_iteration_end]: the pushes of the loop *)
Definition csv_push_best (c : csv_probe) : csv_probe :=
  foldl (fun c '(i, j) =>
      Csv (csv_iteration c) (csv_best_sols c ++ [EdgeRow i j (csv_iteration c)]) (csv_pher c) (csv_best_sol c) (best_csv c) (pheromone_csv c))
    c (windows (sol_path (csv_best_sol c))).
(** csv_probe.rs:63-102 *)
Definition aco_csv : probe (aco_event matrix) csv_probe := fun c e =>
  match e with
  | AcoPheromoneUpdate m => Ok (csv_push_pheromone c m)
  | AcoCurrentBest b => Ok (Csv (csv_iteration c) (csv_best_sols c) (csv_pher c) b (best_csv c) (pheromone_csv c))
  | AcoIterationStart => Ok (Csv (csv_iteration c + 1) (csv_best_sols c) (csv_pher c) (csv_best_sol c) (best_csv c) (pheromone_csv c))
  | AcoIterationEnd => Ok (csv_push_best c)
  | AcoEnd => Ok (csv_flush c)
  end.

(** ** JsonProbe *)
(** src/aco/probe/json_probe.rs:15-26 [IterationData], its default *)
Record iteration_data := IterData { it_pheromone : matrix; it_best : solution }.
Definition iteration_default : iteration_data := IterData (mrepeat 0 0 f0) sol_default.
(** json_probe.rs:94-101 [into_vec] *)
Definition into_vec (m : matrix) : list (list f64) :=
  foldl (fun v i => v ++ [map (fun j => entry m i j) (seq 0 (ncols m))]) [] (seq 0 (nrows m)).
(** json_probe.rs:28-41: what is written for one iteration (the fields pheromone and solution; the text of numbers is not
    modelled). *)
Definition serialize_iteration (d : iteration_data) : list (list f64) * solution := (into_vec (it_pheromone d), it_best d).
(** json_probe.rs:46-57: [JsonProbe]; the second field is the file, [None] as long as this probe has not created it. *)
Record json_probe := Json { js_iterations : list iteration_data; js_file : option (list (list (list f64) * solution)) }.
Definition json_new : json_probe := Json [] None.
(** [Vec::last_mut().unwrap()] followed by an assignment *)
Definition set_last {A} (f : A -> A) (l : list A) : outcome (list A) :=
  x ← unwrap (last l); Ok (take (length l - 1) l ++ [f x]).
(** json_probe.rs:60-92 *)
Definition aco_json : probe (aco_event matrix) json_probe := fun s e =>
  match e with
  | AcoPheromoneUpdate m => l ← set_last (fun d => IterData m (it_best d)) (js_iterations s); Ok (Json l (js_file s))
  | AcoCurrentBest b => l ← set_last (fun d => IterData (it_pheromone d) b) (js_iterations s); Ok (Json l (js_file s))
  | AcoIterationStart => Ok (Json (js_iterations s ++ [iteration_default]) (js_file s))
  | AcoIterationEnd => Ok s
  | AcoEnd => Ok (Json (js_iterations s) (Some (map serialize_iteration (js_iterations s))))
  end.

(** ** StdoutProbe *)
(** src/aco/probe/stdout_probe.rs: the lines printed *)
Inductive aco_line := LIteration (k : nat) | LBestFitness (v : f64) | LSeparator | LEnd.
(** stdout_probe.rs:5-14: the field [iteration], and the lines printed so far *)
Definition stdout_new : nat * list aco_line := (0, []).
(** stdout_probe.rs:16-33; pheromone updates are ignored (the default body, src/aco/probe.rs:20) *)
Definition aco_stdout {Ph} : probe (aco_event Ph) (nat * list aco_line) := fun '(n, out) e =>
  match e with
  | AcoPheromoneUpdate _ => Ok (n, out)
  | AcoCurrentBest b => Ok (n, out ++ [LBestFitness (sol_fitness b)])
  | AcoIterationStart => Ok (n + 1, out ++ [LIteration (n + 1)])
  | AcoIterationEnd => Ok (n, out ++ [LSeparator])
  | AcoEnd => Ok (n, out ++ [LEnd])
  end.

(** ** Builder *)
(** src/aco/builder.rs:15-36: the optional fields.  The last type parameter [HasArgs] of the Rust type only says which of
    the two [build] functions can be called; it is the separate function [aco_set_args] here. *)
Record aco_builder (P C G T Pr Ph A : Type) := ABuilder {
  ab_update : option P; ab_grader : option G; ab_colony : option C; ab_termination : option T;
  ab_start : option Ph; ab_probe : option Pr; ab_args : option A }.
Arguments ABuilder {_ _ _ _ _ _ _} _ _ _ _ _ _ _.
Arguments ab_update {_ _ _ _ _ _ _} _.
Arguments ab_grader {_ _ _ _ _ _ _} _.
Arguments ab_colony {_ _ _ _ _ _ _} _.
Arguments ab_termination {_ _ _ _ _ _ _} _.
Arguments ab_start {_ _ _ _ _ _ _} _.
Arguments ab_probe {_ _ _ _ _ _ _} _.
Arguments ab_args {_ _ _ _ _ _ _} _.
(** src/aco.rs:53-64: the solver that [build] returns *)
Record aco_solver (P C G T Pr Ph A : Type) := ASolver {
  built_colony : C; built_pheromone : Ph; built_update : P; built_grader : G; built_termination : T; built_probe : Pr; built_args : A }.
Arguments ASolver {_ _ _ _ _ _ _} _ _ _ _ _ _ _.
Arguments built_colony {_ _ _ _ _ _ _} _.
Arguments built_pheromone {_ _ _ _ _ _ _} _.
Arguments built_update {_ _ _ _ _ _ _} _.
Arguments built_grader {_ _ _ _ _ _ _} _.
Arguments built_termination {_ _ _ _ _ _ _} _.
Arguments built_probe {_ _ _ _ _ _ _} _.
Arguments built_args {_ _ _ _ _ _ _} _.

(** The calls on a builder that keep its type (builder.rs:38-104). *)
Inductive aco_call (P C G T Pr Ph : Type) :=
| ASetProbe (x : Pr) | ASetUpdate (x : P) | ASetGrader (x : G) | ASetTermination (x : T) | ASetStart (x : Ph) | ASetColony (x : C).
Arguments ASetProbe {_ _ _ _ _ _} _.
Arguments ASetUpdate {_ _ _ _ _ _} _.
Arguments ASetGrader {_ _ _ _ _ _} _.
Arguments ASetTermination {_ _ _ _ _ _} _.
Arguments ASetStart {_ _ _ _ _ _} _.
Arguments ASetColony {_ _ _ _ _ _} _.

Section Builder.
Context {P C G T Pr Ph A : Type}.
(** builder.rs:146-157 [new] *)
Definition aco_builder_new : aco_builder P C G T Pr Ph A := ABuilder None None None None None None None.
(** builder.rs:49-103: the setters *)
Definition aco_set (b : aco_builder P C G T Pr Ph A) (c : aco_call P C G T Pr Ph) : aco_builder P C G T Pr Ph A :=
  match c with
  | ASetProbe x => ABuilder (ab_update b) (ab_grader b) (ab_colony b) (ab_termination b) (ab_start b) (Some x) (ab_args b)
  | ASetUpdate x => ABuilder (Some x) (ab_grader b) (ab_colony b) (ab_termination b) (ab_start b) (ab_probe b) (ab_args b)
  | ASetGrader x => ABuilder (ab_update b) (Some x) (ab_colony b) (ab_termination b) (ab_start b) (ab_probe b) (ab_args b)
  | ASetTermination x => ABuilder (ab_update b) (ab_grader b) (ab_colony b) (Some x) (ab_start b) (ab_probe b) (ab_args b)
  | ASetStart x => ABuilder (ab_update b) (ab_grader b) (ab_colony b) (ab_termination b) (Some x) (ab_probe b) (ab_args b)
  | ASetColony x => ABuilder (ab_update b) (ab_grader b) (Some x) (ab_termination b) (ab_start b) (ab_probe b) (ab_args b)
  end.
(** builder.rs:160-171 [set_additional_args] *)
Definition aco_set_args (b : aco_builder P C G T Pr Ph A) (a : A) : aco_builder P C G T Pr Ph A :=
  ABuilder (ab_update b) (ab_grader b) (ab_colony b) (ab_termination b) (ab_start b) (ab_probe b) (Some a).
(** builder.rs:124-138 [build] after [set_additional_args] *)
Definition aco_build_args (b : aco_builder P C G T Pr Ph A) : outcome (aco_solver P C G T Pr Ph A) :=
  c ← unwrap (ab_colony b); s ← unwrap (ab_start b); u ← unwrap (ab_update b); g ← unwrap (ab_grader b);
  t ← unwrap (ab_termination b); pr ← unwrap (ab_probe b); a ← unwrap (ab_args b);
  Ok (ASolver c s u g t pr a).
End Builder.
(** builder.rs:191-203 [build] without additional arguments *)
Definition aco_build {P C G T Pr Ph} (b : aco_builder P C G T Pr Ph ()) : outcome (aco_solver P C G T Pr Ph ()) :=
  c ← unwrap (ab_colony b); s ← unwrap (ab_start b); u ← unwrap (ab_update b); g ← unwrap (ab_grader b);
  t ← unwrap (ab_termination b); pr ← unwrap (ab_probe b);
  Ok (ASolver c s u g t pr tt).
(** builder.rs:223-226 [with_iteration_termination], src/aco/termination_condition.rs:38-43 [IterationCond::new] *)
Definition aco_with_iterations {P C G Pr Ph} (k : nat) : aco_call P C G (nat * nat) Pr Ph := ASetTermination (0, k).
(** builder.rs:239-242 [with_stdout_probe] *)
Definition aco_with_stdout {P C G T Ph} : aco_call P C G T (nat * list aco_line) Ph := ASetProbe stdout_new.

(** ** The run with its probe *)
Section Probed.
Context {Ph S T W : Type} (pr : probe (aco_event Ph) W) (c : aco Ph S T).
(** src/aco.rs:91-118 [iterate]: the callbacks are made while the iteration proceeds.  Colony, grader and update rule act on
    a state [S] of their own (the read-only additional arguments are part of the three functions). *)
Definition probed_iterate (p : Ph) (s : S) (w : W) : outcome (Ph * S * W) :=
  '(paths, p, s) ← colony c p s;
  sols ← omapM from_path paths;
  '(sols, s) ← grader c sols s;
  best ← find_best_sol sols;
  w ← pr w (AcoCurrentBest best);
  '(p, s) ← update c p sols s;
  w ← pr w (AcoPheromoneUpdate p);
  Ok (p, s, w).
(** aco.rs:79-86: the [while] loop, with fuel *)
Fixpoint probed_loop (fuel : nat) (p : Ph) (s : S) (t : T) (w : W) : outcome (Ph * S * W) :=
  match fuel with
  | 0 => Diverge
  | Datatypes.S fuel =>
      let '(stop, t) := tc_check c t p in
      if stop then Ok (p, s, w)
      else
        w ← pr w AcoIterationStart;
        '(p, s, w) ← probed_iterate p s w;
        w ← pr w AcoIterationEnd;
        probed_loop fuel p s t w
  end.
(** aco.rs:77-89, 120-122 [run], [end] *)
Definition probed_run (fuel : nat) (p : Ph) (s : S) (t : T) (w : W) : outcome (Ph * S * W) :=
  '(p, s, w) ← probed_loop fuel p s (tc_init c t) w;
  w ← pr w AcoEnd;
  Ok (p, s, w).
End Probed.
