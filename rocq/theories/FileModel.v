(** * Result files on a disk whose operations may fail: the file-writing probes of the solvers and [write_cities_csv]
    (src/pso/probe, src/ff/probe, src/aco/probe, src/ga/probe, src/aco/tsp/util.rs).  The other models of these probes assume that
    file operations succeed; here they are composed with a disk. *)
From Verif Require Export AcoProbeModel PsoExampleModel FfExampleModel AcoTspGenModel.
From stdpp Require Import strings.
Open Scope nat_scope.

(** ** Files *)
(** A CSV field; the text of a number is not modelled (the csv crate writes every double, also infinities and NaN, in a form that reads back). *)
Inductive field := FText (s : string) | FInt (n : nat) | FNum (x : f64).
(** JSON values as serde_json writes them; it has no notation for infinities and NaN and writes [null] for them *)
Inductive json := JsNull | JsInt (n : nat) | JsNum (x : f64) | JsArray (l : list json) | JsObject (l : list (string * json)).
Definition json_f64 (x : f64) : json := match x with S754_zero _ | S754_finite _ _ _ => JsNum x | _ => JsNull end.
(** [Damaged]: what a write that failed halfway leaves. *)
Inductive content := Lines (l : list (list field)) | JsonText (j : json) | Damaged.
Definition disk := string -> option content.
Definition put (p : string) (c : content) (k : disk) : disk := fun q => if String.eqb q p then Some c else k q.
(** Which files can be created, and on which files writes succeed.  The answer does not change during a run. *)
Record device := Device { opens : string -> bool; stores : string -> bool }.
Inductive saved := NotOpened | NotWritten | Saved.

(** csv crate, [WriterBuilder::from_path] (creates or truncates the file), [write_record] for every line, [flush]: a failing write is
    reported by [flush] at the latest; without lines nothing is written and nothing fails. *)
Definition csv_write (d : device) (p : string) (lines : list (list field)) (k : disk) : disk * saved :=
  if opens d p then
    let k := put p (Lines []) k in
    match lines with
    | [] => (k, Saved)
    | _ => if stores d p then (put p (Lines lines) k, Saved) else (put p Damaged k, NotWritten)
    end
  else (k, NotOpened).
(** csv crate, [serialize]: the names of the fields are written before the first record, so not at all without records. *)
Definition with_header (names : list string) (rows : list (list field)) : list (list field) :=
  match rows with [] => [] | _ => map FText names :: rows end.
(** [File::create], [serde_json::to_writer_pretty], [flush] *)
Definition json_write (d : device) (p : string) (j : json) (k : disk) : disk * saved :=
  if opens d p then
    if stores d p then (put p (JsonText j) k, Saved) else (put p Damaged k, NotWritten)
  else (k, NotOpened).
Definition is_opened (s : saved) : bool := match s with NotOpened => false | _ => true end.
Definition is_saved (s : saved) : bool := match s with Saved => true | _ => false end.

(** ** Probes that leave something behind when they panic *)
(** One callback: the new state of the world, and whether the callback returned ([false]: it panicked). *)
Definition step (E W : Type) := W -> E -> W * bool.
(** The callbacks of a run; a panic ends it. *)
Fixpoint watch {E W} (p : step E W) (w : W) (evs : list E) : W * bool :=
  match evs with
  | [] => (w, true)
  | e :: evs => let '(w, ok) := p w e in if ok : bool then watch p w evs else (w, false)
  end.
(** A solver run with such a probe: it returns its result only if no callback panics. *)
Definition observed {E W A} (p : step E W) (w : W) (run : outcome (list E * A)) : W * outcome A :=
  match run with
  | Ok (evs, a) => let '(w, ok) := watch p w evs in (w, if ok : bool then Ok a else Panic)
  | Panic => (w, Panic)
  | Diverge => (w, Diverge)
  end.
(** The fields of a probe and the disk; [p] as in the model without a disk, [at_end] (with the fields at that time) writes the files. *)
Definition on_disk {E W} (is_end : E -> bool) (p : probe E W) (at_end : W -> disk -> disk * bool) : step E (W * disk) := fun '(w, k) e =>
  match p w e with
  | Ok w => if is_end e then let '(k, ok) := at_end w k in ((w, k), ok) else ((w, k), true)
  | _ => ((w, k), false)
  end.
(** Two probes of an aggregated probe: the second one is not called if the first one panics. *)
Definition both {E V W K} (p : step E (V * K)) (q : step E (W * K)) : step E (V * W * K) := fun '(v, w, k) e =>
  let '(v, k, ok) := p (v, k) e in
  if ok : bool then let '(w, k, ok) := q (w, k) e in ((v, w, k), ok) else ((v, w, k), false).

(** ** Particle swarm *)
Definition pso_ends (e : pso_event) : bool := match e with PsoEnd _ _ => true | _ => false end.
(** src/pso/probe/csv_probe.rs:5-9 [Record], 31-41 [on_end]: [unwrap] on the creation, messages on standard error otherwise *)
Definition pso_csv_row (x : nat * f64) : list field := [FInt x.1; FNum x.2].
Definition pso_csv_save (d : device) (p : string) (c : pso_csv) (k : disk) : disk * bool :=
  let '(k, s) := csv_write d p (with_header ["generation"; "best_value"]%string (map pso_csv_row (csv_records c))) k in (k, is_opened s).
Definition pso_csv_disk (d : device) (p : string) : step pso_event (pso_csv * disk) := on_disk pso_ends pso_csv_probe (pso_csv_save d p).
(** src/pso/probe/json_probe.rs:7-12, 34-42 *)
Definition pso_json_row (x : nat * f64 * list f64) : json :=
  let '(n, v, pos) := x in JsObject [("generation", JsInt n); ("best_value", json_f64 v); ("best_position", JsArray (map json_f64 pos))]%string.
Definition pso_json_save (d : device) (p : string) (c : pso_log) (k : disk) : disk * bool :=
  let '(k, s) := json_write d p (JsArray (map pso_json_row (log_records c))) k in (k, is_opened s).
Definition pso_json_disk (d : device) (p : string) : step pso_event (pso_log * disk) := on_disk pso_ends pso_json_probe (pso_json_save d p).

(** ** Firefly algorithm *)
Definition ff_ends (e : ff_event) : bool := match e with FfEnd => true | _ => false end.
(** src/ff/probe/csv_probe.rs:4-8, 53-65 *)
Definition ff_csv_row (x : nat * f64) : list field := [FInt x.1; FNum x.2].
Definition ff_csv_save (d : device) (p : string) (c : ff_csv) (k : disk) : disk * bool :=
  let '(k, s) := csv_write d p (with_header ["iteration"; "best_value"]%string (map ff_csv_row (fc_records c))) k in (k, is_opened s).
Definition ff_csv_disk (d : device) (p : string) : step ff_event (ff_csv * disk) := on_disk ff_ends ff_csv_probe (ff_csv_save d p).
(** src/ff/probe/json_probe.rs:7-12, 56-66 *)
Definition ff_json_row (x : nat * f64 * list f64) : json :=
  let '(n, v, pos) := x in JsObject [("iteration", JsInt n); ("best_value", json_f64 v); ("best_position", JsArray (map json_f64 pos))]%string.
Definition ff_json_save (d : device) (p : string) (c : ff_log) (k : disk) : disk * bool :=
  let '(k, s) := json_write d p (JsArray (map ff_json_row (fl_records c))) k in (k, is_opened s).
Definition ff_json_disk (d : device) (p : string) : step ff_event (ff_log * disk) := on_disk ff_ends ff_json_probe (ff_json_save d p).

(** ** Ant colony *)
Definition aco_ends {Ph} (e : aco_event Ph) : bool := match e with AcoEnd => true | _ => false end.
(** src/aco/probe/csv_probe.rs:8-23, 46-60 [flush]: the names of the files are fixed; every failure panics *)
Definition edge_line (r : edge_row) : list field := [FInt (er_from r); FInt (er_to r); FInt (er_iter r)].
Definition cell_line (r : cell_row) : list field := [FInt (cr_from r); FInt (cr_to r); FInt (cr_iter r); FNum (cr_val r)].
Definition aco_csv_save (d : device) (c : csv_probe) (k : disk) : disk * bool :=
  let '(k, s) := csv_write d "best.csv"%string (with_header ["from"; "to"; "iter"]%string (map edge_line (csv_best_sols c))) k in
  if is_saved s then
    let '(k, s) := csv_write d "pheromone.csv"%string (with_header ["from"; "to"; "iter"; "val"]%string (map cell_line (csv_pher c))) k in (k, is_saved s)
  else (k, false).
Definition aco_csv_disk (d : device) : step (aco_event matrix) (csv_probe * disk) := on_disk aco_ends aco_csv (aco_csv_save d).
(** src/aco/probe/json_probe.rs:28-41 (the value of one iteration), 66-75 [flush]; src/aco/solution.rs:38-50 *)
Definition json_solution (s : solution) : json := JsObject [("path", JsArray (map JsInt (sol_path s))); ("fitness", json_f64 (sol_fitness s))]%string.
Definition json_iteration (x : list (list f64) * solution) : json :=
  JsObject [("pheromone", JsArray (map (fun row => JsArray (map json_f64 row)) x.1)); ("solution", json_solution x.2)]%string.
Definition aco_json_save (d : device) (p : string) (c : json_probe) (k : disk) : disk * bool :=
  let '(k, s) := json_write d p (JsArray (map (fun i => json_iteration (serialize_iteration i)) (js_iterations c))) k in (k, is_opened s).
Definition aco_json_disk (d : device) (p : string) : step (aco_event matrix) (json_probe * disk) := on_disk aco_ends aco_json (aco_json_save d p).

(** src/aco/tsp/util.rs:56-65 [write_cities_csv]: [true] for Ok, [false] for Err *)
Definition write_cities_csv (d : device) (cities : list (f64 * f64)) (p : string) (k : disk) : disk * bool :=
  let '(k, s) := csv_write d p ([FText "x"; FText "y"]%string :: map (fun c => [FNum c.1; FNum c.2]) cities) k in (k, is_saved s).

(** ** Genetic algorithm *)
(** src/ga/probe/csv_probe.rs:17-24, json_probe.rs:19-29 [new]: the file is created at once; these probes have no callbacks (their
    [Probe] implementations are commented out), so it is never written. *)
Definition ga_file_probe_new (d : device) (p : string) (k : disk) : disk * bool :=
  if opens d p then (put p (Lines []) k, true) else (k, false).
