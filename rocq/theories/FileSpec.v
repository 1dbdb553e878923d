(** * Vocabulary for result files: what the files contain *)
From Verif Require Import FileModel AcoSpec AcoProbeSpec PsoSpec FfSpec.
From stdpp Require Import strings.
Open Scope nat_scope.

Definition names (l : list string) : list field := map FText l.
(** A number in JSON: there is no notation for infinities and NaN. *)
Definition shown (x : f64) : json := if is_nan x || feq x finf || feq x (fneg finf) then JsNull else JsNum x.
(** Particle swarm: generation n with the best swarm [s] so far.  [seen]: the generations a list of callbacks tells about. *)
Definition seen (e : pso_event) : list (nat * swarm) :=
  match e with PsoBegin s => [(0, s)] | PsoNewGeneration s n => [(n, s)] | PsoEnd _ _ => [] end.
Definition pso_lines (l : list (nat * swarm)) : list (list field) :=
  names ["generation"; "best_value"]%string :: map (fun '(n, s) => [FInt n; FNum (gbest_value s)]) l.
Definition pso_values (l : list (nat * swarm)) : json :=
  JsArray (map (fun '(n, s) => JsObject [("generation", JsInt n); ("best_value", shown (gbest_value s)); ("best_position", JsArray (map shown (gbest s)))]%string) l).
(** Firefly algorithm: iteration i reports the value [b] and the position [x].  Without iterations the CSV file is empty: not even names. *)
Definition ff_lines (l : list (list (list f64) * f64 * list f64)) : list (list field) :=
  match l with [] => [] | _ => names ["iteration"; "best_value"]%string :: imap (fun i e => [FInt i; FNum e.1.2]) l end.
Definition ff_values (l : list (list (list f64) * f64 * list f64)) : json :=
  JsArray (imap (fun i e => JsObject [("iteration", JsInt i); ("best_value", shown e.1.2); ("best_position", JsArray (map shown e.2))]%string) l).
(** Ant colony: best.csv, pheromone.csv and the JSON file, from the best solutions and pheromones of the iterations *)
Definition best_lines (l : list (solution * matrix)) : list (list field) :=
  match best_rows l with [] => [] | rows => names ["from"; "to"; "iter"]%string :: map (fun r => [FInt (er_from r); FInt (er_to r); FInt (er_iter r)]) rows end.
Definition pheromone_lines (l : list (solution * matrix)) : list (list field) :=
  match pheromone_rows l with [] => [] | rows =>
    names ["from"; "to"; "iter"; "val"]%string :: map (fun r => [FInt (cr_from r); FInt (cr_to r); FInt (cr_iter r); FNum (cr_val r)]) rows end.
Definition aco_values (l : list (solution * matrix)) : json :=
  JsArray (map (fun '(b, q) => JsObject [("pheromone", JsArray (map (fun row => JsArray (map shown row)) (matrix_rows q)));
    ("solution", JsObject [("path", JsArray (map JsInt (sol_path b))); ("fitness", shown (sol_fitness b))])]%string) l).
(** All these lines can be stored in the file: it can be created, and writes succeed if there is anything to write. *)
Definition fine (d : device) (p : string) (lines : list (list field)) : Prop := opens d p = true /\ (lines = [] \/ stores d p = true).
(** No file but p has changed. *)
Definition others_kept (p : string) (k k' : disk) : Prop := forall q, q <> p -> k' q = k q.
