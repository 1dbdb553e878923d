(** * Vocabulary for the probes and the builder of the ant colony solver *)
From Verif Require Import AcoProbeModel AcoSpec.
Open Scope nat_scope.

(** Iterations are numbered from 1. *)
Definition numbered {A} (l : list A) : list (nat * A) := zip (seq 1 (length l)) l.
(** best.csv: for every iteration, one row for each place of its best path, with the place visited next (the first one after
    the last one). *)
Definition edge_rows (k : nat) (path : list nat) : list edge_row :=
  map (fun i => EdgeRow (nth i path 0) (nth ((i + 1) mod length path) path 0) k) (seq 0 (length path)).
Definition best_rows (l : list (solution * matrix)) : list edge_row :=
  concat (map (fun '(k, (b, _)) => edge_rows k (sol_path b)) (numbered l)).
(** pheromone.csv: for every iteration, one row for each entry of the pheromone, row by row. *)
Definition cell_rows (k : nat) (m : matrix) : list cell_row :=
  concat (map (fun i => map (fun j => CellRow i j k (entry m i j)) (seq 0 (ncols m))) (seq 0 (nrows m))).
Definition pheromone_rows (l : list (solution * matrix)) : list cell_row :=
  concat (map (fun '(k, (_, q)) => cell_rows k q) (numbered l)).
(** The rows of a matrix. *)
Definition matrix_rows (m : matrix) : list (list f64) := map (fun i => map (entry m i) (seq 0 (ncols m))) (seq 0 (nrows m)).
(** Standard output. *)
Definition iteration_lines {Ph} (l : list (solution * Ph)) : list aco_line :=
  concat (map (fun '(k, (b, _)) => [LIteration k; LBestFitness (sol_fitness b); LSeparator]) (numbered l)).

(** What a sequence of builder calls has set. *)
Section Sets.
Context {P C G T Pr Ph : Type}.
Notation call := (aco_call P C G T Pr Ph).
Definition sets_probe (c : call) : option Pr := match c with ASetProbe x => Some x | _ => None end.
Definition sets_update (c : call) : option P := match c with ASetUpdate x => Some x | _ => None end.
Definition sets_grader (c : call) : option G := match c with ASetGrader x => Some x | _ => None end.
Definition sets_termination (c : call) : option T := match c with ASetTermination x => Some x | _ => None end.
Definition sets_start (c : call) : option Ph := match c with ASetStart x => Some x | _ => None end.
Definition sets_colony (c : call) : option C := match c with ASetColony x => Some x | _ => None end.
End Sets.
