(** * Vocabulary for the log of the stdout probe *)
From Verif Require Export GaLogModel GaSpec.
Open Scope nat_scope.

(** A least individual of the population *)
Definition best_of {G} (pop : list (individual G)) (x : individual G) : Prop :=
  x ∈ pop /\ (Forall (fun y => is_nan (fitness y) = false) pop -> Forall (fun y => fle (fitness x) (fitness y) = true) pop).
(** The lines of generations g, g+1, ... with the bests [xs], [time i] being the milliseconds at the start of generation i:
    the best of the generation, once more as a new best if it is better than [best]. *)
Fixpoint generation_lines {G} (time : nat -> N) (g : nat) (best : individual G) (xs : list (individual G)) : list (log_line G) :=
  match xs with
  | [] => []
  | x :: xs =>
      if flt (fitness x) (fitness best)
      then [BestInGenLine (time g) g (chromosome x) (fitness x); NewBestLine (time g) g (chromosome x) (fitness x)] ++ generation_lines time (S g) x xs
      else [BestInGenLine (time g) g (chromosome x) (fitness x)] ++ generation_lines time (S g) best xs
  end.
(** Of a log line: its time; genes and fitness of a new best; the generation of a best in generation *)
Definition line_time {G} (l : log_line G) : option N := match l with StartLine => None | NewBestLine t _ _ _ | BestInGenLine t _ _ _ | EndLine t _ _ _ => Some t end.
Definition line_new_best {G} (l : log_line G) : option (individual G) := match l with NewBestLine _ _ x v => Some (Ind x v) | _ => None end.
Definition line_best_in_gen {G} (l : log_line G) : option nat := match l with BestInGenLine _ g _ _ => Some g | _ => None end.
(** A clock that does not run backwards *)
Definition forward (ck : clock) : Prop :=
  (c_init ck <= c_start ck 1)%N /\ (c_init ck <= c_final ck)%N /\ (forall g, c_start ck g <= c_start ck (S g))%N /\ (forall g, c_start ck g <= c_final ck)%N.
