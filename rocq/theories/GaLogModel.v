(** * The stdout probe of the genetic solver (src/ga/probe/stdout_probe.rs) *)
From Verif Require Export ProbeModel.
Open Scope nat_scope.

(** A line given to [log::info!].  The fields of a line are time in milliseconds, generation, chromosome and fitness; the
    text they are printed as is not represented. *)
Inductive log_line (G : Type) :=
| StartLine
| NewBestLine (ms : N) (generation : nat) (genes : list G) (value : f64)
| BestInGenLine (ms : N) (generation : nat) (genes : list G) (value : f64)
| EndLine (ms : N) (generation : nat) (genes : list G) (value : f64).
Arguments StartLine {_}.
Arguments NewBestLine {_} _ _ _ _.
Arguments BestInGenLine {_} _ _ _ _.
Arguments EndLine {_} _ _ _ _.

(** [Duration::as_millis] of a number of nanoseconds *)
Definition as_millis (ns : N) : N := (ns / 1000000)%N.

(** src/ga/probe/stdout_probe.rs:13-66; the world is the lines logged so far.  The other callbacks are the defaults. *)
Definition stdout_probe {G} : probe (event G) (list (log_line G)) := fun log e =>
  match e with
  | OnStart _ => Ok (log ++ [StartLine])
  | OnNewBest m x => Ok (log ++ [NewBestLine (as_millis (default 0%N (m_total_dur m))) (m_generation m) (chromosome x) (fitness x)])
  | OnBestFit m x => d ← unwrap (m_total_dur m); Ok (log ++ [BestInGenLine (as_millis d) (m_generation m) (chromosome x) (fitness x)])
  | OnEnd m _ x => d ← unwrap (m_total_dur m); Ok (log ++ [EndLine (as_millis d) (m_generation m) (chromosome x) (fitness x)])
  | _ => Ok log
  end.
