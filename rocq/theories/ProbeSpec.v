(** * Vocabulary for the probe properties *)
From Verif Require Import ProbeModel GaSpec.
Open Scope nat_scope.

(** A probe that writes down, under its own name, the callbacks made to it, in a log shared with other probes. *)
Definition recorder {E} (name : nat) : probe E (list (nat * E)) := fun w e => Ok (w ++ [(name, e)]).
(** A probe that acts on its own component of the world only. *)
Definition own {E V} (i : nat) (p : probe E V) : probe E (list V) := fun ws e =>
  w ← index ws i; w ← p w e; assign ws i w.

(** Callbacks made once per iteration (the others report particular moments). *)
Definition per_iteration {G} (e : event G) : bool :=
  match kind e with KIterStart | KNewGeneration | KBestFit | KIterEnd => true | _ => false end.
Definition generation_of {G} (e : event G) : nat := m_generation (event_metrics e).
(** What a wrapped probe sees if exactly the iterations with [logged] are reported to it. *)
Definition only_iterations {G} (logged : nat -> bool) (evs : list (event G)) : list (event G) :=
  filter (fun e => per_iteration e = true -> logged (generation_of e) = true) evs.

(** Generation [g] is first, first + interval, first + 2 * interval, ... *)
Definition every (first interval : N) (g : nat) : bool :=
  ((first <=? N.of_nat g) && ((N.of_nat g - first) mod interval =? 0))%N.

(** [logged] says which iterations are reported; at iteration [g] it is due when the time is at least the
    first threshold plus one interval for each iteration reported before. *)
Definition reported_before (logged : nat -> bool) (g : nat) : N :=
  N.of_nat (length (filter (fun h => logged h = true) (seq 1 (g - 1)))).
Definition due (first interval : N) (time : nat -> N) (logged : nat -> bool) (g : nat) : Prop :=
  (first + interval * reported_before logged g <= time g)%N.
