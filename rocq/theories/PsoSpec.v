(** * Vocabulary for the particle swarm properties *)
From Verif Require Import PsoModel.
Open Scope nat_scope.

(** Each of the n particles is processed exactly once, by one of the workers. *)
Definition schedule_ok (n workers : nat) (schedule : list (nat * nat)) : Prop :=
  map snd schedule ≡ₚ seq 0 n /\ Forall (fun wi => wi.1 < workers) schedule.
Definition order_ok (n : nat) (order : list nat) : Prop := order ≡ₚ seq 0 n.
Definition schedules_ok (n workers : nat) (sched : nat -> list (nat * nat) * list nat) : Prop :=
  forall i, schedule_ok n workers (sched i).1 /\ order_ok n (sched i).2.

(** The particles processed by worker [w], in its order. *)
Definition share (w : nat) (sch : list (nat * nat)) : list nat := map snd (filter (fun wi => wi.1 = w) sch).

(** A random factor: a double from 0 to 1. *)
Definition in01 (x : f64) : Prop := SpecFloat.valid_binary 53 1024 x = true /\ fle f0 x = true /\ fle x f1 = true.
(** Coordinate by coordinate: v' = w v + c1 r1 (p - x) + c2 r2 (g - x). *)
Inductive accelerated (w c1 c2 : f64) : list f64 -> list f64 -> list f64 -> list f64 -> list f64 -> Prop :=
| acc_nil : accelerated w c1 c2 [] [] [] [] []
| acc_cons vi v xi x pi p gi g r1 r2 v' : in01 r1 -> in01 r2 -> accelerated w c1 c2 v x p g v' ->
    accelerated w c1 c2 (vi :: v) (xi :: x) (pi :: p) (gi :: g)
      (fadd (fadd (fmul w vi) (fmul (fmul c1 r1) (fsub pi xi))) (fmul (fmul c2 r2) (fsub gi xi)) :: v').
(** What the probe sees: the swarms of generations 0, 1, ..., n. *)
Definition pso_protocol (first : swarm) (later : list swarm) : list pso_event :=
  PsoBegin first :: imap (fun i s => PsoNewGeneration s (i + 1)) later ++ [PsoEnd (List.last later first) (length later)].

(** Particle i was at x in one of the swarms. *)
Definition visited (hist : list swarm) (i : nat) (x : list f64) : Prop :=
  exists s p, s ∈ hist /\ particles s !! i = Some p /\ position p = x.
(** All coordinates lists have the same length. *)
Definition of_dimension (d : nat) (p : particle) : Prop :=
  length (position p) = d /\ length (velocity p) = d /\ length (pbest p) = d.

(** ** One generation *)
(** How a particle moves, [g] being the best position of the swarm before the generation. *)
Definition moves (f : list f64 -> f64) (w c1 c2 : f64) (g : list f64) (p p' : particle) : Prop :=
  accelerated w c1 c2 (velocity p) (position p) (pbest p) g (velocity p') /\
  position p' = zip_with fadd (position p) (velocity p') /\
  value p' = f (position p') /\
  (if flt (value p') (pbest_value p) then pbest p' = position p' /\ pbest_value p' = value p'
   else pbest p' = pbest p /\ pbest_value p' = pbest_value p).
(** From one swarm to the next.  The swarm's best changes only to a strictly better personal best; no comparable personal
    best is better than the new one. *)
Definition next_swarm (f : list f64 -> f64) (w c1 c2 : f64) (s s' : swarm) : Prop :=
  Forall2 (moves f w c1 c2 (gbest s)) (particles s) (particles s') /\
  ((gbest s' = gbest s /\ gbest_value s' = gbest_value s) \/
   exists p', p' ∈ particles s' /\ gbest s' = pbest p' /\ gbest_value s' = pbest_value p' /\ flt (f (pbest p')) (f (gbest s)) = true) /\
  (is_nan (f (gbest s)) = false -> forall p', p' ∈ particles s' -> is_nan (f (pbest p')) = false -> fle (f (gbest s')) (f (pbest p')) = true).
Inductive evolution (f : list f64 -> f64) (w c1 c2 : f64) : swarm -> list swarm -> Prop :=
| evo_end s : evolution f w c1 c2 s []
| evo_next s s' l : next_swarm f w c1 c2 s s' -> evolution f w c1 c2 s' l -> evolution f w c1 c2 s (s' :: l).

(** The callbacks that reach a probe wrapped in a policy logging generation n when [due n]: the beginning, the due
    generations, the last generation if it is neither due nor generation 0, and the end. *)
Definition logged_events (due : nat -> bool) (first : swarm) (later : list swarm) : list pso_event :=
  PsoBegin first :: omap (fun '(i, s) => if due (i + 1) then Some (PsoNewGeneration s (i + 1)) else None) (imap pair later)
  ++ (if (length later =? 0) || due (length later) then [] else [PsoNewGeneration (List.last later first) (length later)])
  ++ [PsoEnd (List.last later first) (length later)].
(** The generation numbers of the records. *)
Definition recorded (e : pso_event) : list nat :=
  match e with PsoBegin _ => [0] | PsoNewGeneration _ n => [n] | PsoEnd _ _ => [] end.
