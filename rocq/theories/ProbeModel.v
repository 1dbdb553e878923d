(** * Probes of the genetic solver: policies, policy-driven and aggregated probes (src/ga/probe/) *)
From Verif Require Export GaModel.
Open Scope nat_scope.

(** A probe (trait [Probe], src/ga/probe.rs:20-134) is a mutable object: a callback [e] takes the state of the
    world (its own fields, standard output, files ...) to a new one, or panics. *)
Definition probe (E W : Type) := W -> E -> outcome W.
(** The callbacks [evs] made one after the other. *)
Definition feed {E W} (p : probe E W) (w : W) (evs : list E) : outcome W := ofold p w evs.

(** src/ga/probe/empty.rs [EmptyProbe]; the default bodies of trait [Probe] *)
Definition empty_probe {E W} : probe E W := fun w _ => Ok w.

(** src/ga/probe/aggregated_probe.rs:8-40: [new], [with_probes], [add_probe]; likewise
    src/pso/probe/aggregated_probe.rs:4-21 and src/ff/probe/aggregated_probe.rs:3-20.  Every callback of the three
    [Probe] implementations (GA 42-170, PSO 23-41, FF 22-52) is the same loop over the probes. *)
Definition aggregated_new {E W} : list (probe E W) := [].
Definition aggregated_with {E W} (ps : list (probe E W)) : list (probe E W) := ps.
Definition aggregated_add {E W} (ps : list (probe E W)) (p : probe E W) : list (probe E W) := ps ++ [p].
Definition aggregated {E W} (ps : list (probe E W)) : probe E W := fun w e => ofold (fun w p => p w e) w ps.

(** src/ga/probe/policy_driven_probe.rs:39-167: every callback asks the policy's callback of the same name and
    forwards to the same callback of the wrapped probe.  A policy is a state machine answering yes or no. *)
Definition policy (E P : Type) := P -> E -> outcome (bool * P).
Definition policy_driven {E P W} (pol : policy E P) (pr : probe E W) : probe E (P * W) :=
  fun st e =>
    '(yes, p) ← pol (fst st) e;
    if yes : bool then w ← pr (snd st) e; Ok (p, w) else Ok (p, snd st).

(** [threshold += interval] on usize: overflow panics in debug builds and wraps in release builds. *)
Definition usize_add (debug : bool) (a b : N) : outcome N :=
  if (a + b <? 2 ^ 64)%N then Ok (a + b)%N else if debug then Panic else Ok ((a + b) mod 2 ^ 64)%N.

(** src/ga/probe/probing_policy.rs:7-27 [GenerationInterval] *)
Record generation_interval := GenInt { gi_interval : N; gi_threshold : N; gi_should_log : bool }.
Definition gi_new (interval first_threshold : N) : generation_interval := GenInt interval first_threshold false.

(** src/ga/probe/probing_policy.rs:29-86 *)
Definition gi_policy {G} (debug : bool) : policy (event G) generation_interval := fun p e =>
  match e with
  | OnStart _ => Ok (true, p)
  | OnInitialPopulation _ _ => Ok (true, p)
  | OnNewBest _ _ => Ok (true, p)
  | OnNewGeneration _ _ => Ok (gi_should_log p, p)
  | OnBestFit _ _ => Ok (gi_should_log p, p)
  | OnIterationStart m =>
      if (gi_threshold p <=? N.of_nat (m_generation m))%N then
        t ← usize_add debug (gi_threshold p) (gi_interval p);
        Ok (true, GenInt (gi_interval p) t true)
      else Ok (false, p)
  | OnIterationEnd _ => Ok (gi_should_log p, GenInt (gi_interval p) (gi_threshold p) false)
  | OnEnd _ _ _ => Ok (true, p)
  end.

(** [Duration + Duration]: panics when the number of seconds exceeds u64 (durations in ns). *)
Definition max_dur : N := ((2 ^ 64 - 1) * 1000000000 + 999999999)%N.
Definition dur_add (a b : N) : outcome N := if (a + b <=? max_dur)%N then Ok (a + b)%N else Panic.

(** src/ga/probe/probing_policy.rs:88-108 [ElapsedTime] *)
Record elapsed_time := Elapsed { et_interval : N; et_threshold : N; et_should_log : bool }.
Definition et_new (interval threshold : N) : elapsed_time := Elapsed interval threshold false.

(** src/ga/probe/probing_policy.rs:110-166 *)
Definition et_policy {G} : policy (event G) elapsed_time := fun p e =>
  match e with
  | OnStart _ => Ok (true, p)
  | OnInitialPopulation _ _ => Ok (true, p)
  | OnNewBest _ _ => Ok (true, p)
  | OnNewGeneration _ _ => Ok (et_should_log p, p)
  | OnBestFit _ _ => Ok (et_should_log p, p)
  | OnIterationStart m =>
      d ← unwrap (m_total_dur m);
      if (et_threshold p <=? d)%N then
        t ← dur_add (et_threshold p) (et_interval p);
        Ok (true, Elapsed (et_interval p) t true)
      else Ok (false, p)
  | OnIterationEnd _ => Ok (et_should_log p, Elapsed (et_interval p) (et_threshold p) false)
  | OnEnd _ _ _ => Ok (true, p)
  end.
