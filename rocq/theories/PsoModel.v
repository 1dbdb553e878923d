(** * Particle swarm optimisation (src/pso.rs, src/pso/) *)
From Verif Require Export Rng ProbeModel.
Open Scope nat_scope.

(** src/pso/particle.rs:7-14 *)
Record particle := Particle { position : list f64; velocity : list f64; pbest : list f64; value : f64; pbest_value : f64 }.
(** src/pso/swarm.rs:8-14; the distribution is always Uniform::new_inclusive(0.0, 1.0). *)
Record swarm := Swarm { particles : list particle; gbest : list f64; gbest_value : f64 }.

(** [distribution.sample(&mut rng)] for [Uniform::new_inclusive(0.0, 1.0)]: by contract any f64 of [0, 1]. *)
Definition sample01 (r : rng) : f64 * rng :=
  let v := f_of_bits (r 0) in (if fle f0 v && fle v f1 then v else f0, rng_tail r).

(** The objective is a plain [fn(&Vec<f64>) -> f64]: a function [f]. *)
Section Pso.
Context (f : list f64 -> f64).

(** particle.rs:33-43: the loop drawing positions and velocities; [vlo], [vhi] are the velocity bounds of lines 26-27. *)
Fixpoint draw_coordinates (dims : nat) (lo hi vlo vhi : f64) (r : rng) : list f64 * list f64 * rng :=
  match dims with
  | 0 => ([], [], r)
  | S dims =>
      let '(u, r) := sample01 r in
      let '(v, r) := sample01 r in
      let '(xs, vs, r) := draw_coordinates dims lo hi vlo vhi r in
      (fadd (fmul u (fsub hi lo)) lo :: xs, fadd (fmul v (fsub vhi vlo)) vlo :: vs, r)
  end.
(** particle.rs:17-53 [Particle::generate] *)
Definition particle_generate (dims : nat) (lo hi : f64) (r : rng) : particle * rng :=
  let '(xs, vs, r) := draw_coordinates dims lo hi (fneg (fabs (fsub hi lo))) (fabs (fsub hi lo)) r in
  (Particle xs vs xs (f xs) (f xs), r).

(** particle.rs:65-79: izip! stops at the shortest *)
Fixpoint new_velocity (w c1 c2 : f64) (v x p g : list f64) (r : rng) : list f64 * rng :=
  match v, x, p, g with
  | vi :: v, xi :: x, pi :: p, gi :: g =>
      let '(r1, r) := sample01 r in
      let '(r2, r) := sample01 r in
      let u := fadd (fadd (fmul w vi) (fmul (fmul c1 r1) (fsub pi xi))) (fmul (fmul c2 r2) (fsub gi xi)) in
      let '(us, r) := new_velocity w c1 c2 v x p g r in
      (u :: us, r)
  | _, _, _, _ => ([], r)
  end.
(** particle.rs:55-82 [update_velocity] *)
Definition update_velocity (g : list f64) (w c1 c2 : f64) (p : particle) (r : rng) : particle * rng :=
  let '(v, r) := new_velocity w c1 c2 (velocity p) (position p) (pbest p) g r in
  (Particle (position p) v (pbest p) (value p) (pbest_value p), r).
(** particle.rs:84-99 [update_position] *)
Definition update_position (p : particle) : particle :=
  let x := zip_with fadd (position p) (velocity p) in
  if flt (f x) (pbest_value p) then Particle x (velocity p) x (f x) (f x)
  else Particle x (velocity p) (pbest p) (f x) (pbest_value p).

(** swarm.rs:26-34: the particles are drawn one after the other from the thread's RNG *)
Fixpoint generate_particles (count dims : nat) (lo hi : f64) (r : rng) : list particle * rng :=
  match count with
  | 0 => ([], r)
  | S count =>
      let '(p, r) := particle_generate dims lo hi r in
      let '(ps, r) := generate_particles count dims lo hi r in
      (p :: ps, r)
  end.
(** swarm.rs:16-49 [Swarm::generate]: particles[0] panics when there are none *)
Definition swarm_generate (count dims : nat) (lo hi : f64) (r : rng) : outcome (swarm * rng) :=
  let '(ps, r) := generate_particles count dims lo hi r in
  p0 ← index ps 0;
  let best := foldl (fun b p => if flt (f (position p)) (f b) then position p else b) (pbest p0) ps in
  Ok (Swarm ps best (f best), r).

(** swarm.rs:51-66 [update_velocities]: rayon's par_iter_mut.  The closure changes one particle and reads the swarm's
    best position; [rand::thread_rng()] is the generator of the worker thread that runs it.  A schedule lists, in the
    order in which the closures are run, the worker and the particle: any order and any distribution over
    workers is possible, but each particle is processed exactly once ([schedule_ok] in PsoSpec). *)
Definition update_velocities (w c1 c2 : f64) (schedule : list (nat * nat)) (s : swarm) (workers : list rng) : outcome (swarm * list rng) :=
  '(ps, workers) ← ofold (fun st wi =>
      r ← index (snd st) (fst wi);
      p ← index (fst st) (snd wi);
      let '(p, r) := update_velocity (gbest s) w c1 c2 p r in
      ps ← assign (fst st) (snd wi) p;
      ws ← assign (snd st) (fst wi) r;
      Ok (ps, ws)) (particles s, workers) schedule;
  Ok (Swarm ps (gbest s) (gbest_value s), workers).
(** swarm.rs:68-72 [update_positions], with the order of processing *)
Definition update_positions (order : list nat) (s : swarm) : outcome swarm :=
  ps ← ofold (fun ps i => p ← index ps i; assign ps i (update_position p)) (particles s) order;
  Ok (Swarm ps (gbest s) (gbest_value s)).
(** swarm.rs:74-81 [update_best_position] *)
Definition update_best (s : swarm) : swarm :=
  foldl (fun s p => if flt (f (pbest p)) (f (gbest s)) then Swarm (particles s) (pbest p) (pbest_value p) else s) s (particles s).

(** Callbacks of src/pso/probe.rs *)
Inductive pso_event :=
| PsoBegin (s : swarm)
| PsoNewGeneration (s : swarm) (generation : nat)
| PsoEnd (s : swarm) (generation : nat).

(** src/pso.rs:102-111: the loop.  [met i s] is the answer of the termination condition's i-th check (the checks are
    numbered like the generations); [sched i] the schedules of the two parallel loops of generation i. *)
Context (w c1 c2 : f64) (met : nat -> swarm -> bool) (sched : nat -> list (nat * nat) * list nat).
Definition generation (i : nat) (s : swarm) (workers : list rng) : outcome (swarm * list rng) :=
  '(s, workers) ← update_velocities w c1 c2 (fst (sched i)) s workers;
  s ← update_positions (snd (sched i)) s;
  Ok (update_best s, workers).
Fixpoint pso_loop (fuel i : nat) (s : swarm) (workers : list rng) : outcome (list pso_event * swarm * nat) :=
  match fuel with
  | 0 => Diverge
  | S fuel =>
      if met i s then Ok ([], s, i)
      else
        '(s, workers) ← generation (i + 1) s workers;
        '(evs, s', n) ← pso_loop fuel (i + 1) s workers;
        Ok (PsoNewGeneration s (i + 1) :: evs, s', n)
  end.
(** src/pso.rs:99-114 [run] *)
Definition pso_run (fuel : nat) (s : swarm) (workers : list rng) : outcome (list pso_event * swarm) :=
  '(evs, s', n) ← pso_loop fuel 0 s workers;
  Ok (PsoBegin s :: evs ++ [PsoEnd s' n], s').
End Pso.

(** ** Termination (src/pso/termination_condition.rs) *)
(** 30-32 [GenerationLimit::is_met] *)
Definition generation_limit (limit : nat) (i : nat) (_ : swarm) : bool := limit <=? i.
(** 60-62 [TimeLimit::is_met]: [clock i] is the number of whole seconds since the construction of the condition at
    check i, because [run] never calls [initialize]. *)
Definition time_limit (clock : nat -> N) (limit : N) (i : nat) (_ : swarm) : bool := (limit <=? clock i)%N.

(** ** Configuration (src/pso.rs:24-62, src/pso/builder.rs) *)
Inductive pso_termination := GenerationLimit (n : nat) | TimeLimit (secs : N).
Record pso_cfg := PsoCfg {
  dimensions : nat; lower_bound : f64; upper_bound : f64; particle_count : nat;
  inertia_weight : f64; cognitive_coefficient : f64; social_coefficient : f64;
  pso_function : list f64 -> f64; termination : pso_termination; pso_probe : nat }.
(** The probe is opaque: a number stands for the object set by the user, 0 for the StdoutProbe. *)
Definition f_neg10 : f64 := fneg (f_of_nat 10).
(** pso.rs:46-61; [rosenbrock] is the default objective *)
Definition pso_default (rosenbrock : list f64 -> f64) : pso_cfg :=
  PsoCfg 2 f_neg10 (f_of_nat 10) 30 fhalf f1 (f_of_nat 3) rosenbrock (GenerationLimit 500) 0.
Inductive pso_setter :=
| SetDimensions (n : nat) | SetLowerBound (x : f64) | SetUpperBound (x : f64) | SetParticleCount (n : nat)
| SetInertiaWeight (x : f64) | SetCognitive (x : f64) | SetSocial (x : f64) | SetFunction (g : list f64 -> f64)
| SetTermination (t : pso_termination) | SetGenerationLimit (n : nat) | SetTimeLimit (secs : N) | SetProbe (p : nat).
(** builder.rs:18-84 *)
Definition pso_set (c : pso_cfg) (s : pso_setter) : pso_cfg :=
  let 'PsoCfg d lo hi n w c1 c2 g t p := c in
  match s with
  | SetDimensions d => PsoCfg d lo hi n w c1 c2 g t p
  | SetLowerBound lo => PsoCfg d lo hi n w c1 c2 g t p
  | SetUpperBound hi => PsoCfg d lo hi n w c1 c2 g t p
  | SetParticleCount n => PsoCfg d lo hi n w c1 c2 g t p
  | SetInertiaWeight w => PsoCfg d lo hi n w c1 c2 g t p
  | SetCognitive c1 => PsoCfg d lo hi n w c1 c2 g t p
  | SetSocial c2 => PsoCfg d lo hi n w c1 c2 g t p
  | SetFunction g => PsoCfg d lo hi n w c1 c2 g t p
  | SetTermination t => PsoCfg d lo hi n w c1 c2 g t p
  | SetGenerationLimit n' => PsoCfg d lo hi n w c1 c2 g (GenerationLimit n') p
  | SetTimeLimit secs => PsoCfg d lo hi n w c1 c2 g (TimeLimit secs) p
  | SetProbe p => PsoCfg d lo hi n w c1 c2 g t p
  end.
Definition pso_met (clock : nat -> N) (t : pso_termination) : nat -> swarm -> bool :=
  match t with GenerationLimit n => generation_limit n | TimeLimit secs => time_limit clock secs end.
(** builder.rs:89-91 [build], pso.rs:73-82 [PSOAlgorithm::new] *)
Definition pso_build (rosenbrock : list f64 -> f64) (setters : list pso_setter) (r : rng) : outcome (pso_cfg * swarm * rng) :=
  let c := foldl pso_set (pso_default rosenbrock) setters in
  '(s, r) ← swarm_generate (pso_function c) (particle_count c) (dimensions c) (lower_bound c) (upper_bound c) r;
  Ok (c, s, r).
(** [build().run()] *)
Definition pso_solve (clock : nat -> N) (sched : nat -> list (nat * nat) * list nat) (workers : list rng) (fuel : nat) (c : pso_cfg) (s : swarm)
  : outcome (list pso_event * swarm) :=
  pso_run (pso_function c) (inertia_weight c) (cognitive_coefficient c) (social_coefficient c) (pso_met clock (termination c)) sched fuel s workers.

(** ** Probes (src/pso/probe/) *)
(** probe/policy_driven_probe.rs:15-36: on_end asks the policy whether to log the last generation, then always forwards *)
Definition pso_policy_driven {P W} (pol : policy pso_event P) (pr : probe pso_event W) : probe pso_event (P * W) :=
  fun st e =>
    '(yes, p) ← pol (fst st) e;
    match e with
    | PsoBegin _ | PsoNewGeneration _ _ => if yes : bool then w ← pr (snd st) e; Ok (p, w) else Ok (p, snd st)
    | PsoEnd s n => w ← (if yes : bool then pr (snd st) (PsoNewGeneration s n) else Ok (snd st)); w ← pr w e; Ok (p, w)
    end.
(** probe/probing_policy.rs:6-38 [GenerationInterval]: the interval and last_log_generation; [%] panics for 0 *)
Definition pso_interval_policy (interval : nat) : policy pso_event nat := fun last e =>
  match e with
  | PsoBegin _ => Ok (true, last)
  | PsoEnd _ n => Ok (last <? n, last)
  | PsoNewGeneration _ n =>
      _ ← rassert (bool_decide (interval <> 0));
      if n mod interval =? 0 then Ok (true, n) else Ok (false, last)
  end.
(** probing_policy.rs:40-82 [ElapsedTime]: state = (last_log_generation, number of clock readings since the last log) is
    replaced by an oracle: [due n] says whether the interval has passed since the last log when generation n ends. *)
Definition pso_elapsed_policy (due : nat -> bool) : policy pso_event nat := fun last e =>
  match e with
  | PsoBegin _ => Ok (true, last)
  | PsoEnd _ n => Ok (last <? n, last)
  | PsoNewGeneration _ n => if due n then Ok (true, n) else Ok (false, last)
  end.
(** probe/json_probe.rs:14-57 [JsonProbe] (and csv_probe.rs, without the position): the records collected so far, and what has
    been written to the file *)
Record pso_log := PsoLog { log_records : list (nat * f64 * list f64); log_file : option (list (nat * f64 * list f64)) }.
Definition pso_record (l : pso_log) (s : swarm) (n : nat) : pso_log :=
  PsoLog (log_records l ++ [(n, gbest_value s, gbest s)]) (log_file l).
Definition pso_json_probe : probe pso_event pso_log := fun l e =>
  match e with
  | PsoBegin s => Ok (pso_record l s 0)
  | PsoNewGeneration s n => Ok (pso_record l s n)
  | PsoEnd _ _ => Ok (PsoLog (log_records l) (Some (log_records l)))
  end.
