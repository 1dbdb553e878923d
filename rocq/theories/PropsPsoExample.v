(** * Property theorems: what the particle swarm example program writes (C115) *)
From Verif Require Import PsoSpec PsoExampleModel PsoExampleProofs.
Open Scope nat_scope.

(** ** C115 *)
(** examples/pso_multiple_probes.rs: whatever the draws, the clock and the distribution of the 30 particles over the workers, the program returns.  With
    [g n] the swarm after [n] generations it has printed the swarm at the start, every 50 generations and at the end; the CSV and JSON files hold 41 records
    each, for generations 0, 50, ..., 2000, of the best value so far, which is Rosenbrock's function at the best point so far, is never NaN, never negative,
    never above 2420242 and never grows. *)
Theorem C115_pso_example :
  forall (L : libm) (clock : nat -> N) sched workers fuel r, schedules_ok 30 (length workers) sched -> 2000 < fuel ->
  exists (g : nat -> swarm) out, pso_example L clock sched workers fuel r = Ok out /\
  printed out = SwarmAtStart (g 0) :: map (fun k => SwarmAfter (50 * k) (g (50 * k))) (seq 1 40) ++ [SwarmAtEnd (g 2000)] /\
  csv_file (in_csv out) = Some (map (fun k => (50 * k, gbest_value (g (50 * k)))) (seq 0 41)) /\
  log_file (in_json out) = Some (map (fun k => (50 * k, gbest_value (g (50 * k)), gbest (g (50 * k)))) (seq 0 41)) /\
  (forall n, n <= 2000 -> length (particles (g n)) = 30 /\ length (gbest (g n)) = 3 /\ rosenbrock (num := num_f64 L) (gbest (g n)) = Ok (gbest_value (g n)) /\
     F64.is_nan (gbest_value (g n)) = false /\ fle f0 (gbest_value (g n)) = true /\ fle (gbest_value (g n)) (f_of_Z 2420242) = true) /\
  (forall n m, n <= m -> m <= 2000 -> fle (gbest_value (g m)) (gbest_value (g n)) = true) /\
  (forall n, n < 2000 -> next_swarm (default_objective L) fhalf f1 (f_of_nat 3) (g n) (g (n + 1))).
Proof. exact pso_example_run. Qed.
Print Assumptions C115_pso_example.

(** Thirty particles on two workers, even ones on the first: a schedule as the theorem asks for. *)
Definition even_odd : nat -> list (nat * nat) * list nat := fun _ => (map (fun i => (i mod 2, i)) (seq 0 30), rev (seq 0 30)).
Example C115_nonvacuous : forall r1 r2 : rng, schedules_ok 30 (length [r1; r2]) even_odd /\ 2000 < 2001.
Proof.
  intros r1 r2. split; [|lia]. intros i. split; [split|].
  - cbn [even_odd fst]. rewrite map_map. cbn [snd]. rewrite map_id. reflexivity.
  - cbn [even_odd fst]. apply Forall_forall. intros x Hx. apply elem_of_list_fmap in Hx as (k & -> & _). cbn [fst length]. apply Nat.mod_upper_bound. discriminate.
  - unfold order_ok. cbn [even_odd snd]. rewrite <- Permutation_rev. reflexivity.
Qed.
