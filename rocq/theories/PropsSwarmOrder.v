(** * Property theorems: only the order of the objective's values matters to PSO (C111) *)
From Verif Require Import PsoModel PsoOrderSpec PsoOrderProofs.
Open Scope nat_scope.

(** ** C111 *)
(** Two objectives that agree on which of any two points is better: whatever the setters, the clock, the schedule of the
    worker threads and the random draws, building and running gives the same swarms in the same callbacks - positions,
    velocities, personal and global bests; only the values differ - or the same failure. *)
Theorem C111_only_the_order_of_values_matters :
  forall rosenbrock setters f1 f2 clock sched workers fuel r, same_preferences f1 f2 ->
  build_and_run rosenbrock setters f2 clock sched workers fuel r = revalue_run f2 (build_and_run rosenbrock setters f1 clock sched workers fuel r).
Proof. exact build_and_run_lock. Qed.
Print Assumptions C111_only_the_order_of_values_matters.

(** Two objectives preferring points left of 0, with very different values. *)
Definition left1 (x : list f64) : f64 := match x with v :: _ => if flt v f0 then fhalf else f1 | [] => f0 end.
Definition left2 (x : list f64) : f64 := match x with v :: _ => if flt v f0 then f_of_Z (-300) else finf | [] => S754_infinity true end.
Definition coins : rng := rng_of [4602678819172646912; 0; 4607182418800017408; 0; 4602678819172646912; 4607182418800017408]%N.
Definition one_worker (i : nat) : list (nat * nat) * list nat := ([(0, 0); (0, 1)], [1; 0]).
Definition swarm_run (f : list f64 -> f64) : outcome (list pso_event * swarm) :=
  build_and_run (fun _ => f0) [SetDimensions 1; SetParticleCount 2; SetGenerationLimit 3] f (fun _ => 0%N) one_worker [coins] 10 coins.
Example C111_nonvacuous : same_preferences left1 left2 /\
  exists evs s p q, swarm_run left1 = Ok (evs, s) /\ length evs = 5 /\ particles s = [p; q] /\ value p = fhalf /\ position p <> position q.
Proof.
  split.
  - intros [|a l] [|b m]; unfold left1, left2; [reflexivity|destruct (flt b f0); reflexivity|destruct (flt a f0); reflexivity|destruct (flt a f0), (flt b f0); reflexivity].
  - eexists _, _, _, _. split; [vm_compute; reflexivity|]. split; [reflexivity|]. split; [reflexivity|]. split; [reflexivity|]. vm_compute. discriminate.
Qed.
