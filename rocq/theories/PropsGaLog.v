(** * Property theorems: the log of the stdout probe (C104) *)
From Verif Require Import GaLogProofs.
From Verif Require PropsGa.
Open Scope nat_scope.

(** ** C104 *)
(** With the stdout probe a run logs a start line, the best individual of the initial population, for each generation its best
    individual (a second time, as a new best, exactly when it is better than all before it), and the result; the probe never panics. *)
Theorem C104_lines_of_a_run :
  forall (G St : Type) (cfg : config G St) ck m0 s evs b m s',
  run cfg ck m0 s = Ok (evs, b, m, s') -> m_generation m0 = 0 ->
  exists b0 xs, Forall2 best_of (populations evs) (b0 :: xs) /\
  forall log, feed stdout_probe log evs = Ok (log ++ [StartLine; NewBestLine (c_init ck / 1000000)%N 0 (chromosome b0) (fitness b0)] ++
    generation_lines (fun i => (c_start ck i / 1000000)%N) 1 b0 xs ++ [EndLine (c_final ck / 1000000)%N (length xs) (chromosome b) (fitness b)]).
Proof. exact @run_lines. Qed.
Print Assumptions C104_lines_of_a_run.

(** A reader of the log finds one best-in-generation line for each generation in order, new-best lines that improve strictly and
    end with the result, an end line with the result, and (if the clock does not run backwards) times that never go back. *)
Theorem C104_reading_the_log :
  forall (G St : Type) (cfg : config G St) ck m0 s evs b m s',
  run cfg ck m0 s = Ok (evs, b, m, s') -> m_generation m0 = 0 ->
  exists log, feed stdout_probe [] evs = Ok log /\ omap line_best_in_gen log = seq 1 (iterations evs) /\
  StronglySorted (fun u v : individual G => flt (fitness v) (fitness u) = true) (omap line_new_best log) /\ last (omap line_new_best log) = Some b /\
  last log = Some (EndLine (c_final ck / 1000000)%N (iterations evs) (chromosome b) (fitness b)) /\
  (forward ck -> StronglySorted N.le (omap line_time log)).
Proof. exact @log_reading. Qed.
Print Assumptions C104_reading_the_log.

(** The probe is not meant to be called outside a run: without a total time it panics. *)
Theorem C104_outside_a_run :
  forall (G : Type) log n p (pop : list (individual G)) x,
  stdout_probe log (OnBestFit (Metrics n p None) x) = Panic /\ stdout_probe log (OnEnd (Metrics n p None) pop x) = Panic.
Proof. split; reflexivity. Qed.
Print Assumptions C104_outside_a_run.

(** Three generations; the times are in seconds. *)
Definition slow : clock := Clock 0 (fun g => N.of_nat g * 1000000000)%N (fun g => N.of_nat g * 1000000000 + 1)%N 100000000000.
Example C104_nonvacuous : forward (Clock 0 (fun g => N.min (N.of_nat g) 5 * 1000000000)%N (fun g => N.of_nat g) 100000000000) /\
  exists evs b m s', run (PropsGa.peeling 3 10000000000%N) slow (fresh_metrics (PropsGa.peeling 3 10000000000%N)) 0 = Ok (evs, b, m, s') /\
  exists log, feed stdout_probe [] evs = Ok log /\ omap line_time log = [0; 1000; 1000; 2000; 3000; 3000; 100000]%N /\ 2 < length (omap line_new_best log).
Proof.
  split; [repeat split; cbn -[N.mul N.of_nat]; lia|].
  eexists _, _, _, _. split; [vm_compute; reflexivity|]. eexists. split; [vm_compute; reflexivity|]. split; [vm_compute; reflexivity|]. cbn; lia.
Qed.
