(** * Property theorems: the genetic solver (C24 - C28, C52) *)
From Verif Require Import GaProofs.
Open Scope nat_scope.

(** A configuration for the examples: mutation removes the first gene, the fitness is the number of genes. *)
Definition peeling (limit : nat) (max : N) : config bool nat :=
  Config bool nat 2 limit max (fun n s => Ok (replicate n (Ind [true; false; true] f0), s)) (fun ch => f_of_nat (Nat.min (length ch) 3))
    (fun _ pop s => Ok (reverse (seq 0 (length pop)), s)) (fun _ pool s => Ok (pool, s))
    (fun _ x s => Ok (Ind (if Nat.even s then tail (chromosome x) else chromosome x) (fitness x), S s))
    (fun _ pop ch s => Ok (ch, s)) true.
Definition seconds : clock := Clock 0 N.of_nat (fun g => N.of_nat (g + 1)) 100.

(** ** C24 *)
Theorem C24_run_returns_best_ever :
  forall (G St : Type) (cfg : config G St) ck m0 s evs b m s',
  run cfg ck m0 s = Ok (evs, b, m, s') ->
  all_shown evs (fun x => is_nan (fitness x) = false) ->
  (exists e q, e ∈ evs /\ shown e = Some q /\ b ∈ q) /\ all_shown evs (fun x => fle (fitness b) (fitness x) = true).
Proof. exact @run_best. Qed.
Print Assumptions C24_run_returns_best_ever.

(** Comparability is automatic for populations of two or more: a NaN would have made the run panic. *)
Theorem C24_no_nan_in_shown_populations :
  forall (G St : Type) (cfg : config G St) ck m0 s evs b m s' e q,
  run cfg ck m0 s = Ok (evs, b, m, s') -> e ∈ evs -> shown e = Some q -> 2 <= length q ->
  Forall (fun x => is_nan (fitness x) = false) q.
Proof. exact @run_comparable. Qed.
Print Assumptions C24_no_nan_in_shown_populations.

(** With operators that return normally and keep the size, and a fitness function without NaN, run returns. *)
Theorem C24_run_returns :
  forall (G St : Type) (cfg : config G St) Inv Pool Kid n ck m0 s,
  well_behaved cfg Inv Pool Kid n -> exists evs b m s', run cfg ck m0 s = Ok (evs, b, m, s').
Proof. exact @run_ok. Qed.
Print Assumptions C24_run_returns.

Example C24_nonvacuous :
  exists evs m s', run (peeling 3 50%N) seconds (fresh_metrics (peeling 3 50%N)) 0 = Ok (evs, Ind [true] f1, m, s') /\
    all_shown evs (fun x => is_nan (fitness x) = false) /\
    OnNewGeneration (Metrics 1 2 (Some 1%N)) [Ind [false; true] (f_of_nat 2); Ind [true; false; true] (f_of_nat 3)] ∈ evs.
Proof.
  eexists _, _, _. split; [vm_compute; reflexivity|]. split.
  - intros e q x He Hq Hx. repeat (apply elem_of_cons in He as [->|He]; [try discriminate Hq|]); try (inversion He; fail);
    injection Hq as <-; repeat (apply elem_of_cons in Hx as [->|Hx]; [reflexivity|]); inversion Hx.
  - vm_compute. repeat (try (left; fail); right). 
Qed.
Example C24_well_behaved_nonvacuous : well_behaved (peeling 3 50%N) (fun q => length q = 2) (fun q => length q = 2) (fun _ => True) 2.
Proof.
  split; cbn -[f_of_nat Nat.min].
  - intros pop _. unfold eval_pop. apply Forall_fmap, Forall_forall. intros x _. cbn -[f_of_nat Nat.min].
    destruct (length (chromosome x)) as [|[|[|]]]; [reflexivity..|]. rewrite Nat.min_r by lia. reflexivity.
  - lia.
  - intros s. eexists _, _. split; [reflexivity|]. split; [discriminate|reflexivity].
  - intros m pop s Hl _. eexists _, _. split; [reflexivity|]. destruct pop as [|a [|b [|]]]; try discriminate. exists [b; a]. auto.
  - intros m pool s Hl. eexists _, _. split; [reflexivity|]. split; [exact Hl|apply Forall_true; auto].
  - intros m c s _. eexists _, _. split; [reflexivity|exact I].
  - auto.
  - intros m pop ch s Hl Hc _. eexists _, _. split; [reflexivity|]. unfold eval_pop. rewrite fmap_length. auto.
Qed.

(** ** C25 *)
Theorem C25_probe_protocol :
  forall (G St : Type) (cfg : config G St) ck m0 s evs b m s',
  run cfg ck m0 s = Ok (evs, b, m, s') -> m_generation m0 = 0 ->
  exists nbs : list bool,
    tagged <$> evs = [(KStart, 0); (KInitial, 0); (KNewBest, 0)] ++ blocks 1 nbs ++ [(KEnd, length nbs)].
Proof. exact (fun G St cfg ck m0 s evs b m s' H H0 => match @run_protocol G St cfg ck m0 s evs b m s' H H0 with ex_intro _ nbs (conj E _) => ex_intro _ nbs E end). Qed.
Print Assumptions C25_probe_protocol.

Example C25_nonvacuous :
  exists evs b m s', run (peeling 3 3%N) seconds (fresh_metrics (peeling 3 3%N)) 0 = Ok (evs, b, m, s') /\
    tagged <$> evs = [(KStart, 0); (KInitial, 0); (KNewBest, 0)] ++ blocks 1 [true; false] ++ [(KEnd, 2)].
Proof. eexists _, _, _, _. split; vm_compute; reflexivity. Qed.

(** "metrics.generation is 0 before the loop" holds for a fresh solver only: when [run] is called again on the
    same solver, on_start, on_initial_population_created and the first on_new_best report the last
    generation of the previous run. *)
Theorem C25_second_run_starts_at_zero_refuted :
  exists (cfg : config bool nat) ck s evs1 b1 m1 s1 evs2 b2 m2 s2,
    run cfg ck (fresh_metrics cfg) s = Ok (evs1, b1, m1, s1) /\ run cfg ck m1 s1 = Ok (evs2, b2, m2, s2) /\
    take 3 (tagged <$> evs2) = [(KStart, 3); (KInitial, 3); (KNewBest, 3)].
Proof. exists (peeling 3 50%N), seconds, 0. eexists _, _, _, _, _, _, _, _. split; [vm_compute; reflexivity|]. split; vm_compute; reflexivity. Qed.
Print Assumptions C25_second_run_starts_at_zero_refuted.

(** ** C26 *)
Theorem C26_new_best_strictly_improving :
  forall (G St : Type) (cfg : config G St) ck m0 s evs b m s',
  run cfg ck m0 s = Ok (evs, b, m, s') ->
  StronglySorted (fun x y : individual G => flt (fitness y) (fitness x) = true) (omap new_best evs) /\
  last (omap new_best evs) = Some b /\ (exists q, last evs = Some (OnEnd m q b)).
Proof. exact @run_new_bests. Qed.
Print Assumptions C26_new_best_strictly_improving.

(** on_new_best is called in a generation iff its best is strictly better than everything shown before. *)
Theorem C26_new_best_iff_improvement :
  forall (G St : Type) (cfg : config G St) ck m0 s evs b m s',
  run cfg ck m0 s = Ok (evs, b, m, s') ->
  all_shown evs (fun x => is_nan (fitness x) = false) ->
  forall pre mm q x e post, evs = pre ++ OnNewGeneration mm q :: OnBestFit mm x :: e :: post ->
  (e = OnNewBest mm x <-> improves_on pre x).
Proof. exact @run_new_best_iff. Qed.
Print Assumptions C26_new_best_iff_improvement.

(** on_best_fit_in_generation shows a minimum of the population just shown. *)
Theorem C26_best_fit_is_minimum :
  forall (G St : Type) (cfg : config G St) ck m0 s evs b m s',
  run cfg ck m0 s = Ok (evs, b, m, s') ->
  forall pre mm q e post, evs = pre ++ OnNewGeneration mm q :: e :: post ->
  exists x, e = OnBestFit mm x /\ x ∈ q /\
    (Forall (fun y => is_nan (fitness y) = false) q -> Forall (fun y => fle (fitness x) (fitness y) = true) q).
Proof. exact @run_best_fit. Qed.
Print Assumptions C26_best_fit_is_minimum.

Example C26_nonvacuous :
  exists evs b m s', run (peeling 3 50%N) seconds (fresh_metrics (peeling 3 50%N)) 0 = Ok (evs, b, m, s') /\
    omap new_best evs = [Ind [true; false; true] (f_of_nat 3); Ind [false; true] (f_of_nat 2); Ind [true] f1] /\
    exists pre mm q x e post, evs = pre ++ OnNewGeneration mm q :: OnBestFit mm x :: e :: post.
Proof.
  eexists _, _, _, _. split; [vm_compute; reflexivity|]. split; [vm_compute; reflexivity|].
  eexists [_; _; _; _], _, _, _, _, _. reflexivity.
Qed.

(** ** C27 *)
Theorem C27_shown_populations_evaluated :
  forall (G St : Type) (cfg : config G St) ck m0 s evs b m s',
  run cfg ck m0 s = Ok (evs, b, m, s') ->
  all_shown evs (fun x => fitness x = op_fitness cfg (chromosome x)) /\
  (forall mm q, OnNewGeneration mm q ∈ evs -> length q = population_size cfg /\ m_population_size mm = population_size cfg) /\
  (0 < generation_limit cfg -> forall mm q x, OnEnd mm q x ∈ evs -> length q = population_size cfg) /\
  fitness b = op_fitness cfg (chromosome b).
Proof. exact @run_evaluated. Qed.
Print Assumptions C27_shown_populations_evaluated.

(** ** C28 *)
Theorem C28_termination :
  forall (G St : Type) (cfg : config G St) ck m0 s evs b m s',
  run cfg ck m0 s = Ok (evs, b, m, s') ->
  iterations evs <= generation_limit cfg /\ (0 < generation_limit cfg -> 0 < iterations evs) /\
  (* after every generation but the last the time was not up *)
  (forall g, 0 < g < iterations evs -> (c_end ck g < max_duration cfg)%N) /\
  (* an early end means that the time was up *)
  (iterations evs < generation_limit cfg -> (max_duration cfg <= c_end ck (iterations evs))%N).
Proof. exact @run_iterations. Qed.
Print Assumptions C28_termination.

(** Both causes of termination, and the zero duration. *)
Example C28_nonvacuous :
  let its cfg := match run cfg seconds (fresh_metrics cfg) 0 with Ok (evs, _, _, _) => Some (iterations evs) | _ => None end in
  its (peeling 3 50%N) = Some 3 /\ its (peeling 3 3%N) = Some 2 /\ its (peeling 3 0%N) = Some 1 /\ its (peeling 0 0%N) = Some 0.
Proof. split_and!; vm_compute; reflexivity. Qed.

(** ** C52 *)
Theorem C52_generation_dataflow :
  forall (G St : Type) (cfg : config G St) ck m0 s evs b m s',
  run cfg ck m0 s = Ok (evs, b, m, s') ->
  exists raw s0 ss, op_generate cfg (population_size cfg) s = Ok (raw, s0) /\
    head (populations evs) = Some (evaluate (op_fitness cfg) raw) /\ head ss = Some s0 /\ last ss = Some s' /\
    length ss = length (populations evs) /\ length (populations evs) = S (iterations evs) /\
    (exists q, last evs = Some (OnEnd m q b) /\ last (populations evs) = Some q) /\
    forall i q s1 q' s1', populations evs !! i = Some q -> ss !! i = Some s1 ->
      populations evs !! S i = Some q' -> ss !! S i = Some s1' ->
      exists mm, m_generation mm = S i /\ next_population cfg mm q s1 q' s1'.
Proof. exact @run_flow. Qed.
Print Assumptions C52_generation_dataflow.

Example C52_nonvacuous :
  exists evs b m s', run (peeling 2 50%N) seconds (fresh_metrics (peeling 2 50%N)) 0 = Ok (evs, b, m, s') /\
    length (populations evs) = 3.
Proof. eexists _, _, _, _. split; vm_compute; reflexivity. Qed.
