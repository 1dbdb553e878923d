(** * Property theorems: which schedules the genes can stand for (C139) *)
From Coq Require Import Reals Lra.
From Verif Require Import F64R JsspReachProofs JsspMissProofs JsspBoundProofs JsspLimitProofs PropsJssp JsspModel JsspSpec.
Open Scope nat_scope.

(** ** C139: with a long enough delay window every schedule can be matched *)
(** If the delay constant times the longest duration exceeds the makespan of a feasible schedule, then there are genes - which can be drawn for the
    initial population - whose own schedule starts every operation at least as early; the fitness is at most that makespan. *)
Theorem C139_every_schedule_can_be_matched :
  forall nm jobs delay_const p longest_duration schedule t, valid_shop nm jobs -> standard_shop jobs -> delay_ok delay_const -> load nm jobs = Ok p ->
  longest jobs longest_duration -> feasible jobs schedule -> has_makespan jobs schedule t -> (t <= 2 ^ 50)%N -> (IZR (Z.of_N t) + 1 <= f2r delay_const * IZR (Z.of_N longest_duration))%R ->
  exists genes, genes_for jobs genes /\ (exists r, forall count, 0 < count -> exists others r', generate_jssp p count r = Ok (fresh p genes :: others, r')) /\
  exists x m start, evaluates delay_const (fresh p genes) x m /\ (m <= t)%N /\ records jobs x start /\ forall j k mach d, task jobs j k mach d -> (start j k <= schedule j k)%N.
Proof. exact within_reach. Qed.
Print Assumptions C139_every_schedule_can_be_matched.
(** So the shortest makespan is the fitness of an individual that can be drawn *)
Theorem C139_optimum_can_be_drawn :
  forall nm jobs delay_const p longest_duration schedule t, valid_shop nm jobs -> standard_shop jobs -> delay_ok delay_const -> load nm jobs = Ok p ->
  longest jobs longest_duration -> feasible jobs schedule -> has_makespan jobs schedule t -> (forall other t', feasible jobs other -> has_makespan jobs other t' -> (t <= t')%N) ->
  (IZR (Z.of_N t) + 1 <= f2r delay_const * IZR (Z.of_N longest_duration))%R ->
  exists r, forall count, 0 < count -> exists x others r', generate_jssp p count r = Ok (x :: others, r') /\ exists x', evaluates delay_const x x' t.
Proof. exact optimum_within_reach. Qed.
Print Assumptions C139_optimum_can_be_drawn.

(** The populations that can be drawn are exactly those with the right number of genes, each a multiple of 2^-52 from [0, 1) *)
Theorem C139_populations_that_can_be_drawn :
  forall nm jobs p pop, valid_shop nm jobs -> load nm jobs = Ok p ->
  (exists r r', generate_jssp p (length pop) r = Ok (pop, r')) <->
  exists chromosomes, pop = map (fresh p) chromosomes /\ Forall (fun genes => length genes = 2 * n_tasks jobs /\ Forall (fun x => exists k, (k < 2 ^ 52)%N /\ x = f_unit 52 k) genes) chromosomes.
Proof. exact drawn_populations. Qed.
Print Assumptions C139_populations_that_can_be_drawn.
Example C139_unit_value : f2r (f_unit 52 (2 ^ 51)) = 0.5%R.
Proof. rewrite f2r_unit by lia. change (Z.of_N (2 ^ 51)) with 2251799813685248%Z. change (Raux.bpow Zaux.radix2 (- Z.of_N 52)) with (/ 4503599627370496)%R. lra. Qed.

(** A shop with one long operation, the delay constant of the example *)
Definition long_shop : shop := [[(0, 10%N); (1, 1%N)]; [(1, 2%N); (0, 1%N)]].
Lemma dc_real : f2r dc_example = 1.5%R.
Proof.
  assert (E : dc_example = SpecFloat.S754_finite false 6755399441055744 (-52)) by (vm_compute; reflexivity). rewrite E. unfold f2r, BinarySingleNaN.SF2R, Defs.F2R. cbn [Defs.Fnum Defs.Fexp Zaux.cond_Zopp].
  change (Raux.bpow Zaux.radix2 (-52)) with (/ 4503599627370496)%R. lra.
Qed.
Definition long_schedule (j k : nat) : N := match k with 0 => 0%N | _ => 10%N end.
Lemma long_tasks (P : nat -> nat -> nat -> N -> Prop) : P 0 0 0 10%N -> P 0 1 1 1%N -> P 1 0 1 2%N -> P 1 1 0 1%N -> forall j k m d, task long_shop j k m d -> P j k m d.
Proof.
  intros A B C D j k m d (job & Hj & Hk). destruct j as [|[|j]]; [| |discriminate]; injection Hj as <-; (destruct k as [|[|k]]; [| |discriminate]); injection Hk as <- <-; assumption.
Qed.
Example C139_nonvacuous : exists p, valid_shop 2 long_shop /\ standard_shop long_shop /\ delay_ok dc_example /\ load 2 long_shop = Ok p /\ longest long_shop 10 /\ feasible long_shop long_schedule /\
  has_makespan long_shop long_schedule 11 /\ (forall other t', feasible long_shop other -> has_makespan long_shop other t' -> (11 <= t')%N) /\ (IZR (Z.of_N 11) + 1 <= f2r dc_example * IZR (Z.of_N 10))%R.
Proof.
  assert (V : valid_shop 2 long_shop).
  { split; [discriminate|]. split; [apply elem_tac; repeat constructor; discriminate|]. split; [|cbv; discriminate]. apply (tasks_all (fun m d => m < 2)). repeat constructor. }
  eexists. split; [exact V|]. split.
  { split; [apply (tasks_all (fun m d => (0 < d)%N)); repeat constructor|]. intros j k m d m' d' T T'. revert T'. revert j k m d T. apply (long_tasks (fun j k m d => task long_shop j (S k) m' d' -> m <> m')); intros (job & Hj & Hk); injection Hj as <-; try discriminate; injection Hk as <- <-; discriminate. }
  split; [exact dc_ok|]. split; [apply load_spec, V|]. split.
  { split; [apply (long_tasks (fun j k m d => (d <= 10)%N)); lia|]. exists 0, 0, 0. eexists; split; reflexivity. }
  split.
  { split.
    - intros j k m d m' d' T T'. revert T'. revert j k m d T. apply (long_tasks (fun j k m d => task long_shop j (S k) m' d' -> (long_schedule j k + d <= long_schedule j (S k))%N)); intros (job & Hj & Hk); injection Hj as <-; try discriminate; cbn; lia.
    - intros j k j' k' m d d' T T' Ne. revert j' k' d' T' Ne. revert j k m d T. apply (long_tasks (fun j k m d => forall j' k' d', task long_shop j' k' m d' -> (j, k) <> (j', k') -> (long_schedule j k + d <= long_schedule j' k')%N \/ (long_schedule j' k' + d' <= long_schedule j k)%N)).
      all: intros j' k' d' (job & Hj & Hk) Ne; destruct j' as [|[|j']]; [| |discriminate]; injection Hj as <-; (destruct k' as [|[|k']]; [| |discriminate]); try discriminate Hk; injection Hk as <-; try congruence; unfold long_schedule; lia. }
  split.
  { split; [apply (long_tasks (fun j k m d => (long_schedule j k + d <= 11)%N)); cbn; lia|]. exists 0, 1, 1, 1%N. split; [eexists; split; reflexivity|reflexivity]. }
  split.
  { intros other t' Fo Mo. apply (job_bound long_shop other t' Fo Mo [(0, 10%N); (1, 1%N)]). left. }
  rewrite dc_real. cbn. lra.
Qed.

(** With the delay constant 1.5 of the example the window can be too short: there is a shop with a feasible schedule of makespan 5 such that the schedule
    recorded by the evaluation of any individual that can occur has a makespan of at least 7. *)
Theorem C139_shipped_constant_may_miss_the_optimum :
  exists nm jobs p best, valid_shop nm jobs /\ standard_shop jobs /\ load nm jobs = Ok p /\ feasible jobs best /\ has_makespan jobs best 5 /\
  forall x, reachable jobs p dc_example x -> exists x' m start t, evaluates dc_example x x' m /\ records jobs x' start /\ feasible jobs start /\ has_makespan jobs start t /\ (7 <= t)%N.
Proof.
  assert (Lp : load 3 miss_shop = Ok _) by (apply load_spec, miss_valid). eexists 3, miss_shop, _, miss_best. split; [exact miss_valid|]. split; [exact miss_standard|]. split; [exact Lp|]. split; [exact miss_best_feasible|]. split; [exact miss_best_makespan|].
  intros x Rx. destruct (C82_fitness_is_a_makespan _ _ _ _ x miss_valid miss_standard dc_ok Lp Rx) as (x' & m & E & _ & _ & _ & _ & _ & _ & _ & start & t & R & F & M & _).
  exists x', m, start, t. split; [exact E|]. split; [exact R|]. split; [exact F|]. split; [exact M|]. exact (never_optimal _ x x' m start t Lp Rx E R M).
Qed.
Print Assumptions C139_shipped_constant_may_miss_the_optimum.
Example C139_miss_value : f2r dc_example = 1.5%R /\ (exists c, genes_for miss_shop c) /\ longest miss_shop 1.
Proof.
  split; [exact dc_real|]. split.
  - exists (repeat f1 18). split; [reflexivity|]. repeat (apply List.Forall_cons; [repeat split; vm_compute; reflexivity|]). apply List.Forall_nil.
  - split; [intros j k m d T; destruct (miss_task _ _ _ _ T) as [-> _]; lia|]. exists 0, 0, 1. eexists; split; reflexivity.
Qed.
