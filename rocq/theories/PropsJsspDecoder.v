(** * Property theorems: the decoder and the local search of the job shop example (C90, C91) *)
From Verif Require Import PropsJssp JsspLimitProofs JsspSearchProofs JsspOrderProofs JsspModel JsspSpec.
Open Scope nat_scope.

(** ** C90: the schedule that a chromosome stands for *)
(** The operations are placed one by one, each as early as possible; the genes alone say in which order *)
Theorem C90_decoding :
  forall nm jobs delay_const p c x' m, valid_shop nm jobs -> delay_ok delay_const -> load nm jobs = Ok p -> genes_for jobs c -> evaluates delay_const (fresh p c) x' m ->
  exists start order, records jobs x' start /\ placed_earliest jobs start order /\ placed_by_priority jobs delay_const c start order.
Proof. intros nm jobs dc p c x' m V Hdc. exact (fresh_order nm jobs V dc Hdc p c x' m). Qed.
Print Assumptions C90_decoding.
(** The same for every individual that occurs during a run *)
Theorem C90_decoding_reachable :
  forall nm jobs delay_const p x x' m, valid_shop nm jobs -> delay_ok delay_const -> standard_shop jobs -> load nm jobs = Ok p -> reachable jobs p delay_const x -> evaluates delay_const x x' m ->
  exists start order, records jobs x' start /\ placed_earliest jobs start order /\ placed_by_priority jobs delay_const (j_chromosome x) start order.
Proof. intros nm jobs dc p x x' m V Hdc. exact (reachable_order nm jobs V dc Hdc p x x' m). Qed.
Print Assumptions C90_decoding_reachable.
(** These rules leave no choice: they determine the order and every start *)
Theorem C90_rules_determine_schedule :
  forall jobs delay_const c start order start' order',
  placed_earliest jobs start order -> placed_by_priority jobs delay_const c start order ->
  placed_earliest jobs start' order' -> placed_by_priority jobs delay_const c start' order' ->
  order = order' /\ forall j k m d, task jobs j k m d -> start j k = start' j k.
Proof. exact order_unique. Qed.
Print Assumptions C90_rules_determine_schedule.
Example C90_nonvacuous : exists start order, placed_earliest example_shop start order /\ placed_by_priority example_shop dc_example example_genes start order /\ length order = 9 /\ start 0 2 = 14%N.
Proof.
  destruct (C90_decoding _ _ _ _ _ _ _ example_valid dc_ok example_load example_genes_ok example_evaluates) as (start & order & R & E & P). exists start, order. split; [exact E|]. split; [exact P|]. split.
  - destruct E as (Nd & All & _). transitivity (length [(0,0);(0,1);(0,2);(1,0);(1,1);(1,2);(2,0);(2,1);(2,2)]); [|reflexivity]. apply Permutation_length. apply NoDup_Permutation; [exact Nd|apply (bool_decide_unpack _); vm_compute; exact I|].
    intros [j k]. rewrite All. split.
    + intros (m & d & job & Hj & Hk). destruct j as [|[|[|j]]]; [| | |discriminate]; injection Hj as <-; (destruct k as [|[|[|k]]]; [| | |discriminate]); apply (bool_decide_unpack _); vm_compute; exact I.
    + intros H. repeat (apply elem_of_cons in H as [H|H]; [injection H as -> ->; do 3 eexists; split; reflexivity|]). apply elem_of_nil in H. tauto.
  - assert (T : task example_shop 0 2 2 2%N) by (eexists; split; reflexivity). specialize (R _ _ _ _ T). assert (H : recorded_start example_shop example_result.1 0 2 = Some 14%N) by reflexivity. rewrite H in R. injection R as <-. reflexivity.
Qed.

(** ** C91: the local search ends in a local optimum *)
(** Evaluating an individual of a standard shop leaves machine orders in it: their makespan is at most that of the orders in which the operations were
    placed, and no exchange at the border of two blocks of some critical path shortens it.  The fitness is the smaller one of this makespan and the
    makespan of the schedule that the genes stand for. *)
Theorem C91_local_optimum :
  forall nm jobs delay_const p x x' m, valid_shop nm jobs -> delay_ok delay_const -> standard_shop jobs -> load nm jobs = Ok p -> reachable jobs p delay_const x -> evaluates delay_const x x' m ->
  exists start order seqs t t0 s blocks,
    records jobs x' start /\ placed_earliest jobs start order /\ placed_by_priority jobs delay_const (j_chromosome x) start order /\ has_makespan jobs start s /\
    machine_orders jobs seqs /\ stores jobs x' seqs /\ orders_makespan jobs seqs t /\ m = N.min s t /\
    orders_makespan jobs (placing_orders jobs order) t0 /\ (t <= t0)%N /\
    critical_path jobs seqs t blocks /\ locally_optimal jobs seqs t blocks.
Proof. intros nm jobs dc p x x' m V Hdc. exact (reachable_local_optimum nm jobs V dc Hdc p x x' m). Qed.
Print Assumptions C91_local_optimum.
Example C91_nonvacuous : exists seqs blocks, stores example_shop example_result.1 seqs /\ orders_makespan example_shop seqs 11%N /\ critical_path example_shop seqs 11%N blocks /\ locally_optimal example_shop seqs 11%N blocks.
Proof.
  destruct (C91_local_optimum _ _ _ _ _ _ _ example_valid dc_ok example_standard example_load (reach_fresh _ _ _ _ example_genes_ok) example_evaluates) as (start & order & seqs & t & t0 & s & blocks & R & _ & _ & [M _] & _ & St & O & E & _ & _ & C & L).
  assert (T : task example_shop 0 2 2 2%N) by (eexists; split; reflexivity). specialize (R _ _ _ _ T). specialize (M _ _ _ _ T). assert (H : recorded_start example_shop example_result.1 0 2 = Some 14%N) by reflexivity. rewrite H in R. injection R as R.
  rewrite <- R in M. assert (t = 11%N) as -> by lia. exists seqs, blocks. auto.
Qed.
