(** * Specification vocabulary for the job shop example *)
From Verif Require Export JsspModel.
Open Scope nat_scope.

(** A shop gives, for every job, the machine and the duration of each of its operations, in the order in which they must be performed. *)
Definition shop := list (list (nat * N)).
(** Operation number k of job number j (both from 0) needs machine m for a time d *)
Definition task (jobs : shop) (j k m : nat) (d : N) : Prop := exists job, jobs !! j = Some job /\ job !! k = Some (m, d).
Definition job_work (job : list (nat * N)) : N := foldr (fun md acc => (md.2 + acc)%N) 0%N job.
Definition shop_work (jobs : shop) : N := foldr (fun job acc => (job_work job + acc)%N) 0%N jobs.
Definition n_tasks (jobs : shop) : nat := list_sum (map length jobs).
(** A shop with [nm] machines that the example accepts: there are jobs, no job is empty, the machines exist, and all the work together takes at most
    2^50 time units (so that times are exact as f64 values). *)
Definition valid_shop (nm : nat) (jobs : shop) : Prop :=
  jobs <> [] /\ (forall job, job ∈ jobs -> job <> []) /\ (forall j k m d, task jobs j k m d -> m < nm) /\ (shop_work jobs <= 2 ^ 50)%N.
(** The usual benchmark shops: every operation takes some time, and consecutive operations of a job use different machines *)
Definition standard_shop (jobs : shop) : Prop :=
  (forall j k m d, task jobs j k m d -> (0 < d)%N) /\
  (forall j k m d m' d', task jobs j k m d -> task jobs j (S k) m' d' -> m <> m').

(** A schedule gives the start of each operation.  It is feasible if the operations of a job are performed one after the other and a machine performs
    one operation at a time. *)
Definition job_order (jobs : shop) (start : nat -> nat -> N) : Prop :=
  forall j k m d m' d', task jobs j k m d -> task jobs j (S k) m' d' -> (start j k + d <= start j (S k))%N.
Definition one_at_a_time (jobs : shop) (start : nat -> nat -> N) : Prop :=
  forall j k j' k' m d d', task jobs j k m d -> task jobs j' k' m d' -> (j, k) <> (j', k') -> (start j k + d <= start j' k')%N \/ (start j' k' + d' <= start j k)%N.
Definition feasible (jobs : shop) (start : nat -> nat -> N) : Prop := job_order jobs start /\ one_at_a_time jobs start.
(** The time at which the last operation finishes *)
Definition has_makespan (jobs : shop) (start : nat -> nat -> N) (t : N) : Prop :=
  (forall j k m d, task jobs j k m d -> (start j k + d <= t)%N) /\ exists j k m d, task jobs j k m d /\ (start j k + d = t)%N.

(** The time that machine m is needed for *)
Definition machine_work (jobs : shop) (m : nat) : N := foldr (fun md acc => ((if decide (md.1 = m) then md.2 else 0) + acc)%N) 0%N (concat jobs).

(** The numbers of an instance file: the number of jobs and machines, then one line per job *)
Definition file_of (nm : nat) (jobs : shop) : list (list N) :=
  [N.of_nat (length jobs); N.of_nat nm] :: map (fun job => concat (map (fun md => [N.of_nat md.1; md.2]) job)) jobs.
(** Reading an instance and preparing the population provider *)
Definition load (nm : nat) (jobs : shop) : outcome provider := inst ← parse_instance (file_of nm jobs); new_provider inst.

(** The position, in the operation vector of an individual, of operation k of job j: position 0 is the artificial first operation *)
Definition op_number (jobs : shop) (j k : nat) : nat := 1 + list_sum (map length (take j jobs)) + k.
(** The start that an individual records for operation k of job j: its finish time minus its duration *)
Definition recorded_start (jobs : shop) (x : jind) (j k : nat) : option N :=
  o ← j_ops x !! op_number jobs j k; t ← op_finish o; Some (t - op_duration o)%N.

(** A gene is a number from 0 to 1; the chromosome has two genes per operation *)
Definition genes_for (jobs : shop) (c : list f64) : Prop := length c = 2 * n_tasks jobs /\ Forall (fun x => valid_binary 53 1024 x = true /\ fle f0 x = true /\ fle x f1 = true) c.

(** A delay constant is a number from 0 to 1000; the example uses 1.5 *)
Definition delay_ok (x : f64) : Prop := valid_binary 53 1024 x = true /\ fle f0 x = true /\ fle x (f_of_Z 1000) = true.
(** The individual [x] records the schedule [start] *)
Definition records (jobs : shop) (x : jind) (start : nat -> nat -> N) : Prop := forall j k m d, task jobs j k m d -> recorded_start jobs x j k = Some (start j k).
(** Once the operations in [placed] have their starts, operation k of job j can start at time t: the operation before it in its job is placed and has
    finished by then, and its machine is free for its duration. *)
Definition fits (jobs : shop) (start : nat -> nat -> N) (placed : list (nat * nat)) (j k : nat) (t : N) : Prop :=
  (forall k', k = S k' -> (j, k') ∈ placed /\ forall m d, task jobs j k' m d -> (start j k' + d <= t)%N) /\
  (forall j' k' m d d', (j', k') ∈ placed -> task jobs j k m d -> task jobs j' k' m d' -> (t + d <= start j' k')%N \/ (start j' k' + d' <= t)%N).
(** The schedule arises by placing the operations one by one, in the given order, each as early as possible *)
Definition placed_earliest (jobs : shop) (start : nat -> nat -> N) (order : list (nat * nat)) : Prop :=
  NoDup order /\ (forall j k, (j, k) ∈ order <-> exists m d, task jobs j k m d) /\
  forall before j k after, order = before ++ (j, k) :: after -> fits jobs start before j k (start j k) /\ forall t, fits jobs start before j k t -> (start j k <= t)%N.
(** The schedule in which only operation k of job j is moved, to time t *)
Definition move (start : nat -> nat -> N) (j k : nat) (t : N) : nat -> nat -> N := fun j' k' => if decide ((j', k') = (j, k)) then t else start j' k'.

(** The individuals that can exist during a run: freshly generated ones, those that have been evaluated, and those that got other genes (children) *)
Definition fresh (p : provider) (c : list f64) : jind := new_jind c (p_ops p) (repeat new_machine (p_machines p)) usize_max.
(** The evaluation of [x] ends, with the evaluated individual [x'] and the fitness [m]; the evaluation of [x] never ends *)
Definition evaluates (delay_const : f64) (x x' : jind) (m : N) : Prop := exists k, forall fuel, k <= fuel -> evaluate_individual fuel delay_const x = Ok (x', m).
Definition never_ends (delay_const : f64) (x : jind) : Prop := forall fuel, evaluate_individual fuel delay_const x = Diverge.
Inductive reachable (jobs : shop) (p : provider) (delay_const : f64) : jind -> Prop :=
| reach_fresh c : genes_for jobs c -> reachable jobs p delay_const (fresh p c)
| reach_eval x x' m : reachable jobs p delay_const x -> evaluates delay_const x x' m -> reachable jobs p delay_const x'
| reach_child x c : reachable jobs p delay_const x -> genes_for jobs c -> reachable jobs p delay_const (with_genes c x).

(** Crossover: whether draw number i of [r], a number from [0, 1), is at most 0.6; then gene number i keeps its place *)
Definition keeps (r : rng) (i : nat) : bool := fle (f_unit 52 (r i mod 2 ^ 52)) f_0_6.
(** The children's genes: gene number i of the first child comes from the first parent if [keep i] and from the second one otherwise; the other parent
    gives it to the second child *)
Definition swapped (keep : nat -> bool) (c1 c2 k1 k2 : list f64) : Prop :=
  length k1 = length c1 /\ length k2 = length c1 /\ forall i a b, c1 !! i = Some a -> c2 !! i = Some b -> k1 !! i = Some (if keep i then a else b) /\ k2 !! i = Some (if keep i then b else a).
(** Replacement: the share [rate] of n individuals, rounded down *)
Definition part (rate : f64) (n : nat) : nat := N.to_nat (f_to_usize (fmul rate (f_of_nat n))).

(** ** The decoding of a chromosome *)
(** The longest duration *)
Definition longest (jobs : shop) (t : N) : Prop := (forall j k m d, task jobs j k m d -> (d <= t)%N) /\ exists j k m, task jobs j k m t.
(** The first half of the genes are priorities; gene number g of the second half, times the delay constant and the longest duration, is the delay for
    placing operation number g (from 1).  The window at time T ends this delay after T. *)
Definition priority (jobs : shop) (genes : list f64) (j k : nat) : f64 := nth (op_number jobs j k - 1) genes f0.
Definition window_end (jobs : shop) (delay_const : f64) (genes : list f64) (longest : N) (g : nat) (T : N) : f64 :=
  fadd (f_of_N T) (fmul (fmul (nth (n_tasks jobs + g - 1) genes f0) delay_const) (f_of_N longest)).
(** Operation k of job j may be placed next: it is not placed, and the operation before it in its job is placed and finishes inside the window *)
Definition eligible (jobs : shop) (start : nat -> nat -> N) (placed : list (nat * nat)) (limit : f64) (j k : nat) : Prop :=
  (exists m d, task jobs j k m d) /\ (j, k) ∉ placed /\
  forall k', k = S k' -> (j, k') ∈ placed /\ forall m d, task jobs j k' m d -> fle (f_of_N (start j k' + d)) limit = true.
(** The moments from [since] on: [since] itself and the later finish times of placed operations *)
Definition moment_from (jobs : shop) (start : nat -> nat -> N) (placed : list (nat * nat)) (since t : N) : Prop :=
  t = since \/ ((since < t)%N /\ exists j k m d, (j, k) ∈ placed /\ task jobs j k m d /\ t = (start j k + d)%N).
(** The order in which the operations are placed: time stands still until no operation is eligible and then moves on to the first moment at which one
    is; among the eligible operations the one with the highest priority is placed, and the first one in case of a tie. *)
Definition placed_by_priority (jobs : shop) (delay_const : f64) (genes : list f64) (start : nat -> nat -> N) (order : list (nat * nat)) : Prop :=
  exists longest_duration times, longest jobs longest_duration /\ length times = length order /\
  forall before j k after, order = before ++ (j, k) :: after ->
  exists T, times !! length before = Some T /\
    let since := List.last (take (length before) times) 0%N in
    let may t := eligible jobs start before (window_end jobs delay_const genes longest_duration (S (length before)) t) in
    moment_from jobs start before since T /\ may T j k /\
    (forall t j' k', moment_from jobs start before since t -> (t < T)%N -> ~ may t j' k') /\
    forall j' k', may T j' k' -> flt (priority jobs genes j' k') (priority jobs genes j k) = true \/
      (fle (priority jobs genes j' k') (priority jobs genes j k) = true /\ op_number jobs j k <= op_number jobs j' k').

(** ** The local search *)
(** Machine m performs the operations of [seqs m], in this order *)
Definition machine_orders (jobs : shop) (seqs : nat -> list (nat * nat)) : Prop := forall m, NoDup (seqs m) /\ forall j k, (j, k) ∈ seqs m <-> exists d, task jobs j k m d.
(** The individual [x] stores the machine orders: every operation points to the next operation on its machine, if there is one *)
Definition stores (jobs : shop) (x : jind) (seqs : nat -> list (nat * nat)) : Prop :=
  forall j k m d, task jobs j k m d -> exists o, j_ops x !! op_number jobs j k = Some o /\
  forall i, Edge i MachineSucc ∈ op_edges o <-> exists before j' k' after, seqs m = before ++ (j, k) :: (j', k') :: after /\ i = op_number jobs j' k'.
(** The schedule performs the operations of every job, and those of every machine, in the given orders *)
Definition follows (jobs : shop) (seqs : nat -> list (nat * nat)) (start : nat -> nat -> N) : Prop :=
  job_order jobs start /\ forall m before j k j' k' after d, seqs m = before ++ (j, k) :: (j', k') :: after -> task jobs j k m d -> (start j k + d <= start j' k')%N.
(** The makespan of machine orders: the shortest one of the schedules that follow them *)
Definition orders_makespan (jobs : shop) (seqs : nat -> list (nat * nat)) (t : N) : Prop :=
  (exists start, follows jobs seqs start /\ has_makespan jobs start t) /\ forall start t', follows jobs seqs start -> has_makespan jobs start t' -> (t <= t')%N.
(** Exchanging the operations u and v, which follow each other on a machine *)
Definition exchanged (u v : nat * nat) (seqs seqs' : nat -> list (nat * nat)) : Prop :=
  exists m before after, seqs m = before ++ u :: v :: after /\ seqs' m = before ++ v :: u :: after /\ forall m', m' <> m -> seqs' m' = seqs m'.
Definition duration (jobs : shop) (o : nat * nat) : N := match jobs !! o.1 with Some job => match job !! o.2 with Some md => md.2 | None => 0%N end | None => 0%N end.
(** A critical path: operations that together take the time t, from the first operation of a job to the last operation of a job, where each one is
    followed by the next operation on its machine (in the same block) or by the next operation of its job (in the next block). *)
Definition critical_path (jobs : shop) (seqs : nat -> list (nat * nat)) (t : N) (blocks : list (list (nat * nat))) : Prop :=
  (forall block, block ∈ blocks -> block <> [] /\ exists m before after, seqs m = before ++ block ++ after) /\
  (forall q block block', blocks !! q = Some block -> blocks !! S q = Some block' -> exists j k, last block = Some (j, k) /\ head block' = Some (j, S k)) /\
  (exists j, head (concat blocks) = Some (j, 0)) /\
  (exists j k, last (concat blocks) = Some (j, k) /\ forall m d, ~ task jobs j (S k) m d) /\
  foldr (fun o acc => (duration jobs o + acc)%N) 0%N (concat blocks) = t.
(** Exchanging the first two operations of a block (but not of the first one), or the last two of a block (but not of the last one), does not give
    machine orders with a shorter makespan. *)
Definition locally_optimal (jobs : shop) (seqs : nat -> list (nat * nat)) (t : N) (blocks : list (list (nat * nat))) : Prop :=
  forall q block, blocks !! q = Some block ->
  (forall u v rest, block = u :: v :: rest -> q <> 0 -> exists seqs' t', exchanged u v seqs seqs' /\ orders_makespan jobs seqs' t' /\ (t <= t')%N) /\
  (forall rest u v, block = rest ++ [u; v] -> S q <> length blocks -> exists seqs' t', exchanged u v seqs seqs' /\ orders_makespan jobs seqs' t' /\ (t <= t')%N).
(** The machine orders in which the operations are placed *)
Definition machine_of (jobs : shop) (o : nat * nat) : option nat := job ← jobs !! o.1; md ← job !! o.2; Some md.1.
Definition placing_orders (jobs : shop) (order : list (nat * nat)) (m : nat) : list (nat * nat) := filter (fun o => machine_of jobs o = Some m) order.
