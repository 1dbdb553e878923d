(** * The operations that the example builds from an instance *)
From Verif Require Export JsspSpec JsspGraphProofs.
Open Scope nat_scope.

Lemma sum_app a b : list_sum (a ++ b) = list_sum a + list_sum b.
Proof. induction a as [|x a IH]; cbn [app list_sum foldr] in *; [reflexivity|]. unfold list_sum in *. cbn [foldr app]. lia. Qed.

(** ** Parsing *)
Definition parsed_op (first i : nat) (md : nat * N) : operation := new_operation (first + i) md.2 md.1 (seq first i).
Fixpoint parsed (id : nat) (jobs : shop) : list (list operation) :=
  match jobs with [] => [] | job :: js => imap (parsed_op id) job :: parsed (id + length job) js end.
Lemma parse_job_spec first job : forall k, parse_job first (first + k) (concat (map (fun md => [N.of_nat md.1; md.2]) job)) = Ok (imap (fun i => parsed_op first (k + i)) job).
Proof.
  induction job as [|[m d] job IH]; intros k; [reflexivity|]. cbn [map concat app parse_job fst snd]. replace (S (first + k)) with (first + S k) by lia. rewrite IH. cbn [mbind outcome_bind imap].
  do 2 f_equal.
  - unfold parsed_op. cbn [fst snd]. rewrite Nat2N.id. replace (first + k - first) with k by lia. rewrite Nat.add_0_r. reflexivity.
  - apply imap_ext. intros i md _. unfold compose. f_equal. lia.
Qed.
Lemma parse_jobs_spec jobs : forall id, parse_jobs id (map (fun job => concat (map (fun md => [N.of_nat md.1; md.2]) job)) jobs) = Ok (parsed id jobs).
Proof.
  induction jobs as [|job jobs IH]; intros id; [reflexivity|]. cbn [map parse_jobs parsed]. pose proof (parse_job_spec id job 0) as E. rewrite Nat.add_0_r in E. rewrite E. cbn [mbind outcome_bind].
  rewrite imap_length, IH. reflexivity.
Qed.
Lemma parse_instance_spec nm jobs : parse_instance (file_of nm jobs) = Ok (nm, parsed 0 jobs).
Proof. unfold parse_instance, file_of. rewrite parse_jobs_spec. cbn [mbind outcome_bind]. rewrite Nat2N.id. reflexivity. Qed.

(** ** The provider *)
Definition ready_op (dim first len i : nat) (md : nat * N) : operation :=
  Operation (S (first + i)) md.2 md.1 None (0 :: seq (S first) i) [Edge (if decide (S i = len) then dim + 1 else S (S (first + i))) JobSucc] None None 0%N.
Fixpoint prepared (dim id : nat) (jobs : shop) : list (list operation) :=
  match jobs with [] => [] | job :: js => imap (ready_op dim id (length job)) job :: prepared dim (id + length job) js end.
Lemma prepare_job_spec dim id job : job <> [] -> prepare_job dim (imap (parsed_op id) job) = Ok (imap (ready_op dim id (length job)) job).
Proof.
  intros Hne. unfold prepare_job. set (l := map shift_operation (imap (parsed_op id) job)).
  assert (Ll : length l = length job) by (unfold l; rewrite map_length, imap_length; reflexivity).
  assert (Hl : forall i, l !! i = (fun md => shift_operation (parsed_op id i md)) <$> job !! i).
  { intros i. unfold l. change (map shift_operation (imap (parsed_op id) job)) with (shift_operation <$> imap (parsed_op id) job). rewrite list_lookup_fmap, list_lookup_imap. destruct (job !! i); reflexivity. }
  assert (Hpos : 0 < length job) by (destruct job; [congruence|cbn; lia]).
  destruct (lookup_lt_is_Some_2 job (length job - 1)) as [z Hz]; [lia|].
  rewrite last_lookup, Ll. replace (Nat.pred (length job)) with (length job - 1) by lia. rewrite Hl, Hz. cbn [fmap option_fmap option_map unwrap mbind outcome_bind].
  cbn [edge_to_sink shift_operation parsed_op op_edges new_operation app last unwrap mbind outcome_bind length Nat.sub insert list_insert edge_kind_of]. f_equal.
  apply list_eq. intros i. rewrite list_lookup_imap. destruct (decide (i = length job - 1)) as [->|Hi].
  - rewrite list_lookup_insert by lia. rewrite Hz. cbn [fmap option_fmap option_map]. f_equal. unfold ready_op. rewrite decide_True by lia. unfold set_edges, shift_operation, parsed_op, new_operation.
    cbn [op_id op_duration op_machine op_finish op_preds op_edges op_mpred op_cp_edge op_cp_dist]. rewrite <- fmap_S_seq. reflexivity.
  - rewrite list_lookup_insert_ne by congruence. rewrite Hl. destruct (job !! i) as [md|] eqn:Hm; [|reflexivity]. cbn [fmap option_fmap option_map]. f_equal. unfold ready_op.
    apply lookup_lt_Some in Hm. rewrite decide_False by lia. unfold shift_operation, parsed_op, new_operation.
    cbn [op_id op_duration op_machine op_finish op_preds op_edges op_mpred op_cp_edge op_cp_dist]. rewrite <- fmap_S_seq. reflexivity.
Qed.
Lemma prepare_jobs_spec dim jobs : (forall job, job ∈ jobs -> job <> []) -> forall id, omapM (prepare_job dim) (parsed id jobs) = Ok (prepared dim id jobs).
Proof.
  induction jobs as [|job jobs IH]; intros H id; [reflexivity|]. cbn [parsed omapM prepared]. rewrite prepare_job_spec by (apply H; left). cbn [mbind outcome_bind].
  rewrite IH by (intros j Hj; apply H; right; exact Hj). reflexivity.
Qed.
Fixpoint offsets (id : nat) (jobs : shop) : list nat := match jobs with [] => [] | job :: js => id :: offsets (id + length job) js end.
Lemma heads_spec dim jobs : (forall job, job ∈ jobs -> job <> []) -> forall id,
  exists firsts, omapM (fun job => unwrap (head job)) (prepared dim id jobs) = Ok firsts /\ map (fun o => Edge (op_id o) JobSucc) firsts = map (fun f => Edge (S f) JobSucc) (offsets id jobs).
Proof.
  induction jobs as [|job jobs IH]; intros H id; [exists []; split; reflexivity|]. destruct (IH ltac:(intros j Hj; apply H; right; exact Hj) (id + length job)) as (fs & E & Em).
  cbn [prepared omapM offsets map]. destruct job as [|md job]; [exfalso; apply (H []); [left|reflexivity]|]. cbn [imap head unwrap mbind outcome_bind].
  rewrite E. cbn [mbind outcome_bind]. eexists. split; [reflexivity|]. cbn [map op_id ready_op]. rewrite Em, Nat.add_0_r. reflexivity.
Qed.
Lemma prepared_length dim jobs : forall id, length (concat (prepared dim id jobs)) = n_tasks jobs.
Proof. unfold n_tasks. induction jobs as [|job jobs IH]; intros id; [reflexivity|]. cbn [prepared concat map list_sum foldr]. rewrite app_length, imap_length, IH. reflexivity. Qed.
Lemma parsed_lengths jobs : forall id, map length (parsed id jobs) = map length jobs.
Proof. induction jobs as [|job jobs IH]; intros id; [reflexivity|]. cbn [parsed map]. rewrite imap_length, IH. reflexivity. Qed.
Definition zero_edges (jobs : shop) : list edge := map (fun f => Edge (S f) JobSucc) (offsets 0 jobs).
Definition shop_ops (jobs : shop) : list operation :=
  let n := n_tasks jobs in
  set_edges (zero_edges jobs) (new_operation 0 0%N 0 []) :: concat (prepared n 0 jobs) ++ [new_operation (n + 1) 0%N 0 (seq 0 (n + 1))].
Theorem load_spec nm jobs : (forall job, job ∈ jobs -> job <> []) -> load nm jobs = Ok (Provider nm (shop_ops jobs)).
Proof.
  intros H. unfold load. rewrite parse_instance_spec. cbn [mbind outcome_bind]. unfold new_provider. cbn [fst snd]. unfold provider_ops.
  rewrite parsed_lengths. fold (n_tasks jobs). rewrite prepare_jobs_spec by exact H. cbn [mbind outcome_bind].
  destruct (heads_spec (n_tasks jobs) jobs H 0) as (fs & E & Em). rewrite E. cbn [mbind outcome_bind]. rewrite Em.
  rewrite bool_decide_true; [reflexivity|]. cbn [app length]. rewrite app_length, prepared_length. cbn [length]. lia.
Qed.

(** ** Numbers of operations *)
Definition offset (jobs : shop) (j : nat) : nat := list_sum (map length (take j jobs)).
Lemma op_number_eq jobs j k : op_number jobs j k = S (offset jobs j + k).
Proof. reflexivity. Qed.
Lemma offset_0 jobs : offset jobs 0 = 0.
Proof. reflexivity. Qed.
Lemma offset_S job jobs j : offset (job :: jobs) (S j) = length job + offset jobs j.
Proof. reflexivity. Qed.
Lemma offset_next jobs j job : jobs !! j = Some job -> offset jobs (S j) = offset jobs j + length job.
Proof. intros H. unfold offset. rewrite (take_S_r _ _ _ H), map_app, sum_app. cbn. lia. Qed.
Lemma offset_all jobs : offset jobs (length jobs) = n_tasks jobs.
Proof. unfold offset, n_tasks. rewrite take_ge by lia. reflexivity. Qed.
Lemma offset_mono jobs j j' : j <= j' -> offset jobs j <= offset jobs j'.
Proof.
  intros H. unfold offset. replace (take j jobs) with (take j (take j' jobs)) by (rewrite take_take; f_equal; lia).
  rewrite <- (take_drop j (take j' jobs)) at 2. rewrite map_app, sum_app. lia.
Qed.
Lemma task_range jobs j k m d : task jobs j k m d -> offset jobs j + k < n_tasks jobs /\ j < length jobs.
Proof.
  intros (job & Hj & Hk). pose proof (lookup_lt_Some _ _ _ Hj) as Lj. pose proof (lookup_lt_Some _ _ _ Hk) as Lk. split; [|exact Lj].
  rewrite <- offset_all. pose proof (offset_mono jobs (S j) (length jobs) ltac:(lia)) as M. rewrite (offset_next jobs j job Hj) in M. lia.
Qed.
Lemma task_number_inj jobs j k m d j' k' m' d' : task jobs j k m d -> task jobs j' k' m' d' -> op_number jobs j k = op_number jobs j' k' -> j = j' /\ k = k'.
Proof.
  intros (job & Hj & Hk) (job' & Hj' & Hk') E. rewrite !op_number_eq in E. apply lookup_lt_Some in Hk, Hk'.
  destruct (lt_eq_lt_dec j j') as [[H|H]|H].
  - pose proof (offset_mono jobs (S j) j' ltac:(lia)) as M. rewrite (offset_next jobs j job Hj) in M. lia.
  - subst. lia.
  - pose proof (offset_mono jobs (S j') j ltac:(lia)) as M. rewrite (offset_next jobs j' job' Hj') in M. lia.
Qed.
Lemma task_of_number jobs : forall i, i < n_tasks jobs -> exists j k m d, task jobs j k m d /\ i = offset jobs j + k.
Proof.
  induction jobs as [|job jobs IH]; intros i Hi; [cbn in Hi; lia|]. destruct (decide (i < length job)) as [H|H].
  - destruct (lookup_lt_is_Some_2 job i H) as [[m d] Hm]. exists 0, i, m, d. split; [exists job; auto|reflexivity].
  - assert (Hn : n_tasks (job :: jobs) = length job + n_tasks jobs) by reflexivity. destruct (IH (i - length job) ltac:(lia)) as (j & k & m & d & (job' & Hj & Hk) & E).
    exists (S j), k, m, d. split; [exists job'; auto|]. rewrite offset_S. lia.
Qed.
Lemma prepared_lookup dim jobs : forall id j k job md, jobs !! j = Some job -> job !! k = Some md ->
  concat (prepared dim id jobs) !! (offset jobs j + k) = Some (ready_op dim (id + offset jobs j) (length job) k md).
Proof.
  induction jobs as [|job0 jobs IH]; intros id j k job md Hj Hk; [discriminate|]. cbn [prepared concat]. destruct j as [|j].
  - injection Hj as ->. rewrite offset_0. cbn [Nat.add]. rewrite lookup_app_l by (rewrite imap_length; apply lookup_lt_Some in Hk; exact Hk). rewrite list_lookup_imap, Hk. cbn. rewrite Nat.add_0_r. reflexivity.
  - rewrite offset_S. rewrite lookup_app_r by (rewrite imap_length; lia). rewrite imap_length. replace (length job0 + offset jobs j + k - length job0) with (offset jobs j + k) by lia.
    rewrite (IH (id + length job0) j k job md Hj Hk). f_equal. f_equal. lia.
Qed.
Section Facts.
Context (nm : nat) (jobs : shop) (V : valid_shop nm jobs).
Notation n := (n_tasks jobs).
Notation ops := (shop_ops jobs).
Lemma shop_ops_length : length ops = n + 2.
Proof. unfold shop_ops. cbn [length]. rewrite app_length, prepared_length. cbn [length]. lia. Qed.
Lemma shop_ops_S i : ops !! S i = (concat (prepared n 0 jobs) ++ [new_operation (n + 1) 0%N 0 (seq 0 (n + 1))]) !! i.
Proof. reflexivity. Qed.
Lemma shop_op j k m d job : jobs !! j = Some job -> job !! k = Some (m, d) -> ops !! op_number jobs j k = Some (ready_op n (offset jobs j) (length job) k (m, d)).
Proof.
  intros Hj Hk. rewrite op_number_eq. rewrite shop_ops_S. rewrite lookup_app_l; [apply prepared_lookup; assumption|]. rewrite prepared_length. eapply task_range. exists job. split; eassumption.
Qed.
Lemma shop_zero : ops !! 0 = Some (set_edges (zero_edges jobs) (new_operation 0 0%N 0 [])).
Proof. reflexivity. Qed.
Lemma shop_sink : ops !! (n + 1) = Some (new_operation (n + 1) 0%N 0 (seq 0 (n + 1))).
Proof. replace (n + 1) with (S n) at 1 by lia. rewrite shop_ops_S. rewrite lookup_app_r by (rewrite prepared_length; lia). rewrite prepared_length, Nat.sub_diag. reflexivity. Qed.
Definition dur_of (i : nat) : N := default 0%N (op_duration <$> ops !! i).
Definition mach_of (i : nat) : nat := default 0 (op_machine <$> ops !! i).
Definition jpred_of (i : nat) : nat := default 0 (o ← ops !! i; last (op_preds o)).
Definition jsucc_of (i : nat) : nat := default 0 (o ← ops !! i; neigh_id <$> head (op_edges o)).
Lemma fact_task j k m d : task jobs j k m d -> let i := op_number jobs j k in
  1 <= i <= n /\ dur_of i = d /\ mach_of i = m /\ jpred_of i = (if decide (k = 0) then 0 else i - 1) /\
  exists job, jobs !! j = Some job /\ k < length job /\ jsucc_of i = (if decide (S k = length job) then n + 1 else i + 1) /\ ops !! i = Some (ready_op n (offset jobs j) (length job) k (m, d)).
Proof.
  intros T i. destruct (task_range _ _ _ _ _ T) as [R _]. destruct T as (job & Hj & Hk). pose proof (shop_op j k m d job Hj Hk) as E. fold i in E.
  split; [unfold i; rewrite op_number_eq; lia|]. unfold dur_of, mach_of, jpred_of, jsucc_of. rewrite E. cbn [fmap option_fmap option_map default mbind option_bind ready_op op_duration op_machine op_preds op_edges head neigh_id fst snd].
  split; [reflexivity|]. split; [reflexivity|]. split.
  - destruct k as [|k]; [reflexivity|]. rewrite seq_S. change (0 :: seq (S (offset jobs j)) k ++ [S (offset jobs j) + k]) with ((0 :: seq (S (offset jobs j)) k) ++ [S (offset jobs j) + k]).
    rewrite stdpp.list.last_snoc. rewrite decide_False by lia. unfold i. rewrite op_number_eq. cbn. lia.
  - exists job. split; [exact Hj|]. apply lookup_lt_Some in Hk. split; [exact Hk|]. split; [|reflexivity]. destruct (decide (S k = length job)); [reflexivity|]. transitivity (S (S (offset jobs j + k))); [reflexivity|]. unfold i. rewrite op_number_eq. lia.
Qed.
Lemma real_task i : 1 <= i <= n -> exists j k m d, task jobs j k m d /\ i = op_number jobs j k.
Proof. intros H. destruct (task_of_number jobs (i - 1) ltac:(lia)) as (j & k & m & d & T & E). exists j, k, m, d. split; [exact T|]. rewrite op_number_eq. lia. Qed.
Lemma prev_task j k m d : task jobs j (S k) m d -> exists m' d', task jobs j k m' d'.
Proof. intros (job & Hj & Hk). apply lookup_lt_Some in Hk. destruct (lookup_lt_is_Some_2 job k ltac:(lia)) as [[m' d'] H]. exists m', d', job. auto. Qed.
Lemma op_number_S j k : op_number jobs j (S k) = op_number jobs j k + 1.
Proof. rewrite !op_number_eq. lia. Qed.

Lemma fact_n_pos : 1 <= n.
Proof.
  destruct V as (Hne & Hjob & _). destruct jobs as [|job js]; [congruence|]. assert (job <> []) by (apply Hjob; left). unfold n_tasks. cbn. destruct job; [congruence|cbn; lia].
Qed.
Lemma offsets_in js : forall id f, f ∈ offsets id js <-> exists j job, js !! j = Some job /\ f = id + offset js j.
Proof.
  induction js as [|job js IH]; intros id f; cbn [offsets].
  - rewrite elem_of_nil. split; [tauto|]. intros (j & job & H & _). discriminate.
  - rewrite elem_of_cons, IH. split.
    + intros [->|(j & job' & Hj & ->)]; [exists 0, job; split; [reflexivity|rewrite offset_0; lia]|]. exists (S j), job'. split; [exact Hj|]. rewrite offset_S. lia.
    + intros ([|j] & job' & Hj & ->); [left; rewrite offset_0; lia|right]. exists j, job'. split; [exact Hj|]. rewrite offset_S. lia.
Qed.
Lemma zero_edge_in e : e ∈ zero_edges jobs <-> exists j job, jobs !! j = Some job /\ e = Edge (op_number jobs j 0) JobSucc.
Proof.
  unfold zero_edges. change (map ?f ?l) with (f <$> l). rewrite elem_of_list_fmap. split.
  - intros (f & -> & Hf). apply offsets_in in Hf as (j & job & Hj & ->). exists j, job. split; [exact Hj|]. rewrite op_number_eq. f_equal. lia.
  - intros (j & job & Hj & ->). exists (offset jobs j). split; [rewrite op_number_eq; f_equal; lia|]. apply offsets_in. exists j, job. auto.
Qed.
Lemma first_task j job : jobs !! j = Some job -> exists m d, task jobs j 0 m d.
Proof.
  intros Hj. destruct V as (_ & Hjob & _). assert (job <> []) by (apply Hjob; apply elem_of_list_lookup; eauto). destruct job as [|[m d] job]; [congruence|]. exists m, d, ((m, d) :: job). auto.
Qed.
Lemma fact_zedges_ne : zero_edges jobs <> [].
Proof.
  destruct V as (Hne & _). destruct jobs as [|job js] eqn:E; [congruence|]. discriminate.
Qed.
Lemma fact_zedges_ok e : e ∈ zero_edges jobs -> edge_kind_of e = JobSucc /\ 1 <= neigh_id e <= n.
Proof.
  intros H. apply zero_edge_in in H as (j & job & Hj & ->). split; [reflexivity|]. destruct (first_task j job Hj) as (m & d & T). apply (fact_task j 0 m d T).
Qed.
Lemma fact_zedges_first i : 1 <= i <= n -> jpred_of i = 0 -> exists e, e ∈ zero_edges jobs /\ neigh_id e = i.
Proof.
  intros Hi E. destruct (real_task i Hi) as (j & k & m & d & T & ->). destruct (fact_task j k m d T) as (_ & _ & _ & Ep & job & Hj & _). rewrite E in Ep.
  destruct k as [|k]; [exists (Edge (op_number jobs j 0) JobSucc); split; [apply zero_edge_in; eauto|reflexivity]|].
  rewrite decide_False in Ep by lia. rewrite op_number_eq in Ep. lia.
Qed.
Lemma fact_jpred_lt i : 1 <= i <= n -> jpred_of i < i.
Proof. intros Hi. destruct (real_task i Hi) as (j & k & m & d & T & E). destruct (fact_task j k m d T) as (_ & _ & _ & Ep & _). rewrite <- E in Ep. rewrite Ep. destruct (decide (k = 0)); lia. Qed.
Lemma fact_jsucc_gt i : 1 <= i <= n -> i < jsucc_of i <= n + 1.
Proof. intros Hi. destruct (real_task i Hi) as (j & k & m & d & T & E). destruct (fact_task j k m d T) as (_ & _ & _ & _ & job & _ & _ & Es & _). rewrite <- E in Es. rewrite Es. destruct (decide _); lia. Qed.
Lemma fact_jsucc_jpred i : 1 <= i <= n -> jpred_of i <> 0 -> jsucc_of (jpred_of i) = i.
Proof.
  intros Hi H. destruct (real_task i Hi) as (j & k & m & d & T & E). destruct (fact_task j k m d T) as (_ & _ & _ & Ep & job & Hj & Hk & _). rewrite <- E in Ep.
  destruct k as [|k]; [rewrite decide_True in Ep by reflexivity; congruence|]. rewrite decide_False in Ep by lia. destruct (prev_task _ _ _ _ T) as (m' & d' & T').
  destruct (fact_task j k m' d' T') as (_ & _ & _ & _ & job' & Hj' & _ & Es & _). rewrite Hj in Hj'. injection Hj' as <-. rewrite op_number_S in E.
  assert (E' : i - 1 = op_number jobs j k) by lia. rewrite Ep, E', Es. rewrite decide_False by lia. lia.
Qed.
Lemma fact_jsucc_last : jsucc_of n = n + 1.
Proof.
  pose proof fact_n_pos. destruct (real_task n ltac:(lia)) as (j & k & m & d & T & E). destruct (fact_task j k m d T) as (_ & _ & _ & _ & job & Hj & Hk & Es & _). rewrite <- E in Es. rewrite Es.
  destruct (decide (S k = length job)) as [|H']; [reflexivity|]. exfalso. assert (T' : exists m' d', task jobs j (S k) m' d').
  { destruct (lookup_lt_is_Some_2 job (S k) ltac:(lia)) as [[m' d'] H2]. exists m', d', job. auto. }
  destruct T' as (m' & d' & T'). destruct (fact_task j (S k) m' d' T') as (Hr & _). rewrite op_number_S in Hr. lia.
Qed.
Lemma fact_mach_lt i : 1 <= i <= n -> mach_of i < nm.
Proof. intros Hi. destruct (real_task i Hi) as (j & k & m & d & T & ->). destruct (fact_task j k m d T) as (_ & _ & -> & _). destruct V as (_ & _ & Hm & _). apply (Hm j k m d T). Qed.
Lemma work_prepared dim js : forall id, foldr (fun o acc => (op_duration o + acc)%N) 0%N (concat (prepared dim id js)) = shop_work js.
Proof.
  assert (G : forall job (f : nat -> nat * N -> operation) acc, (forall i md, op_duration (f i md) = md.2) -> foldr (fun o acc => (op_duration o + acc)%N) acc (imap f job) = (job_work job + acc)%N).
  { induction job as [|md job IH]; intros f acc Hf; [reflexivity|]. cbn [imap foldr job_work]. rewrite IH by (intros; apply Hf). rewrite Hf. unfold job_work. cbn [foldr]. lia. }
  induction js as [|job js IH]; intros id; [reflexivity|]. cbn [prepared concat]. rewrite foldr_app, IH. rewrite G by reflexivity. reflexivity.
Qed.
Lemma fact_total : total dur_of (seq 1 n) = shop_work jobs.
Proof.
  rewrite <- (work_prepared n jobs 0). unfold total.
  assert (E : map dur_of (seq 1 n) = map op_duration (concat (prepared n 0 jobs))).
  { apply list_eq. intros i. change (map ?f ?l) with (f <$> l). rewrite !list_lookup_fmap. destruct (decide (i < n)) as [Hi|Hi].
    - rewrite lookup_seq_lt by exact Hi. cbn [fmap option_fmap option_map]. unfold dur_of. cbn [Nat.add]. rewrite shop_ops_S. rewrite lookup_app_l by (rewrite prepared_length; exact Hi). destruct (lookup_lt_is_Some_2 (concat (prepared n 0 jobs)) i) as [o ->]; [rewrite prepared_length; exact Hi|]. reflexivity.
    - rewrite lookup_seq_ge by lia. rewrite lookup_ge_None_2 by (rewrite prepared_length; lia). reflexivity. }
  assert (F : forall (A : Type) (f : A -> N) l, foldr (fun i acc => (f i + acc)%N) 0%N l = foldr N.add 0%N (map f l)) by (intros A f l; induction l as [|x l IH]; cbn; [reflexivity|rewrite IH; reflexivity]).
  rewrite (F _ dur_of), (F _ op_duration), E. reflexivity.
Qed.
Lemma fact_total_small : (total dur_of (seq 1 n) <= 2 ^ 50)%N.
Proof. rewrite fact_total. apply V. Qed.
Lemma fact_dur_pos : standard_shop jobs -> forall i, 1 <= i <= n -> (0 < dur_of i)%N.
Proof. intros [H _] i Hi. destruct (real_task i Hi) as (j & k & m & d & T & ->). destruct (fact_task j k m d T) as (_ & -> & _). apply (H j k m d T). Qed.
Lemma fact_mach_ne : standard_shop jobs -> forall i, 1 <= i <= n -> jsucc_of i <= n -> mach_of (jsucc_of i) <> mach_of i.
Proof.
  intros [_ H] i Hi Hs. destruct (real_task i Hi) as (j & k & m & d & T & E). destruct (fact_task j k m d T) as (_ & _ & Em & _ & job & Hj & Hk & Es & _). rewrite <- E in *. rewrite Es in *.
  destruct (decide (S k = length job)) as [|H']; [lia|]. destruct (lookup_lt_is_Some_2 job (S k) ltac:(lia)) as [[m' d'] H2]. assert (T' : task jobs j (S k) m' d') by (exists job; auto).
  destruct (fact_task j (S k) m' d' T') as (_ & _ & Em' & _). rewrite op_number_S, <- E in Em'. rewrite Em, Em'. intros <-. apply (H j k _ d _ d' T T'). reflexivity.
Qed.
Lemma fact_static i o : ops !! i = Some o -> static n dur_of mach_of jpred_of (zero_edges jobs) i o.
Proof.
  intros Ho. assert (Hi : i < n + 2) by (rewrite <- shop_ops_length; apply lookup_lt_Some in Ho; exact Ho). split; [|split; [|split]].
  - destruct (decide (i = 0)) as [->|H0]; [rewrite shop_zero in Ho; injection Ho as <-; reflexivity|]. destruct (decide (i = n + 1)) as [->|H1]; [rewrite shop_sink in Ho; injection Ho as <-; reflexivity|].
    destruct (real_task i ltac:(lia)) as (j & k & m & d & T & ->). destruct (fact_task j k m d T) as (_ & _ & _ & _ & job & _ & _ & _ & E). rewrite E in Ho. injection Ho as <-. reflexivity.
  - intros Hr. unfold dur_of, mach_of, jpred_of. rewrite Ho. cbn [fmap option_fmap option_map default mbind option_bind]. split; [reflexivity|]. split; [reflexivity|].
    destruct (real_task i Hr) as (j & k & m & d & T & ->). destruct (fact_task j k m d T) as (_ & _ & _ & _ & job & _ & _ & _ & E). rewrite E in Ho. injection Ho as <-. cbn [ready_op op_preds].
    rewrite last_cons. destruct (last (seq (S (offset jobs j)) k)); reflexivity.
  - intros ->. rewrite shop_zero in Ho. injection Ho as <-. auto.
  - intros ->. rewrite shop_sink in Ho. injection Ho as <-. auto.
Qed.
Lemma fact_linked i o : 1 <= i <= n -> ops !! i = Some o -> op_edges o = [Edge (jsucc_of i) JobSucc] /\ op_mpred o = None.
Proof.
  intros Hr Ho. destruct (real_task i Hr) as (j & k & m & d & T & ->). destruct (fact_task j k m d T) as (_ & _ & _ & _ & job & _ & _ & Es & E). rewrite E in Ho. injection Ho as <-. split; [|reflexivity].
  unfold jsucc_of. rewrite E. reflexivity.
Qed.
End Facts.
