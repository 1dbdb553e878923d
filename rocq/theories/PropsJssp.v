(** * Property theorems: the job shop example (C80 - C88) *)
From Verif Require Import JsspSolverProofs JsspLimitProofs JsspBoundProofs JsspTheorems JsspModel JsspSpec.
Open Scope nat_scope.

(** The shops of the examples *)
Lemma elem_tac {A} (P : A -> Prop) l : Forall P l -> forall x, x ∈ l -> P x. Proof. intros H. rewrite Forall_forall in H. exact H. Qed.
Lemma task_elem jobs j k m d : task jobs j k m d -> exists job, job ∈ jobs /\ (m, d) ∈ job.
Proof. intros (job & H1 & H2). exists job. split; eapply elem_of_list_lookup_2; eassumption. Qed.
Lemma tasks_all (P : nat -> N -> Prop) jobs : Forall (Forall (fun md => P md.1 md.2)) jobs -> forall j k m d, task jobs j k m d -> P m d.
Proof. intros H j k m d T. apply task_elem in T as (job & H1 & H2). rewrite Forall_forall in H. specialize (H job H1). rewrite Forall_forall in H. exact (H _ H2). Qed.
Fixpoint alternates (job : list (nat * N)) : bool := match job with a :: (b :: _) as rest => negb (a.1 =? b.1) && alternates rest | _ => true end.
Lemma alternates_spec job : alternates job = true -> forall k m d m' d', job !! k = Some (m, d) -> job !! S k = Some (m', d') -> m <> m'.
Proof.
  induction job as [|a [|b rest] IH]; intros H k m d m' d' H1 H2; [discriminate|destruct k; discriminate|]. apply andb_prop in H as [H H']. destruct k as [|k].
  - injection H1 as ->. injection H2 as ->. apply negb_true_iff, Nat.eqb_neq in H. exact H.
  - exact (IH H' k m d m' d' H1 H2).
Qed.
Lemma example_valid : valid_shop 3 example_shop.
Proof.
  split; [discriminate|]. split; [apply elem_tac; repeat constructor; discriminate|]. split; [|cbv; discriminate]. apply (tasks_all (fun m d => m < 3)). repeat constructor.
Qed.
Lemma example_standard : standard_shop example_shop.
Proof.
  split; [apply (tasks_all (fun m d => (0 < d)%N)); repeat constructor|]. intros j k m d m' d' (job & H1 & H2) (job' & H1' & H2'). rewrite H1 in H1'. injection H1' as <-. eapply alternates_spec; [|exact H2|exact H2'].
  apply (elem_tac (fun job => alternates job = true) example_shop); [repeat constructor|]. eapply elem_of_list_lookup_2, H1.
Qed.
Lemma example_load : load 3 example_shop = Ok example_provider.
Proof. apply load_spec, example_valid. Qed.
Lemma example_genes_ok : genes_for example_shop example_genes.
Proof. split; [reflexivity|]. repeat (apply List.Forall_cons; [repeat split; vm_compute; reflexivity|]). apply List.Forall_nil. Qed.
Lemma dc_ok : delay_ok dc_example. Proof. repeat split; vm_compute; reflexivity. Qed.

(** ** C80: whatever the genes, the decoded schedule is feasible *)
Theorem C80_decoded_schedule_feasible :
  forall nm jobs delay_const p, valid_shop nm jobs -> delay_ok delay_const -> load nm jobs = Ok p ->
  (forall genes x m, genes_for jobs genes -> evaluates delay_const (fresh p genes) x m -> exists start t, records jobs x start /\ feasible jobs start /\ has_makespan jobs start t /\ (m <= t)%N) /\
  (standard_shop jobs -> forall y x m, reachable jobs p delay_const y -> evaluates delay_const y x m -> exists start t, records jobs x start /\ feasible jobs start /\ has_makespan jobs start t /\ (m <= t)%N).
Proof.
  intros nm jobs dc p V Hdc Lp. split.
  - intros c x m G E. destruct (fresh_decodes nm jobs V dc Hdc p c x m Lp G E) as (start & order & t & A & B & C & D & _). exists start, t. auto.
  - intros Std y x m R E. destruct (reachable_evaluates nm jobs V dc Hdc p y Std Lp R) as (x1 & m1 & E1 & _ & _ & _ & start & order & t & A & B & C & _ & D & _). destruct (evaluates_det dc y x m x1 m1 E E1) as [-> ->]. exists start, t. auto.
Qed.
Print Assumptions C80_decoded_schedule_feasible.
Example C80_nonvacuous : valid_shop 3 example_shop /\ delay_ok dc_example /\ load 3 example_shop = Ok example_provider /\ standard_shop example_shop /\ genes_for example_shop example_genes /\
  evaluates dc_example (fresh example_provider example_genes) example_result.1 11%N /\ recorded_start example_shop example_result.1 0 2 = Some 14%N.
Proof. exact (conj example_valid (conj dc_ok (conj example_load (conj example_standard (conj example_genes_ok (conj example_evaluates eq_refl)))))). Qed.

(** ** C81: the decoded schedule is active *)
(** It arises by placing the operations one after the other, each as early as possible *)
Theorem C81_placed_as_early_as_possible :
  forall nm jobs delay_const p genes x m, valid_shop nm jobs -> delay_ok delay_const -> load nm jobs = Ok p -> genes_for jobs genes -> evaluates delay_const (fresh p genes) x m ->
  exists start order, records jobs x start /\ placed_earliest jobs start order.
Proof. intros nm jobs dc p c x m V Hdc Lp G E. destruct (fresh_decodes nm jobs V dc Hdc p c x m Lp G E) as (start & order & t & A & _ & _ & _ & B). eauto. Qed.
Print Assumptions C81_placed_as_early_as_possible.
(** No operation alone can be moved to an earlier time *)
Theorem C81_no_operation_can_start_earlier :
  forall nm jobs delay_const p genes x m start, valid_shop nm jobs -> delay_ok delay_const -> load nm jobs = Ok p -> genes_for jobs genes -> evaluates delay_const (fresh p genes) x m ->
  records jobs x start -> forall j k mach d t, task jobs j k mach d -> feasible jobs (move start j k t) -> (start j k <= t)%N.
Proof.
  intros nm jobs dc p c x m start V Hdc Lp G E Rec j k mach d t T F. destruct (fresh_decodes nm jobs V dc Hdc p c x m Lp G E) as (start' & order & _ & A & _ & _ & _ & B).
  assert (Eq : forall j k m d, task jobs j k m d -> start' j k = start j k). { intros j0 k0 m0 d0 T0. specialize (A _ _ _ _ T0). specialize (Rec _ _ _ _ T0). congruence. }
  rewrite <- (Eq _ _ _ _ T). apply (earliest_active jobs start' order j k mach d t B T).
  assert (Eq' : forall j0 k0 m0 d0, task jobs j0 k0 m0 d0 -> move start' j k t j0 k0 = move start j k t j0 k0). { intros j0 k0 m0 d0 T0. unfold move. destruct (decide _); [reflexivity|]. exact (Eq _ _ _ _ T0). }
  destruct F as [F1 F2]. split.
  - intros j0 k0 m0 d0 m1 d1 T0 T1. rewrite (Eq' _ _ _ _ T0), (Eq' _ _ _ _ T1). exact (F1 _ _ _ _ _ _ T0 T1).
  - intros j0 k0 j1 k1 m0 d0 d1 T0 T1 N. rewrite (Eq' _ _ _ _ T0), (Eq' _ _ _ _ T1). exact (F2 _ _ _ _ _ _ _ T0 T1 N).
Qed.
Print Assumptions C81_no_operation_can_start_earlier.
Example C81_nonvacuous : exists start, records example_shop example_result.1 start /\ start 0 2 = 14%N /\ feasible example_shop (move start 0 2 20%N).
Proof.
  destruct (fresh_decodes 3 example_shop example_valid dc_example dc_ok example_provider example_genes _ _ example_load example_genes_ok example_evaluates) as (start & order & t & A & [B1 B2] & C & _). exists start. split; [exact A|].
  assert (R : forall j k m d v, task example_shop j k m d -> recorded_start example_shop example_result.1 j k = Some v -> start j k = v). { intros j k m d v T H. specialize (A _ _ _ _ T). congruence. }
  split. { apply (R 0 2 2 2%N); [eexists; split; reflexivity|reflexivity]. }
  assert (T : forall j k m d, task example_shop j k m d -> (j, k) <> (0, 2) -> m = 2 -> (start j k + d <= 14)%N).
  { intros j k m d (job & H1 & H2) N E2. subst m. destruct j as [|[|[|j]]]; [| | |discriminate].
    - injection H1 as <-. destruct k as [|[|[|k]]]; try discriminate. congruence.
    - injection H1 as <-. destruct k as [|[|[|k]]]; try discriminate. injection H2 as <-. rewrite (R 1 1 2 1%N _ ltac:(eexists; split; reflexivity) eq_refl). cbv. discriminate.
    - injection H1 as <-. destruct k as [|[|[|k]]]; try discriminate. injection H2 as <-. rewrite (R 2 1 2 3%N _ ltac:(eexists; split; reflexivity) eq_refl). cbv. discriminate. }
  split.
  - intros j k m d m' d' T1 T2. specialize (B1 _ _ _ _ _ _ T1 T2). unfold move. destruct (decide ((j, k) = (0, 2))) as [E|E].
    + injection E as -> ->. destruct T2 as (job & H1 & H2). injection H1 as <-. discriminate.
    + destruct (decide ((j, S k) = (0, 2))) as [E'|E']; [|exact B1]. injection E' as -> ->. rewrite (R 0 2 2 2%N 14%N ltac:(eexists; split; reflexivity) eq_refl) in B1. lia.
  - intros j k j' k' m d d' T1 T2 N. unfold move. destruct (decide ((j, k) = (0, 2))) as [E|E], (decide ((j', k') = (0, 2))) as [E'|E'].
    + congruence.
    + right. assert (Em : m = 2). { injection E as -> ->. destruct T1 as (job & H1 & H2). injection H1 as <-. injection H2 as <- _. reflexivity. } specialize (T _ _ _ _ T2 E' Em). lia.
    + left. assert (Em : m = 2). { injection E' as -> ->. destruct T2 as (job & H1 & H2). injection H1 as <-. injection H2 as <- _. reflexivity. } specialize (T _ _ _ _ T1 E Em). lia.
    + exact (B2 _ _ _ _ _ _ _ T1 T2 N).
Qed.

(** ** C82: the fitness *)
Theorem C82_fitness_is_a_makespan :
  forall nm jobs delay_const p x, valid_shop nm jobs -> standard_shop jobs -> delay_ok delay_const -> load nm jobs = Ok p -> reachable jobs p delay_const x ->
  exists x' m, evaluates delay_const x x' m /\ j_chromosome x' = j_chromosome x /\ j_fitness x' = m /\ j_valid x' = true /\
    (exists start, feasible jobs start /\ has_makespan jobs start m) /\
    (forall mach, machine_work jobs mach <= m)%N /\ (forall job, job ∈ jobs -> job_work job <= m)%N /\ (m <= shop_work jobs)%N /\
    (exists start t, records jobs x' start /\ feasible jobs start /\ has_makespan jobs start t /\ (m <= t)%N).
Proof.
  intros nm jobs dc p x V Std Hdc Lp R. destruct (reachable_evaluates nm jobs V dc Hdc p x Std Lp R) as (x' & m & E & Ec & Ef & Ev & start & order & t & A & B & C & _ & D & best & F & M).
  exists x', m. split; [exact E|]. split; [exact Ec|]. split; [exact Ef|]. split; [exact Ev|]. split; [eauto|]. split; [intros mach; exact (machine_bound jobs best m F M mach)|]. split; [intros job; exact (job_bound jobs best m F M job)|].
  split; [exact (reachable_upper nm jobs V dc Hdc p x x' m Std Lp R E)|]. eauto 10.
Qed.
Print Assumptions C82_fitness_is_a_makespan.
Example C82_nonvacuous : reachable example_shop example_provider dc_example (with_genes (rev example_genes) example_result.1).
Proof.
  apply reach_child; [|split; [reflexivity|]; apply Forall_rev, example_genes_ok]. eapply reach_eval; [|exact example_evaluates]. apply reach_fresh, example_genes_ok.
Qed.

(** ** C83: the result of an evaluation depends on the genes only *)
Theorem C83_evaluation_depends_on_genes_only :
  forall nm jobs delay_const p x, valid_shop nm jobs -> standard_shop jobs -> delay_ok delay_const -> load nm jobs = Ok p -> reachable jobs p delay_const x ->
  forall x' m, evaluates delay_const x x' m <-> evaluates delay_const (fresh p (j_chromosome x)) x' m.
Proof.
  intros nm jobs dc p x V Std Hdc Lp R x' m. destruct (reachable_same nm jobs V dc Hdc p x Std Lp R) as (k & H).
  split; intros (k1 & E); exists (k + k1); intros fuel Hf; [rewrite <- H by lia|rewrite H by lia]; apply E; lia.
Qed.
Print Assumptions C83_evaluation_depends_on_genes_only.
Theorem C83_evaluating_again_changes_nothing :
  forall nm jobs delay_const p x x' m, valid_shop nm jobs -> standard_shop jobs -> delay_ok delay_const -> load nm jobs = Ok p -> reachable jobs p delay_const x ->
  evaluates delay_const x x' m -> evaluates delay_const x' x' m.
Proof. intros nm jobs dc p x x' m V Std Hdc Lp. exact (reevaluation nm jobs V dc Hdc p x x' m Std Lp). Qed.
Print Assumptions C83_evaluating_again_changes_nothing.
Example C83_nonvacuous : evaluates dc_example example_result.1 example_result.1 11%N /\ j_dirty example_result.1 = true.
Proof. split; [|reflexivity]. apply (evaluates_at _ _ 100). vm_compute. reflexivity. Qed.

(** ** C84: limits of the evaluation *)
(** An operation without duration can make the evaluation run forever *)
Theorem C84_zero_durations_may_hang :
  exists nm jobs delay_const p genes, valid_shop nm jobs /\ delay_ok delay_const /\ load nm jobs = Ok p /\ genes_for jobs genes /\ never_ends delay_const (fresh p genes) /\
  (forall j k m d m' d', task jobs j k m d -> task jobs j (S k) m' d' -> m <> m').
Proof.
  exists 3, zero_shop, dc_example, zero_provider, zero_genes. split; [|split; [exact dc_ok|split; [exact zero_load|split; [|split; [exact zero_never_ends|]]]]].
  - split; [discriminate|]. split; [apply elem_tac; repeat constructor; discriminate|]. split; [|cbv; discriminate]. apply (tasks_all (fun m d => m < 3)). repeat constructor.
  - split; [reflexivity|]. repeat (apply List.Forall_cons; [repeat split; vm_compute; reflexivity|]). apply List.Forall_nil.
  - intros j k m d m' d' (job & H1 & H2) (job' & H1' & H2'). rewrite H1 in H1'. injection H1' as <-. eapply alternates_spec; [|exact H2|exact H2'].
    apply (elem_tac (fun job => alternates job = true) zero_shop); [repeat constructor|]. eapply elem_of_list_lookup_2, H1.
Qed.
Print Assumptions C84_zero_durations_may_hang.
(** The recorded schedule is not the one whose makespan is the fitness *)
Theorem C84_recorded_schedule_may_be_longer :
  exists nm jobs delay_const p genes x m, valid_shop nm jobs /\ standard_shop jobs /\ delay_ok delay_const /\ load nm jobs = Ok p /\ genes_for jobs genes /\
  evaluates delay_const (fresh p genes) x m /\ forall start t, records jobs x start -> has_makespan jobs start t -> (m < t)%N.
Proof.
  exists 3, example_shop, dc_example, example_provider, example_genes, example_result.1, 11%N. split; [exact example_valid|]. split; [exact example_standard|]. split; [exact dc_ok|]. split; [exact example_load|]. split; [exact example_genes_ok|].
  split; [exact example_evaluates|]. intros start t R [H _]. assert (T : task example_shop 0 2 2 2%N) by (eexists; split; reflexivity). specialize (H _ _ _ _ T). specialize (R _ _ _ _ T).
  change (Some 14%N = Some (start 0 2)) in R. injection R as R. lia.
Qed.
Print Assumptions C84_recorded_schedule_may_be_longer.

(** ** C85: replacement *)
Theorem C85_replacement :
  forall nm jobs p elite_rate sample_rate pop children r, valid_shop nm jobs -> load nm jobs = Ok p ->
  let n := length pop in let e := part elite_rate n in let s := part sample_rate n in
  e + s <= n -> 0 < e + s -> n - e - s <= length children ->
  exists best rest new r', jssp_replace p elite_rate sample_rate pop children r = Ok (best ++ take (n - e - s) children ++ new, r') /\
    pop ≡ₚ best ++ rest /\ length best = e /\ (forall x y, x ∈ best -> y ∈ rest -> (j_fitness x <= j_fitness y)%N) /\
    length new = s /\ Forall (fun x => exists c, genes_for jobs c /\ x = fresh p c) new.
Proof. exact replace_spec. Qed.
Print Assumptions C85_replacement.
Theorem C85_replacement_panics :
  forall p elite_rate sample_rate pop children r, let n := length pop in let e := part elite_rate n in let s := part sample_rate n in
  n < e + s \/ e + s = 0 \/ (e + s <= n /\ length children < n - e - s) -> jssp_replace p elite_rate sample_rate pop children r = Panic.
Proof. exact replace_panics. Qed.
Print Assumptions C85_replacement_panics.
Theorem C85_random_replacement :
  forall nm jobs p pop r, valid_shop nm jobs -> load nm jobs = Ok p ->
  exists new r', random_replace p pop r = Ok (new, r') /\ length new = length pop /\ Forall (fun x => exists c, genes_for jobs c /\ x = fresh p c) new.
Proof. intros nm jobs p pop r V Lp. exact (generate_fresh nm jobs p (length pop) r V Lp). Qed.
Print Assumptions C85_random_replacement.
Definition f_0_1 : f64 := fdiv f1 (f_of_Z 10).
Example C85_nonvacuous : part f_0_1 20 = 2 /\ part (fdiv f1 (f_of_Z 5)) 20 = 4 /\ part f_0_1 5 = 0.
Proof. vm_compute. auto. Qed.

(** ** C86: crossover *)
(** The children of pair number q: their genes are those of the parents, swapped where the draw says so; the rest of a child is as in the parent of the
    same number, and its fitness is marked as invalid. *)
Theorem C86_crossover :
  forall L sel r, Nat.even (length sel) = true -> Forall (fun x => length (j_chromosome x) = L) sel ->
  exists kids r', jssp_crossover sel r = Ok (kids, r') /\ length kids = length sel /\
  (forall q p1 p2, sel !! (2 * q) = Some p1 -> sel !! (2 * q + 1) = Some p2 ->
   exists c1 c2, kids !! (2 * q) = Some c1 /\ kids !! (2 * q + 1) = Some c2 /\
    swapped (fun i => keeps r (q * L + i)) (j_chromosome p1) (j_chromosome p2) (j_chromosome c1) (j_chromosome c2)) /\
  (forall i c p, kids !! i = Some c -> sel !! i = Some p -> j_valid c = false /\ j_ops c = j_ops p /\ j_machines c = j_machines p /\ j_dirty c = j_dirty p).
Proof.
  intros L sel r Ev G. destruct (crossover_all L sel r Ev G) as (kids & r' & E & Lk & F). exists kids, r'. split; [exact E|]. split; [exact Lk|]. split.
  - intros q p1 p2 H1 H2. destruct (F q p1 p2 H1 H2) as (k1 & k2 & F1 & F2 & F3). exists (with_genes k1 p1), (with_genes k2 p2). auto.
  - intros i c p Hc Hp. assert (W : exists k, c = with_genes k p); [|destruct W as [k ->]; auto]. pose proof (Nat.div_mod_eq i 2) as Di. pose proof (Nat.mod_upper_bound i 2 ltac:(lia)) as Mi. set (q := i / 2) in *.
    apply Nat.even_spec in Ev as [h Ev]. pose proof (lookup_lt_Some _ _ _ Hp) as Li.
    destruct (lookup_lt_is_Some_2 sel (2 * q) ltac:(lia)) as [p1 H1]. destruct (lookup_lt_is_Some_2 sel (2 * q + 1) ltac:(lia)) as [p2 H2]. destruct (F q p1 p2 H1 H2) as (k1 & k2 & F1 & F2 & _).
    destruct (decide (i mod 2 = 0)) as [Z|Z].
    + rewrite Di, Z, Nat.add_0_r in Hc, Hp. exists k1. congruence.
    + replace (i mod 2) with 1 in Di by lia. rewrite Di in Hc, Hp. exists k2. congruence.
Qed.
Print Assumptions C86_crossover.
Theorem C86_genes_stay_valid :
  forall jobs keep c1 c2 k1 k2, genes_for jobs c1 -> genes_for jobs c2 -> swapped keep c1 c2 k1 k2 -> genes_for jobs k1 /\ genes_for jobs k2.
Proof. exact swapped_genes. Qed.
Print Assumptions C86_genes_stay_valid.
Theorem C86_crossover_panics :
  (forall sel r, Nat.even (length sel) = false -> jssp_crossover sel r = Panic) /\
  (forall p1 p2 r, length (j_chromosome p2) < length (j_chromosome p1) -> jssp_crossover [p1; p2] r = Panic).
Proof.
  split; [exact crossover_odd|]. intros p1 p2 r L. unfold jssp_crossover. cbn [length Nat.even rassert mbind outcome_bind jssp_crossover_pairs]. rewrite crossover_single_short by exact L. reflexivity.
Qed.
Print Assumptions C86_crossover_panics.
Example C86_nonvacuous : let p1 := fresh example_provider [f0; f0; f0] in let p2 := fresh example_provider [f1; f1; f1] in
  match jssp_crossover [p1; p2] (rng_of [0; 4000000000000000; 0]%N) with Ok ([k1; k2], _) => j_chromosome k1 = [f0; f1; f0] /\ j_chromosome k2 = [f1; f0; f1] | _ => False end.
Proof. vm_compute. auto. Qed.

(** ** C87: reading an instance *)
(** Every operation has its place, with the precedence of its job and nothing else; positions 0 and n + 1 are the artificial start and end *)
Theorem C87_instance :
  forall nm jobs, (forall job, job ∈ jobs -> job <> []) -> let n := n_tasks jobs in
  exists p, load nm jobs = Ok p /\ p_machines p = nm /\ length (p_ops p) = n + 2 /\
  (forall j job k m d, jobs !! j = Some job -> job !! k = Some (m, d) -> let i := op_number jobs j k in 1 <= i <= n /\
    exists o, p_ops p !! i = Some o /\ op_id o = i /\ op_duration o = d /\ op_machine o = m /\ op_finish o = None /\ op_mpred o = None /\
      op_preds o = 0 :: map (op_number jobs j) (seq 0 k) /\ op_edges o = [Edge (if decide (S k = length job) then n + 1 else op_number jobs j (S k)) JobSucc]) /\
  (forall i, 1 <= i <= n -> exists j k m d, task jobs j k m d /\ op_number jobs j k = i) /\
  (forall j k m d j' k' m' d', task jobs j k m d -> task jobs j' k' m' d' -> op_number jobs j k = op_number jobs j' k' -> j = j' /\ k = k') /\
  (exists o, p_ops p !! 0 = Some o /\ op_id o = 0 /\ op_duration o = 0%N /\ op_preds o = [] /\ op_edges o = map (fun j => Edge (op_number jobs j 0) JobSucc) (seq 0 (length jobs))) /\
  (exists o, p_ops p !! (n + 1) = Some o /\ op_id o = n + 1 /\ op_duration o = 0%N /\ op_preds o = seq 0 (n + 1) /\ op_edges o = []).
Proof. exact instance_spec. Qed.
Print Assumptions C87_instance.
(** New individuals: one gene pair per operation, each gene from 0 to 1, nothing scheduled *)
Theorem C87_generation :
  forall nm jobs p count r, valid_shop nm jobs -> load nm jobs = Ok p ->
  exists pop r', generate_jssp p count r = Ok (pop, r') /\ length pop = count /\ Forall (fun x => exists c, genes_for jobs c /\ x = fresh p c) pop.
Proof. exact generate_fresh. Qed.
Print Assumptions C87_generation.
Example C87_nonvacuous : load 3 example_shop = Ok example_provider /\ n_tasks example_shop = 9 /\ op_number example_shop 1 2 = 6.
Proof. split; [exact example_load|]. split; reflexivity. Qed.

(** ** C88: the solver *)
(** Under a selection that gives an even number of positions, enough for the children that are needed, every run ends, and its result is the makespan of a
    feasible schedule and at least as good as the whole final population *)
Definition selects_enough (select : list jind -> rng -> outcome (list nat * rng)) (size needed : nat) : Prop :=
  forall pop r, length pop = size -> exists chosen r', select pop r = Ok (chosen, r') /\ Nat.even (length chosen) = true /\ needed <= length chosen /\ Forall (fun i => i < size) chosen.
Theorem C88_run :
  forall nm jobs delay_const p elite_rate sample_rate size select expired generations r,
  valid_shop nm jobs -> standard_shop jobs -> delay_ok delay_const -> load nm jobs = Ok p ->
  let e := part elite_rate size in let s := part sample_rate size in e + s <= size -> 0 < e + s -> selects_enough select size (size - e - s) ->
  exists k pop best r', (forall fuel, k <= fuel -> jssp_run fuel p delay_const elite_rate sample_rate size select expired generations r = Ok (pop, best, r')) /\
    length pop = size /\ (forall x, x ∈ best :: pop -> reachable jobs p delay_const x /\ j_valid x = true /\ evaluates delay_const (fresh p (j_chromosome x)) x (j_fitness x) /\ exists start, feasible jobs start /\ has_makespan jobs start (j_fitness x)) /\
    (forall x, x ∈ pop -> j_fitness best <= j_fitness x)%N.
Proof.
  intros nm jobs dc p er sr size select expired gens r V Std Hdc Lp e s He Hs Sel. destruct (run_spec nm jobs V dc Hdc Std p Lp er sr size select expired He Hs Sel gens r) as (k & pop & best & r' & E & [Ls G] & Rb & M).
  exists k, pop, best, r'. split; [exact E|]. split; [exact Ls|]. split; [|exact M]. intros x Hx. assert (Rx : rated jobs dc p x). { apply elem_of_cons in Hx as [->|Hx]; [exact Rb|]. rewrite Forall_forall in G. apply G, Hx. }
  split; [apply Rx|]. split; [apply Rx|]. split; [|exact (rated_makespan nm jobs V dc Hdc Std p Lp x Rx)]. destruct (rated_evaluated nm jobs V dc Hdc Std p Lp x Rx) as (y & Ry & Ey).
  pose proof (reevaluation nm jobs V dc Hdc p y x (j_fitness x) Std Lp Ry Ey) as Ex. apply (C83_evaluation_depends_on_genes_only nm jobs dc p x V Std Hdc Lp); [apply Rx|exact Ex].
Qed.
Print Assumptions C88_run.
(** Over all generations: the result is at least as good as every individual of every earlier population *)
Theorem C88_best_of_all_generations :
  forall nm jobs delay_const p elite_rate sample_rate size select a b r,
  valid_shop nm jobs -> standard_shop jobs -> delay_ok delay_const -> load nm jobs = Ok p ->
  let e := part elite_rate size in let s := part sample_rate size in e + s <= size -> 0 < e + s -> selects_enough select size (size - e - s) ->
  exists k pop1 best1 r1 pop2 best2 r2,
  (forall fuel, k <= fuel -> jssp_run fuel p delay_const elite_rate sample_rate size select (fun _ => false) a r = Ok (pop1, best1, r1)) /\
  (forall fuel, k <= fuel -> jssp_run fuel p delay_const elite_rate sample_rate size select (fun _ => false) (a + b) r = Ok (pop2, best2, r2)) /\
  forall x, x ∈ pop1 -> (j_fitness best2 <= j_fitness x)%N.
Proof. intros nm jobs dc p er sr size select a b r V Std Hdc Lp e s He Hs Sel. exact (run_history nm jobs V dc Hdc Std p Lp er sr size select He Hs Sel a b r). Qed.
Print Assumptions C88_best_of_all_generations.
(** A selection that takes position 0 again and again meets the assumption *)
Example C88_nonvacuous : let select := fun (pop : list jind) (r : rng) => Ok (repeat 0 14, r) in
  part f_0_1 20 + part (fdiv f1 (f_of_Z 5)) 20 <= 20 /\ 0 < part f_0_1 20 + part (fdiv f1 (f_of_Z 5)) 20 /\ selects_enough select 20 (20 - part f_0_1 20 - part (fdiv f1 (f_of_Z 5)) 20).
Proof.
  change (part f_0_1 20) with 2. change (part (fdiv f1 (f_of_Z 5)) 20) with 4. split; [lia|]. split; [lia|]. intros pop r H. exists (repeat 0 14), r. split; [reflexivity|]. split; [reflexivity|]. split; [cbn; lia|].
  apply Forall_forall. intros i Hi. apply elem_of_list_In, repeat_spec in Hi as ->. lia.
Qed.
