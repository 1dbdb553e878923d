(** * More fuel does not change results; what the evaluation does not guarantee *)
From Verif Require Export JsspTheorems.
Open Scope nat_scope.

Definition less_defined {A} (a b : outcome A) : Prop := a = Diverge \/ a = b.
Infix "⊏" := less_defined (at level 70).
Lemma ld_refl {A} (a : outcome A) : a ⊏ a. Proof. right. reflexivity. Qed.
Lemma ld_div {A} (a : outcome A) : Diverge ⊏ a. Proof. left. reflexivity. Qed.
Lemma ld_bind {A B} (a b : outcome A) (f g : A -> outcome B) : a ⊏ b -> (forall x, f x ⊏ g x) -> (x ← a; f x) ⊏ (x ← b; g x).
Proof. intros [->| ->] H; [left; reflexivity|]. destruct b; cbn; [apply H|apply ld_refl|apply ld_refl]. Qed.
Lemma ld_bind_same {A B} (a : outcome A) (f g : A -> outcome B) : (forall x, f x ⊏ g x) -> (x ← a; f x) ⊏ (x ← a; g x).
Proof. apply ld_bind, ld_refl. Qed.

Lemma feasibles_mono dc c n md t : forall k k' fs j s, k <= k' -> schedule_feasibles k dc c n md t fs j s ⊏ schedule_feasibles k' dc c n md t fs j s.
Proof.
  induction k as [|k IH]; intros [|k'] fs j s H; destruct fs; try apply ld_refl; try apply ld_div; [lia|]. cbn [schedule_feasibles]. apply ld_bind_same. intros s1. destruct (decide _); [apply ld_refl|].
  apply ld_bind_same. intros d. apply ld_bind_same. intros [fs' j']. apply IH. lia.
Qed.
Lemma schedule_mono dc c n md : forall k k' t s, k <= k' -> schedule_all k dc c n md t s ⊏ schedule_all k' dc c n md t s.
Proof.
  induction k as [|k IH]; intros [|k'] t s H; cbn [schedule_all]; destruct (decide _); try apply ld_refl; try apply ld_div; [lia|]. apply ld_bind_same. intros d. apply ld_bind_same. intros [fs j].
  apply ld_bind; [apply feasibles_mono; lia|]. intros s1. apply ld_bind_same. intros t'. apply IH. lia.
Qed.
Lemma dfs_mono : forall k k' ops vis st, k <= k' -> critical_dfs k ops vis st ⊏ critical_dfs k' ops vis st.
Proof.
  induction k as [|k IH]; intros [|k'] ops vis st H; destruct st as [|v rest]; try apply ld_refl; try apply ld_div; [lia|]. cbn [critical_dfs]. apply ld_bind_same. intros b. destruct b; [apply IH; lia|]. apply ld_bind_same. intros o.
  apply ld_bind_same. intros pushed. destruct pushed; [apply ld_bind_same; intros ops1|]; apply IH; lia.
Qed.
Lemma makespan_mono k k' ops : k <= k' -> determine_makespan k ops ⊏ determine_makespan k' ops.
Proof. intros H. unfold determine_makespan. apply ld_bind; [apply dfs_mono, H|]. intros ops1. apply ld_refl. Qed.
Lemma blocks_from_mono : forall k k' ops v dn cur, k <= k' -> blocks_from k ops v dn cur ⊏ blocks_from k' ops v dn cur.
Proof.
  induction k as [|k IH]; intros [|k'] ops v dn cur H; cbn [blocks_from]; try apply ld_refl; [|lia|].
  - apply ld_bind_same. intros o. destruct (op_cp_edge o); [apply ld_div|apply ld_refl].
  - apply ld_bind_same. intros o. destruct (op_cp_edge o) as [e|]; [|apply ld_refl]. destruct (edge_kind_of e); apply IH; lia.
Qed.
Lemma blocks_mono k k' ops : k <= k' -> critical_blocks k ops ⊏ critical_blocks k' ops.
Proof. intros H. unfold critical_blocks. apply ld_bind_same. intros o. apply ld_bind_same. intros e. apply blocks_from_mono, H. Qed.
Lemma try_swap_mono k k' ops cur u v : k <= k' -> try_swap k ops cur u v ⊏ try_swap k' ops cur u v.
Proof. intros H. unfold try_swap. apply ld_bind_same. intros ops1. apply ld_bind; [apply makespan_mono, H|]. intros [ops2 m]. apply ld_refl. Qed.
Lemma try_blocks_mono k k' len : k <= k' -> forall blocks i ops cur, try_blocks k ops cur i len blocks ⊏ try_blocks k' ops cur i len blocks.
Proof.
  intros H. induction blocks as [|block blocks IH]; intros i ops cur; cbn [try_blocks]; [apply ld_refl|]. apply ld_bind.
  - destruct (decide _); [|apply ld_refl]. apply ld_bind_same. intros u. apply ld_bind_same. intros v. apply try_swap_mono, H.
  - intros [[ops1 cur1] b1]. apply ld_bind.
    + destruct (decide _); [|apply ld_refl]. apply ld_bind_same. intros u. apply ld_bind_same. intros v. apply try_swap_mono, H.
    + intros [[ops2 cur2] b2]. destruct b2; [apply ld_refl|]. apply IH.
Qed.
Lemma search_mono : forall a a' k k' ops, a <= a' -> k <= k' -> local_search_loop a k ops ⊏ local_search_loop a' k' ops.
Proof.
  induction a as [|a IH]; intros [|a'] k k' ops H Hk; cbn [local_search_loop]; try apply ld_refl; try apply ld_div; [lia|]. apply ld_bind; [apply makespan_mono, Hk|]. intros [ops1 cur]. apply ld_bind; [apply blocks_mono, Hk|]. intros blocks.
  apply ld_bind; [apply try_blocks_mono, Hk|]. intros [[ops2 cur2] b]. destruct b; [apply IH; lia|apply ld_refl].
Qed.
Lemma evaluate_mono dc x k k' : k <= k' -> evaluate_individual k dc x ⊏ evaluate_individual k' dc x.
Proof.
  intros H. unfold evaluate_individual. apply ld_bind_same. intros y. apply ld_bind_same. intros n. apply ld_bind_same. intros s. apply ld_bind_same. intros md. apply ld_bind; [apply schedule_mono, H|]. intros s1.
  apply ld_bind; [apply search_mono; exact H|]. intros [ops m]. apply ld_refl.
Qed.
Lemma evaluates_at dc x k x' m : evaluate_individual k dc x = Ok (x', m) -> evaluates dc x x' m.
Proof. intros E. exists k. intros fuel Hf. destruct (evaluate_mono dc x k fuel Hf) as [H|H]; [rewrite E in H; discriminate|]. rewrite <- H. exact E. Qed.
(** ** Operations without duration: local search may go round in circles forever *)
Definition zero_shop : shop := [[(0, 3%N); (1, 0%N)]; [(1, 0%N); (0, 2%N); (2, 5%N)]].
Definition zero_genes : list f64 := [f1; f1; fhalf; fhalf; f0; f1; f1; f1; f1; f1].
Definition dc_example : f64 := fdiv (f_of_Z 3) (f_of_Z 2).
Definition zero_provider : provider := Provider 3 (shop_ops zero_shop).
Lemma zero_load : load 3 zero_shop = Ok zero_provider.
Proof. apply load_spec. intros job H. apply elem_of_list_In in H. cbn in H. destruct H as [<-|[<-|[]]]; discriminate. Qed.
Definition zero_sched : outcome sched := s ← initial_sched (shop_ops zero_shop) (repeat new_machine 3) 5; schedule_all 20 dc_example zero_genes 5 5%N 0 s.
Definition zero_ops : list operation := Eval vm_compute in match zero_sched with Ok s => s_ops s | _ => [] end.
Definition zero_marked : list operation := Eval vm_compute in match determine_makespan 100 zero_ops with Ok (ops, _) => ops | _ => [] end.
Definition zero_cycle : list operation := Eval vm_compute in match swap_ops zero_marked 1 4 with Ok ops => ops | _ => [] end.
Lemma cycle_forever : forall fuel rest, critical_dfs fuel zero_cycle (repeat false 7) (3 :: rest) = Diverge.
Proof.
  induction fuel as [fuel IH] using lt_wf_ind. intros rest. destruct fuel as [|fuel]; [reflexivity|].
  change (critical_dfs (S fuel) zero_cycle (repeat false 7) (3 :: rest)) with (critical_dfs fuel zero_cycle (repeat false 7) (4 :: 3 :: rest)). destruct fuel as [|fuel]; [reflexivity|].
  change (critical_dfs (S fuel) zero_cycle (repeat false 7) (4 :: 3 :: rest)) with (critical_dfs fuel zero_cycle (repeat false 7) (1 :: 5 :: 4 :: 3 :: rest)). destruct fuel as [|fuel]; [reflexivity|].
  change (critical_dfs (S fuel) zero_cycle (repeat false 7) (1 :: 5 :: 4 :: 3 :: rest)) with (critical_dfs fuel zero_cycle (repeat false 7) (2 :: 1 :: 5 :: 4 :: 3 :: rest)). destruct fuel as [|fuel]; [reflexivity|].
  change (critical_dfs (S fuel) zero_cycle (repeat false 7) (2 :: 1 :: 5 :: 4 :: 3 :: rest)) with (critical_dfs fuel zero_cycle (repeat false 7) (3 :: 6 :: 2 :: 1 :: 5 :: 4 :: 3 :: rest)). apply IH. lia.
Qed.
Lemma cycle_makespan fuel : determine_makespan fuel zero_cycle = Diverge.
Proof.
  unfold determine_makespan. change (repeat false (length zero_cycle)) with (repeat false 7). destruct fuel as [|fuel]; [reflexivity|].
  change (critical_dfs (S fuel) zero_cycle (repeat false 7) [0]) with (critical_dfs fuel zero_cycle (repeat false 7) [3; 1; 0]). rewrite cycle_forever. reflexivity.
Qed.
Lemma ld_Ok {A} (a : A) b : Ok a ⊏ b -> b = Ok a. Proof. intros [H|H]; [discriminate|]. symmetry. exact H. Qed.
Lemma search_stuck r k ops ops1 cur blocks : determine_makespan k ops = Ok (ops1, cur) -> critical_blocks k ops1 = Ok blocks -> try_blocks k ops1 cur 0 (length blocks) blocks = Diverge -> local_search_loop (S r) k ops = Diverge.
Proof. intros E1 E2 E3. cbn [local_search_loop]. rewrite E1. cbn [mbind outcome_bind]. rewrite E2. cbn [mbind outcome_bind]. rewrite E3. reflexivity. Qed.
Lemma blocks_stuck k ops cur len block blocks u v : 1 < len -> length block = 2 -> index block 1 = Ok v -> index block 0 = Ok u -> try_swap k ops cur u v = Diverge -> try_blocks k ops cur 0 len (block :: blocks) = Diverge.
Proof.
  intros Hl L Ev Eu E. cbn [try_blocks]. rewrite L. rewrite (decide_False (P := 0 < 0 /\ 2 <= 2)) by lia. cbn [mbind outcome_bind]. rewrite (decide_True (P := 0 <> len - 1 /\ false = false /\ 2 <= 2)) by (repeat split; lia).
  change (2 - 1) with 1. change (2 - 2) with 0. rewrite Ev. cbn [mbind outcome_bind]. rewrite Eu. cbn [mbind outcome_bind]. rewrite E. reflexivity.
Qed.
Lemma swap_stuck k ops cur u v ops1 : swap_ops ops u v = Ok ops1 -> determine_makespan k ops1 = Diverge -> try_swap k ops cur u v = Diverge.
Proof. intros E1 E2. unfold try_swap. rewrite E1. cbn [mbind outcome_bind]. rewrite E2. reflexivity. Qed.
Lemma zero_marked_eq : determine_makespan 100 zero_ops = Ok (zero_marked, 10%N). Proof. vm_compute. reflexivity. Qed.
Lemma zero_blocks_eq : critical_blocks 100 zero_marked = Ok [[1; 4]; [5]]. Proof. vm_compute. reflexivity. Qed.
Lemma zero_swap_eq : swap_ops zero_marked 1 4 = Ok zero_cycle. Proof. vm_compute. reflexivity. Qed.
Lemma zero_search k : 100 <= k -> local_search k zero_ops = Diverge.
Proof.
  intros Hk. destruct k as [|k]; [lia|]. unfold local_search. apply (search_stuck k (S k) zero_ops zero_marked 10%N [[1; 4]; [5]]).
  - apply ld_Ok. rewrite <- zero_marked_eq. apply makespan_mono. exact Hk.
  - apply ld_Ok. rewrite <- zero_blocks_eq. apply blocks_mono. exact Hk.
  - apply (blocks_stuck (S k) zero_marked 10%N 2 [1; 4] [[5]] 1 4); [lia|reflexivity|reflexivity|reflexivity|]. apply (swap_stuck _ _ _ _ _ zero_cycle zero_swap_eq). apply cycle_makespan.
Qed.
Lemma evaluate_stuck k dc x n s0 md s : j_dirty x = false -> length (j_ops x) = n + 2 -> initial_sched (j_ops x) (j_machines x) n = Ok s0 -> list_max_N (op_duration <$> s_ops s0) = Some md ->
  schedule_all k dc (j_chromosome x) n md 0 s0 = Ok s -> local_search k (s_ops s) = Diverge -> evaluate_individual k dc x = Diverge.
Proof.
  intros E1 L E2 E3 E4 E5. unfold evaluate_individual. rewrite E1. cbn [mbind outcome_bind]. rewrite L. rewrite (decide_True (P := 2 <= n + 2)) by lia. cbn [mbind outcome_bind]. replace (n + 2 - 2) with n by lia.
  rewrite E2. cbn [mbind outcome_bind]. rewrite E3. cbn [unwrap mbind outcome_bind]. rewrite E4. cbn [mbind outcome_bind]. rewrite E5. reflexivity.
Qed.
Definition zero_start : sched := Eval vm_compute in match initial_sched (shop_ops zero_shop) (repeat new_machine 3) 5 with Ok s => s | _ => Sched [] [] [] 0 0 0%N end.
Definition zero_end : sched := Eval vm_compute in match zero_sched with Ok s => s | _ => Sched [] [] [] 0 0 0%N end.
Lemma zero_start_eq : initial_sched (shop_ops zero_shop) (repeat new_machine 3) 5 = Ok zero_start. Proof. vm_compute. reflexivity. Qed.
Lemma zero_end_eq : schedule_all 20 dc_example zero_genes 5 5%N 0 zero_start = Ok zero_end. Proof. vm_compute. reflexivity. Qed.
Theorem zero_never_ends : never_ends dc_example (fresh zero_provider zero_genes).
Proof.
  intros fuel. destruct (evaluate_mono dc_example (fresh zero_provider zero_genes) fuel (fuel + 100) ltac:(lia)) as [H|H]; [exact H|]. rewrite H. clear H.
  apply (evaluate_stuck (fuel + 100) dc_example (fresh zero_provider zero_genes) 5 zero_start 5%N zero_end).
  - reflexivity.
  - vm_compute. reflexivity.
  - exact zero_start_eq.
  - vm_compute. reflexivity.
  - apply ld_Ok. rewrite <- zero_end_eq. apply schedule_mono. lia.
  - change (s_ops zero_end) with zero_ops. apply zero_search. lia.
Qed.

(** ** The fitness may be smaller than the makespan of the recorded schedule *)
Definition example_shop : shop := [[(0, 3%N); (1, 2%N); (2, 2%N)]; [(0, 2%N); (2, 1%N); (1, 4%N)]; [(1, 4%N); (2, 3%N); (0, 1%N)]].
Definition example_genes : list f64 := map (fun k => fdiv (f_of_Z k) (f_of_Z 16)) [7; 3; 5; 11; 14; 14; 5; 2; 4; 10; 12; 5; 13; 15; 4; 15; 12; 1]%Z.
Definition example_provider : provider := Provider 3 (shop_ops example_shop).
Definition example_result : jind * N := Eval vm_compute in match evaluate_individual 100 dc_example (fresh example_provider example_genes) with Ok r => r | _ => (fresh example_provider [], 0%N) end.
Lemma example_evaluates : evaluates dc_example (fresh example_provider example_genes) example_result.1 11%N.
Proof. apply (evaluates_at _ _ 100). vm_compute. reflexivity. Qed.
