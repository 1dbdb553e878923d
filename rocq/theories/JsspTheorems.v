(** * The evaluation of individuals, in terms of schedules *)
From Verif Require Export JsspRunProofs JsspBoundProofs.
Open Scope nat_scope.

(** ** Names of operations *)
Lemma tasks_lookup jobs : forall j0 j k job md, jobs !! j = Some job -> job !! k = Some md -> tasks j0 jobs !! (offset jobs j + k) = Some (j0 + j, k, md).
Proof.
  induction jobs as [|job0 js IH]; intros j0 j k job md Hj Hk; [discriminate|]. destruct j as [|j]; cbn [tasks].
  - injection Hj as ->. rewrite offset_0. cbn [Nat.add]. rewrite lookup_app_l by (rewrite imap_length; apply lookup_lt_Some in Hk; exact Hk). rewrite list_lookup_imap, Hk. cbn. rewrite Nat.add_0_r. reflexivity.
  - cbn in Hj. rewrite offset_S. rewrite lookup_app_r by (rewrite imap_length; lia). rewrite imap_length. replace (length job0 + offset js j + k - length job0) with (offset js j + k) by lia.
    rewrite (IH (S j0) j k job md Hj Hk). replace (S j0 + j) with (j0 + S j) by lia. reflexivity.
Qed.
Definition name_of (jobs : shop) (i : nat) : nat * nat := default (0, 0) (fst <$> tasks 0 jobs !! (i - 1)).
Lemma name_number jobs j k m d : task jobs j k m d -> name_of jobs (op_number jobs j k) = (j, k).
Proof. intros (job & Hj & Hk). unfold name_of. rewrite op_number_eq. replace (S (offset jobs j + k) - 1) with (offset jobs j + k) by lia. rewrite (tasks_lookup jobs 0 j k job _ Hj Hk). reflexivity. Qed.

Section Thms.
Context (nm : nat) (jobs : shop) (V : valid_shop nm jobs) (dc : f64) (Hdc : delay_ok dc).
Notation n := (n_tasks jobs).
Notation dur := (dur_of jobs).
Notation mach := (mach_of jobs).
Notation jpred := (jpred_of jobs).
Notation jsucc := (jsucc_of jobs).
Notation Inv := (inv n nm dur mach jpred jsucc (zero_edges jobs)).

Section Decoded.
Context (done : list nat) (fin : nat -> N) (s : sched) (I : Inv done fin s) (Ld : length done = n).
Notation start := (start_of jobs fin).
Notation name := (name_of jobs).
Lemma name_split before j k after m d : map name done = before ++ (j, k) :: after -> task jobs j k m d ->
  exists before' after', done = before' ++ op_number jobs j k :: after' /\ before = map name before'.
Proof.
  intros E T. apply map_eq_app in E as (b' & a' & E & Eb & Ea). destruct a' as [|i a']; [discriminate|]. injection Ea as Ei Ea. exists b', a'. split; [|congruence].
  assert (Hi : 1 <= i <= n) by (apply (done_range nm jobs done fin s I); rewrite E; apply elem_of_app; right; left). destruct (real_task jobs i Hi) as (j' & k' & m' & d' & T' & ->). rewrite (name_number jobs _ _ _ _ T') in Ei.
  injection Ei as -> ->. exact E.
Qed.
Lemma named_in l j k m d : (forall i, i ∈ l -> 1 <= i <= n) -> task jobs j k m d -> (j, k) ∈ map name l <-> op_number jobs j k ∈ l.
Proof.
  intros Hl T. split.
  - intros H. change (map name l) with (name <$> l) in H. apply elem_of_list_fmap in H as (i & E & Hi). destruct (real_task jobs i (Hl i Hi)) as (j' & k' & m' & d' & T' & ->). rewrite (name_number jobs _ _ _ _ T') in E. injection E as -> ->. exact Hi.
  - intros H. change (map name l) with (name <$> l). apply elem_of_list_fmap. exists (op_number jobs j k). rewrite (name_number jobs _ _ _ _ T). auto.
Qed.
Lemma fits_slot before j k m d t : (forall i, i ∈ before -> 1 <= i <= n) -> task jobs j k m d -> scheduled before (jpred (op_number jobs j k)) ->
  fits jobs start (map name before) j k t <-> slot dur mach jpred fin before (op_number jobs j k) t.
Proof.
  intros Hb T Hs. assert (G : forall i, 1 <= i <= n -> (dur i <= fin i)%N) by (intros i Hi; apply (placed nm jobs done fin s I Ld i Hi)). destruct (fact_task jobs j k m d T) as (Hi & Ed & Em & Ep & _). split.
  - intros [F1 F2]. split.
    + destruct k as [|k]; [rewrite Ep, decide_True by reflexivity; rewrite (i_fin0 _ _ _ _ _ _ _ _ _ _ I); lia|]. rewrite decide_False in Ep by lia. destruct (prev_task jobs j k m d T) as (m' & d' & T'). destruct (F1 k eq_refl) as [_ F]. specialize (F m' d' T').
      destruct (fact_task jobs j k m' d' T') as (Hi' & Ed' & _). rewrite op_number_S in *. replace (jpred (op_number jobs j k + 1)) with (op_number jobs j k) by lia. unfold start_of in F. specialize (G _ Hi'). lia.
    + intros i' Hi' Em'. destruct (real_task jobs i' (Hb i' Hi')) as (j' & k' & m' & d' & T' & ->). destruct (fact_task jobs j' k' m' d' T') as (Hr' & Ed' & Em2 & _). assert (Emm : m' = m) by congruence. rewrite Emm in T'.
      destruct (F2 j' k' m d d' ltac:(apply (named_in before j' k' m d' Hb T'); exact Hi') T T') as [H|H]; unfold start_of in H; [left|right]; specialize (G _ Hr'); lia.
  - intros [S1 S2]. split.
    + intros k' ->. rewrite decide_False in Ep by lia. destruct (prev_task jobs j k' m d T) as (m' & d' & T'). destruct (fact_task jobs j k' m' d' T') as (Hi' & Ed' & _). rewrite op_number_S in *.
      assert (Ep' : jpred (op_number jobs j k' + 1) = op_number jobs j k') by lia. rewrite Ep' in *. split; [apply (named_in before j k' m' d' Hb T'); destruct Hs as [?|Hs]; [lia|exact Hs]|].
      intros m2 d2 T2. destruct (fact_task jobs j k' m2 d2 T2) as (_ & Ed2 & _). unfold start_of. specialize (G _ Hi'). lia.
    + intros j' k' m0 d0 d' Hin T0 T'. destruct (fact_task jobs j' k' m0 d' T') as (Hr' & Ed' & Em2 & _). destruct (fact_task jobs j k m0 d0 T0) as (_ & Ed0 & Em0 & _). apply (named_in before j' k' m0 d' Hb T') in Hin.
      destruct (S2 _ Hin ltac:(congruence)) as [H|H]; unfold start_of; [left|right]; specialize (G _ Hr'); lia.
Qed.
Lemma decoded_earliest : placed_earliest jobs start (map name done).
Proof.
  split; [|split].
  - change (NoDup (name <$> done)). apply NoDup_fmap_2_strong; [|exact (i_nodup _ _ _ _ _ _ _ _ _ _ I)]. intros i i' Hi Hi' E. apply (done_range nm jobs done fin s I) in Hi, Hi'.
    destruct (real_task jobs i Hi) as (j & k & m & d & T & ->). destruct (real_task jobs i' Hi') as (j' & k' & m' & d' & T' & ->). rewrite (name_number jobs _ _ _ _ T), (name_number jobs _ _ _ _ T') in E. congruence.
  - intros j k. split.
    + intros H. change (map name done) with (name <$> done) in H. apply elem_of_list_fmap in H as (i & E & Hi). apply (done_range nm jobs done fin s I) in Hi. destruct (real_task jobs i Hi) as (j' & k' & m' & d' & T' & ->). rewrite (name_number jobs _ _ _ _ T') in E. injection E as -> ->. eauto.
    + intros (m & d & T). destruct (fact_task jobs j k m d T) as (Hi & _). apply (named_in done j k m d (done_range nm jobs done fin s I) T). apply (done_all nm jobs done fin s I Ld), Hi.
  - intros before j k after E. assert (T : exists m d, task jobs j k m d).
    { assert (H : (j, k) ∈ map name done) by (rewrite E; apply elem_of_app; right; left). change (map name done) with (name <$> done) in H. apply elem_of_list_fmap in H as (i & En & Hi). apply (done_range nm jobs done fin s I) in Hi.
      destruct (real_task jobs i Hi) as (j' & k' & m' & d' & T' & ->). rewrite (name_number jobs _ _ _ _ T') in En. injection En as -> ->. eauto. }
    destruct T as (m & d & T). destruct (name_split before j k after m d E T) as (before' & after' & Ed & ->). destruct (i_greedy _ _ _ _ _ _ _ _ _ _ I _ _ _ Ed) as (G1 & G2 & G3 & G4).
    assert (Hb : forall i, i ∈ before' -> 1 <= i <= n) by (intros i Hi; apply (done_range nm jobs done fin s I); rewrite Ed; apply elem_of_app; left; exact Hi).
    split; [apply (fits_slot before' j k m d _ Hb T G1); exact G3|]. intros t Ft. apply (fits_slot before' j k m d _ Hb T G1) in Ft. exact (G4 t Ft).
Qed.
End Decoded.

(** Placing operations as early as possible gives a schedule in which no single operation can be moved to an earlier time *)
Lemma earliest_active start order j k m d t : placed_earliest jobs start order -> task jobs j k m d -> feasible jobs (move start j k t) -> (start j k <= t)%N.
Proof.
  intros (Nd & All & P) T [F1 F2]. assert (Hin : (j, k) ∈ order) by (apply All; eauto). apply elem_of_list_split in Hin as (before & after & E). destruct (P _ _ _ _ E) as [P1 P2]. apply P2.
  assert (Nin : (j, k) ∉ before). { rewrite E in Nd. apply NoDup_app in Nd as (_ & H & _). intros K. apply (H _ K). left. }
  split.
  - intros k' ->. destruct P1 as [P1 _]. destruct (P1 k' eq_refl) as [Hb _]. split; [exact Hb|]. intros m' d' T'. specialize (F1 j k' m' d' m d T' T). unfold move in F1. rewrite decide_False in F1 by (intros H0; injection H0; lia). rewrite decide_True in F1 by reflexivity. exact F1.
  - intros j' k' m0 d0 d' Hb T0 T'. assert (Hne : (j, k) <> (j', k')) by congruence. specialize (F2 j k j' k' m0 d0 d' T0 T' Hne). unfold move in F2. rewrite decide_True in F2 by reflexivity. rewrite decide_False in F2 by congruence. exact F2.
Qed.

(** ** Any valid shop, fresh individuals *)
Theorem fresh_decodes p c x' m : load nm jobs = Ok p -> genes_for jobs c -> evaluates dc (fresh p c) x' m ->
  exists start order t, records jobs x' start /\ feasible jobs start /\ has_makespan jobs start t /\ (m <= t)%N /\ placed_earliest jobs start order.
Proof.
  intros Lp Gc (k & E). rewrite load_spec in Lp by apply V. injection Lp as <-. set (y := fresh _ c) in *.
  destruct (schedule_spec nm jobs V dc Hdc c (shop_ops jobs) Gc (shop_shaped jobs)) as (s & done & fin & Es & I & Ld).
  specialize (E (2 * n + k) ltac:(lia)). rewrite evaluate_prep in E. cbn [prep j_dirty fresh new_jind y mbind outcome_bind] in E. change (prep y) with (Ok y) in E. cbn [mbind outcome_bind] in E.
  rewrite (evaluate_scheduled nm jobs dc y s (2 * n + k) eq_refl (shop_shaped jobs) Es ltac:(lia)) in E. destruct (local_search (2 * n + k) (s_ops s)) as [[ops m']| |] eqn:El; [|discriminate|discriminate]. cbn in E. injection E as <- <-.
  exists (start_of jobs fin), (map (name_of jobs) done), (s_last s). split; [|split; [|split; [|split]]].
  - pose proof (local_search_keep _ _ _ _ El) as K. pose proof (keep_finish _ _ K) as Kf. intros j k0 m0 d0 T. destruct (fact_task jobs j k0 m0 d0 T) as (Hi & _). unfold recorded_start. cbn [j_ops].
    destruct (lookup_lt_is_Some_2 (s_ops s) (op_number jobs j k0)) as [o Ho]; [rewrite (i_len _ _ _ _ _ _ _ _ _ _ I); lia|].
    assert (Hk : map keep ops !! op_number jobs j k0 = Some (keep o)). { rewrite K. change (map keep (s_ops s)) with (keep <$> s_ops s). rewrite list_lookup_fmap, Ho. reflexivity. }
    change (map keep ops) with (keep <$> ops) in Hk. apply list_lookup_fmap_inv in Hk as (o' & Eo & Ho'). rewrite Ho'. cbn.
    assert (Ef : op_finish o' = op_finish o) by (apply (f_equal op_finish) in Eo; exact (eq_sym Eo)). assert (Ed : op_duration o' = op_duration o) by (apply (f_equal op_duration) in Eo; exact (eq_sym Eo)).
    rewrite Ef, Ed, (i_finish _ _ _ _ _ _ _ _ _ _ I _ o ltac:(right; apply (done_all nm jobs done fin s I Ld), Hi) Ho). cbn. destruct (i_static _ _ _ _ _ _ _ _ _ _ I _ o Ho) as (_ & S1 & _). destruct (S1 Hi) as [-> _]. reflexivity.
  - exact (decoded_feasible nm jobs done fin s I Ld).
  - exact (decoded_makespan nm jobs V done fin s I Ld).
  - lia.
  - exact (decoded_earliest done fin s I Ld).
Qed.

(** ** Standard shops, every individual that can occur *)
Theorem reachable_evaluates p x : standard_shop jobs -> load nm jobs = Ok p -> reachable jobs p dc x ->
  exists x' m, evaluates dc x x' m /\ j_chromosome x' = j_chromosome x /\ j_fitness x' = m /\ j_valid x' = true /\
    exists start order t, records jobs x' start /\ feasible jobs start /\ has_makespan jobs start t /\ placed_earliest jobs start order /\ (m <= t)%N /\
    exists best, feasible jobs best /\ has_makespan jobs best m.
Proof.
  intros Std Lp Rx. pose proof (reachable_ok nm jobs V dc Hdc p x Std Lp Rx) as Ok. destruct (evaluate_spec nm jobs V dc Hdc x Std Ok) as (x' & m & E & Ec & Ef & Ev & Ed & Ok' & done & fin & s & chain & rank & D & I & Ld & P & Em & Fin & _).
  exists x', m. split; [exact E|]. split; [exact Ec|]. split; [exact Ef|]. split; [exact Ev|]. exists (start_of jobs fin), (map (name_of jobs) done), (s_last s).
  pose proof (decoded_feasible nm jobs done fin s I Ld) as F1. pose proof (decoded_makespan nm jobs V done fin s I Ld) as M1.
  split; [|split; [exact F1|split; [exact M1|split; [exact (decoded_earliest done fin s I Ld)|split; [lia|]]]]].
  - intros j k m0 d0 T. apply (recorded_lookup jobs x' j k fin m0 d0 T Fin). exists chain. apply P.
  - destruct P as (O & R & S & _). destruct (N.le_gt_cases (s_last s) (D 0)) as [H|H].
    + exists (start_of jobs fin). replace m with (s_last s) by lia. auto.
    + exists (late_start jobs D). replace m with (D 0) by lia. split; [exact (plan_feasible nm jobs V chain D O S)|exact (plan_makespan nm jobs V chain rank D O R S)].
Qed.
Theorem reachable_upper p x x' m : standard_shop jobs -> load nm jobs = Ok p -> reachable jobs p dc x -> evaluates dc x x' m -> (m <= shop_work jobs)%N.
Proof.
  intros Std Lp Rx Ex. pose proof (reachable_ok nm jobs V dc Hdc p x Std Lp Rx) as Ok. destruct (evaluate_spec nm jobs V dc Hdc x Std Ok) as (x1 & m1 & E & _ & _ & _ & _ & _ & done & fin & s & chain & rank & D & I & Ld & _ & Em & _).
  destruct (evaluates_det dc x x' m x1 m1 Ex E) as [-> ->]. pose proof (i_total _ _ _ _ _ _ _ _ _ _ I) as T. assert (P : done ≡ₚ seq 1 n).
  { apply submseteq_Permutation_length_le; [rewrite seq_length; lia|]. apply NoDup_submseteq; [exact (i_nodup _ _ _ _ _ _ _ _ _ _ I)|]. intros i Hi. apply (done_range nm jobs done fin s I) in Hi. apply elem_of_seq. lia. }
  assert (Et : JsspSchedProofs.total dur done = shop_work jobs) by (rewrite <- fact_total; exact (total_perm_aux dur _ _ P)). lia.
Qed.
Theorem reachable_same p x : standard_shop jobs -> load nm jobs = Ok p -> reachable jobs p dc x ->
  exists k, forall fuel, k <= fuel -> evaluate_individual fuel dc x = evaluate_individual fuel dc (fresh p (j_chromosome x)).
Proof.
  intros Std Lp Rx. pose proof (reachable_ok nm jobs V dc Hdc p x Std Lp Rx) as Ok. apply (evaluate_same nm jobs V dc Hdc); [exact Ok| |reflexivity].
  apply (reachable_ok nm jobs V dc Hdc p _ Std Lp). constructor. apply Ok.
Qed.
(** Evaluating again changes nothing *)
Theorem reevaluation p x x' m : standard_shop jobs -> load nm jobs = Ok p -> reachable jobs p dc x -> evaluates dc x x' m -> evaluates dc x' x' m.
Proof.
  intros Std Lp Rx Ex. destruct (reachable_evaluates p x Std Lp Rx) as (x1 & m1 & E1 & Ec & _). destruct (evaluates_det dc x x' m x1 m1 Ex E1) as [<- <-].
  destruct (reachable_same p x Std Lp Rx) as (k1 & H1). destruct (reachable_same p x' Std Lp ltac:(econstructor; eauto)) as (k2 & H2). destruct Ex as (k & Ex). exists (k + k1 + k2). intros fuel Hf. rewrite H2 by lia. rewrite Ec, <- H1 by lia. apply Ex. lia.
Qed.
End Thms.

(** ** The operation vector of an instance *)
Lemma offsets_spec : forall jobs id, offsets id jobs = map (fun j => id + offset jobs j) (seq 0 (length jobs)).
Proof.
  induction jobs as [|job jobs IH]; intros id; [reflexivity|]. cbn [offsets length seq map]. rewrite offset_0, Nat.add_0_r. f_equal. rewrite IH. rewrite <- seq_shift, map_map. apply map_ext. intros j. rewrite offset_S. lia.
Qed.
Theorem instance_spec : forall nm jobs, (forall job, job ∈ jobs -> job <> []) -> let n := n_tasks jobs in
  exists p, load nm jobs = Ok p /\ p_machines p = nm /\ length (p_ops p) = n + 2 /\
  (forall j job k m d, jobs !! j = Some job -> job !! k = Some (m, d) -> let i := op_number jobs j k in 1 <= i <= n /\
    exists o, p_ops p !! i = Some o /\ op_id o = i /\ op_duration o = d /\ op_machine o = m /\ op_finish o = None /\ op_mpred o = None /\
      op_preds o = 0 :: map (op_number jobs j) (seq 0 k) /\ op_edges o = [Edge (if decide (S k = length job) then n + 1 else op_number jobs j (S k)) JobSucc]) /\
  (forall i, 1 <= i <= n -> exists j k m d, task jobs j k m d /\ op_number jobs j k = i) /\
  (forall j k m d j' k' m' d', task jobs j k m d -> task jobs j' k' m' d' -> op_number jobs j k = op_number jobs j' k' -> j = j' /\ k = k') /\
  (exists o, p_ops p !! 0 = Some o /\ op_id o = 0 /\ op_duration o = 0%N /\ op_preds o = [] /\ op_edges o = map (fun j => Edge (op_number jobs j 0) JobSucc) (seq 0 (length jobs))) /\
  (exists o, p_ops p !! (n + 1) = Some o /\ op_id o = n + 1 /\ op_duration o = 0%N /\ op_preds o = seq 0 (n + 1) /\ op_edges o = []).
Proof.
  intros nm jobs H n. exists (Provider nm (shop_ops jobs)). split; [apply load_spec, H|]. split; [reflexivity|]. split; [apply shop_ops_length|]. split; [|split; [|split; [|split]]].
  - intros j job k m d Hj Hk i. assert (T : task jobs j k m d) by (exists job; auto). split. { destruct (task_range _ _ _ _ _ T) as [Hr _]. unfold i. rewrite op_number_eq. fold n in Hr. lia. }
    eexists. split; [apply (shop_op jobs j k m d job Hj Hk)|]. unfold ready_op. cbn [op_id op_duration op_machine op_finish op_mpred op_preds op_edges fst snd]. split; [unfold i; rewrite op_number_eq; lia|].
    split; [reflexivity|]. split; [reflexivity|]. split; [reflexivity|]. split; [reflexivity|]. split.
    + f_equal. rewrite (map_ext (op_number jobs j) (fun i => S (offset jobs j) + i)) by (intros; rewrite op_number_eq; lia). clear. generalize (S (offset jobs j)) as a. intros a.
      transitivity (map (Nat.add a) (seq 0 k)); [|reflexivity]. clear. induction k as [|k IH]; [reflexivity|]. rewrite !seq_S, map_app, <- IH. reflexivity.
    + fold n. destruct (decide _); [reflexivity|]. rewrite op_number_eq. do 2 f_equal. lia.
  - intros i Hi. destruct (task_of_number jobs (i - 1) ltac:(fold n; lia)) as (j & k & m & d & T & E). exists j, k, m, d. split; [exact T|]. rewrite op_number_eq. lia.
  - intros j k m d j' k' m' d' T T' E. exact (task_number_inj jobs j k m d j' k' m' d' T T' E).
  - eexists. split; [apply shop_zero|]. cbn [set_edges new_operation op_id op_duration op_preds op_edges]. split; [reflexivity|]. split; [reflexivity|]. split; [reflexivity|]. unfold zero_edges. rewrite offsets_spec, map_map. apply map_ext. intros j. rewrite op_number_eq. do 2 f_equal. lia.
  - eexists. split; [apply shop_sink|]. repeat split.
Qed.
