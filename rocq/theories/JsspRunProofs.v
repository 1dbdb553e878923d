(** * Evaluating the individuals that occur during a run *)
From Verif Require Export JsspEvalProofs.
Open Scope nat_scope.

Section Run.
Context (nm : nat) (jobs : shop) (V : valid_shop nm jobs) (dc : f64) (Hdc : is_delay_const dc).
Notation n := (n_tasks jobs).
Notation dur := (dur_of jobs).
Notation mach := (mach_of jobs).
Notation jpred := (jpred_of jobs).
Notation jsucc := (jsucc_of jobs).
Notation Inv := (inv n nm dur mach jpred jsucc (zero_edges jobs)).
Notation Shaped := (shaped n dur mach jpred jsucc (zero_edges jobs)).
Notation Orders := (orders n mach).
Notation Ranked := (ranked n mach jsucc (zero_edges jobs)).
Notation Solves := (solves n dur mach jsucc (zero_edges jobs)).
Notation Plan := (plan n dur mach jpred jsucc (zero_edges jobs)).
Notation Optimum := (optimum n dur mach jsucc (zero_edges jobs)).
Notation Traced := (traced n jpred).
Notation nothing := (fun _ : nat => @nil nat).
Notation Succs := (succs n mach jsucc (zero_edges jobs)).

(** ** Resetting *)
Lemma plain_op o : o ∈ shop_ops jobs -> op_finish o = None /\ op_mpred o = None /\ op_cp_edge o = None /\ op_cp_dist o = 0%N.
Proof.
  unfold shop_ops. intros [->|H]%elem_of_cons; [auto|]. apply elem_of_app in H as [H|H]; [|apply elem_of_list_singleton in H as ->; auto].
  assert (G : forall dim js id, o ∈ concat (prepared dim id js) -> op_finish o = None /\ op_mpred o = None /\ op_cp_edge o = None /\ op_cp_dist o = 0%N); [|exact (G _ _ _ H)].
  clear. intros dim js. induction js as [|job js IH]; intros id H; [apply elem_of_nil in H; tauto|]. cbn [prepared concat] in H. apply elem_of_app in H as [H|H]; [|exact (IH _ H)].
  apply elem_of_lookup_imap in H as (i & md & -> & _). cbn. auto.
Qed.
Lemma blank_shop : map blank (shop_ops jobs) = shop_ops jobs.
Proof.
  rewrite <- (map_id (shop_ops jobs)) at 2. apply map_ext_in. intros o Ho. apply elem_of_list_In in Ho. destruct (plain_op o Ho) as (_ & _ & E1 & E2).
  destruct o; cbn in *. subst. reflexivity.
Qed.
Lemma reset_edges_none es : Forall (fun e => is_machine_edge e = false) es -> reset_edges es = es /\ forallb (fun e => negb (is_machine_edge e)) es = true.
Proof.
  intros H. split.
  - unfold reset_edges. destruct (list_find _ es) as [[i e]|] eqn:E; [|reflexivity]. apply list_find_Some in E as (E & E2 & _). rewrite Forall_lookup in H. rewrite (H i e E) in E2. discriminate.
  - induction H as [|e es He H IH]; [reflexivity|]. cbn. rewrite He, IH. reflexivity.
Qed.
Lemma reset_op_spec chain ops i o o0 : Shaped chain ops -> ops !! i = Some o -> shop_ops jobs !! i = Some o0 -> base o = base o0 ->
  exists o', reset_operation o = Ok o' /\ blank o' = o0.
Proof.
  intros Sh Ho Ho0 Eb. destruct (shaped_edges n dur mach jpred jsucc (zero_edges jobs) (fact_n_pos nm jobs V) (fact_jsucc_last nm jobs V) (fact_total_small nm jobs V) chain ops i o Sh Ho) as (Ee & _).
  destruct (shaped_edges n dur mach jpred jsucc (zero_edges jobs) (fact_n_pos nm jobs V) (fact_jsucc_last nm jobs V) (fact_total_small nm jobs V) nothing _ i o0 (shop_shaped jobs) Ho0) as (Ee0 & _).
  destruct (plain_op o0 (elem_of_list_lookup_2 _ _ _ Ho0)) as (F1 & F2 & F3 & F4).
  assert (K : reset_edges (op_edges o) = op_edges o0 /\ forallb (fun e => negb (is_machine_edge e)) (op_edges o0) = true).
  { rewrite Ee, Ee0. unfold succs. destruct (decide (i = 0)) as [->|H0].
    - apply reset_edges_none. rewrite Forall_forall. intros e He. apply (fact_zedges_ok nm jobs V) in He as [E _]. unfold is_machine_edge. rewrite E. reflexivity.
    - destruct (decide (i <= n)) as [Hi|Hi]; [|split; reflexivity]. split; [|reflexivity]. destruct (next (chain (mach i)) i); reflexivity. }
  destruct K as [K1 K2]. unfold reset_operation. rewrite K1. cbv zeta. rewrite K2. cbn [rassert mbind outcome_bind]. eexists. split; [reflexivity|].
  destruct o, o0; cbn in *. unfold base, keep, set_finish, set_edges, set_mpred, set_critical in Eb. cbn in Eb. injection Eb as -> -> -> ->. subst. reflexivity.
Qed.
Lemma omapM_map {A B C} (f : A -> outcome B) (g : B -> C) (l : list A) (k : list C) :
  length l = length k -> (forall i x y, l !! i = Some x -> k !! i = Some y -> exists z, f x = Ok z /\ g z = y) -> exists r, omapM f l = Ok r /\ map g r = k.
Proof.
  revert k. induction l as [|x l IH]; intros [|y k] L H; try discriminate; [exists []; auto|].
  destruct (H 0 x y eq_refl eq_refl) as (z & E & Ez). destruct (IH k ltac:(cbn in L; lia)) as (r & Er & Em). { intros i x' y' Hx Hy. apply (H (S i)); assumption. }
  exists (z :: r). cbn [omapM]. rewrite E. cbn [mbind outcome_bind]. rewrite Er. cbn [mbind outcome_bind map]. rewrite Ez, Em. auto.
Qed.
Lemma base_lookup ops i o : map base ops = map base (shop_ops jobs) -> ops !! i = Some o -> exists o0, shop_ops jobs !! i = Some o0 /\ base o = base o0.
Proof.
  intros E Ho. assert (H : map base ops !! i = Some (base o)). { change (map base ops) with (base <$> ops). rewrite list_lookup_fmap, Ho. reflexivity. }
  rewrite E in H. change (map base (shop_ops jobs)) with (base <$> shop_ops jobs) in H. rewrite list_lookup_fmap in H. destruct (shop_ops jobs !! i) as [o0|]; [|discriminate]. cbn in H. apply (inj Some) in H. eauto.
Qed.
Lemma reset_spec chain ops : Shaped chain ops -> map base ops = map base (shop_ops jobs) -> exists r, omapM reset_operation ops = Ok r /\ map blank r = shop_ops jobs.
Proof.
  intros Sh Eb. apply omapM_map; [apply (f_equal length) in Eb; rewrite !map_length in Eb; exact Eb|].
  intros i o o0 Ho Ho0. destruct (base_lookup ops i o Eb Ho) as (o1 & H1 & E1). rewrite Ho0 in H1. injection H1 as <-. exact (reset_op_spec chain ops i o o0 Sh Ho Ho0 E1).
Qed.
Lemma shaped_blank chain ops : Shaped chain (map blank ops) -> (forall i o, ops !! i = Some o -> i = n + 1 -> op_cp_edge o = None) -> Shaped chain ops.
Proof.
  intros (L & S & Lk) Hs. rewrite map_length in L. assert (G : forall i o, ops !! i = Some o -> map blank ops !! i = Some (blank o)). { intros i o Ho. change (map blank ops) with (blank <$> ops). rewrite list_lookup_fmap, Ho. reflexivity. }
  split; [exact L|]. split.
  - intros i o Ho. destruct (S i _ (G i o Ho)) as (S1 & S2 & S3 & S4). split; [exact S1|]. split; [exact S2|]. split; [exact S3|]. intros E. destruct (S4 E) as (A & B & C & _). repeat split; auto. eapply Hs; eauto.
  - intros i o Hi Ho. exact (Lk i _ Hi (G i o Ho)).
Qed.
Lemma reset_cp ops r : omapM reset_operation ops = Ok r -> forall i o, r !! i = Some o -> exists o1, ops !! i = Some o1 /\ op_cp_edge o = op_cp_edge o1.
Proof.
  revert r. induction ops as [|o1 ops IH]; intros r H i o Ho; cbn [omapM] in H; [injection H as <-; destruct i; discriminate|].
  apply bind_inv in H as (o2 & E & H). apply bind_inv in H as (r' & E' & H). injection H as <-. destruct i as [|i]; [|exact (IH r' E' i o Ho)].
  injection Ho as <-. exists o1. split; [reflexivity|]. unfold reset_operation in E. apply bind_inv in E as (? & _ & E). injection E as <-. reflexivity.
Qed.

(** ** The individuals that occur *)
Definition prep (x : jind) : outcome jind := if j_dirty x then reset_jind x else Ok x.
Definition ok_ind (x : jind) : Prop :=
  genes_for jobs (j_chromosome x) /\
  if j_dirty x then length (j_machines x) = nm /\ (exists chain, Shaped chain (j_ops x)) /\ map base (j_ops x) = map base (shop_ops jobs)
  else j_ops x = shop_ops jobs /\ j_machines x = repeat new_machine nm.
Lemma prep_spec x : ok_ind x -> exists y, prep x = Ok y /\ j_chromosome y = j_chromosome x /\ j_machines y = repeat new_machine nm /\ map blank (j_ops y) = shop_ops jobs /\ Shaped nothing (j_ops y).
Proof.
  intros [G H]. unfold prep. destruct (j_dirty x).
  - destruct H as (Lm & (chain & Sh) & Eb). destruct (reset_spec chain (j_ops x) Sh Eb) as (r & E & Er). unfold reset_jind. rewrite E. cbn [mbind outcome_bind]. eexists. split; [reflexivity|]. cbn [j_chromosome j_machines j_ops].
    split; [reflexivity|]. split. { change (map reset_machine (j_machines x) = repeat new_machine nm). rewrite <- Lm. clear. induction (j_machines x) as [|m l IH]; cbn; [reflexivity|]. rewrite IH. reflexivity. }
    split; [exact Er|]. apply shaped_blank; [rewrite Er; apply shop_shaped|]. intros i o Ho ->. destruct (reset_cp _ _ E _ _ Ho) as (o1 & Ho1 & ->). destruct Sh as (_ & S & _). apply S in Ho1 as (_ & _ & _ & S4). apply S4. reflexivity.
  - destruct H as [Eo Em]. exists x. rewrite Eo. split; [reflexivity|]. split; [reflexivity|]. split; [exact Em|]. split; [apply blank_shop|apply shop_shaped].
Qed.
Lemma shaped_nothing_base ops : map blank ops = shop_ops jobs -> map base ops = map base (shop_ops jobs).
Proof. intros <-. rewrite map_map. reflexivity. Qed.

(** The part of the evaluation after resetting *)
Definition evaluate_clean (fuel : nat) (x : jind) : outcome (jind * N) :=
  n ← (if decide (2 <= length (j_ops x)) then Ok (length (j_ops x) - 2) else Panic);
  s ← initial_sched (j_ops x) (j_machines x) n;
  maxdur ← unwrap (list_max_N (op_duration <$> s_ops s));
  s ← schedule_all fuel dc (j_chromosome x) n maxdur 0 s;
  '(ops, m) ← local_search fuel (s_ops s);
  let makespan := N.min (s_last s) m in
  Ok (JInd (j_chromosome x) ops (s_machines s) makespan true true, makespan).
Lemma evaluate_prep fuel x : evaluate_individual fuel dc x = (y ← prep x; evaluate_clean fuel y).
Proof. reflexivity. Qed.
Definition finish (y : jind) (s : sched) (r : list operation * N) : jind * N :=
  let makespan := N.min (s_last s) r.2 in (JInd (j_chromosome y) r.1 (s_machines s) makespan true true, makespan).
Lemma evaluate_scheduled y s fuel : j_machines y = repeat new_machine nm -> Shaped nothing (j_ops y) -> scheduled_by nm jobs dc (j_chromosome y) (j_ops y) s -> 2 * n <= fuel ->
  evaluate_clean fuel y = omap_ok (finish y s) (local_search fuel (s_ops s)).
Proof.
  intros Em (L & _) (s0 & md & E0 & Emd & Es) Hf. unfold evaluate_clean. rewrite L, decide_True by lia. cbn [mbind outcome_bind]. replace (n + 2 - 2) with n by lia. rewrite Em, E0. cbn [mbind outcome_bind].
  change (op_duration <$> s_ops s0) with (map op_duration (s_ops s0)). rewrite Emd. cbn [unwrap mbind outcome_bind]. rewrite (Es fuel Hf). cbn [mbind outcome_bind]. destruct (local_search fuel (s_ops s)) as [[ops m]| |]; reflexivity.
Qed.
Lemma scheduled_base c ops s : scheduled_by nm jobs dc c ops s -> map base (s_ops s) = map base ops.
Proof.
  intros (s0 & md & E0 & _ & Es). specialize (Es (2 * n) ltac:(lia)). apply schedule_all_base in Es. rewrite Es. unfold initial_sched in E0. apply bind_inv in E0 as (o & Ho & E0). injection E0 as <-. cbn [s_ops].
  apply (map_insert_same base _ 0 o _ (index_inv _ _ _ Ho)). reflexivity.
Qed.

(** What is recorded in an evaluated individual *)
Lemma recorded_lookup x j k (fin : nat -> N) m d : task jobs j k m d -> (forall i o, 1 <= i <= n -> j_ops x !! i = Some o -> op_finish o = Some (fin i)) -> (exists chain, Shaped chain (j_ops x)) ->
  recorded_start jobs x j k = Some (fin (op_number jobs j k) - dur (op_number jobs j k))%N.
Proof.
  intros T F (chain & L & S & _). destruct (fact_task jobs j k m d T) as (Hi & _). unfold recorded_start. destruct (lookup_lt_is_Some_2 (j_ops x) (op_number jobs j k)) as [o Ho]; [lia|].
  rewrite Ho. cbn. rewrite (F _ o Hi Ho). cbn. destruct (S _ o Ho) as (_ & S1 & _). destruct (S1 Hi) as [-> _]. reflexivity.
Qed.
Lemma finish_transfer ops ops' (done : list nat) (fin : nat -> N) : map op_finish ops' = map op_finish ops -> (forall i o, 1 <= i <= n -> ops !! i = Some o -> op_finish o = Some (fin i)) ->
  forall i o, 1 <= i <= n -> ops' !! i = Some o -> op_finish o = Some (fin i).
Proof.
  intros E F i o Hi Ho. assert (H : map op_finish ops' !! i = Some (op_finish o)). { change (map op_finish ops') with (op_finish <$> ops'). rewrite list_lookup_fmap, Ho. reflexivity. }
  rewrite E in H. change (map op_finish ops) with (op_finish <$> ops) in H. rewrite list_lookup_fmap in H. destruct (ops !! i) as [o1|] eqn:E1; [|discriminate]. cbn in H. apply (inj Some) in H. rewrite <- H. eauto.
Qed.
Lemma keep_finish ops ops' : map keep ops' = map keep ops -> map op_finish ops' = map op_finish ops.
Proof. intros E. apply (f_equal (map op_finish)) in E. rewrite !map_map in E. exact E. Qed.

(** Everything about the evaluation of an individual of a standard shop *)
Definition outcome_of (x x' : jind) (m : N) : Prop :=
  j_chromosome x' = j_chromosome x /\ j_fitness x' = m /\ j_valid x' = true /\ j_dirty x' = true /\ ok_ind x' /\
  exists done fin s chain rank D,
    Inv done fin s /\ length done = n /\ Plan chain rank D (j_ops x') /\ m = N.min (s_last s) (D 0) /\
    (forall i o, 1 <= i <= n -> j_ops x' !! i = Some o -> op_finish o = Some (fin i)) /\
    Optimum chain D /\ (D 0%nat <= dist n dur mach jsucc (zero_edges jobs) (chains jobs done) (chain_rank jobs done) 0%nat)%N /\
    exists ops md times, Shaped nothing ops /\ list_max_N (map op_duration ops) = Some md /\ Traced dc (j_chromosome x) md done fin times.
Theorem evaluate_spec x : standard_shop jobs -> ok_ind x -> exists x' m, evaluates dc x x' m /\ outcome_of x x' m.
Proof.
  intros Std Ok. destruct (prep_spec x Ok) as (y & Ey & Ec & Em & Eb & Sh). assert (Gy : genes_for jobs (j_chromosome y)) by (rewrite Ec; apply Ok).
  destruct (schedule_spec_order nm jobs V dc Hdc (j_chromosome y) (j_ops y) Gy Sh) as (s & done & fin & Es & I & Ld & md & times & Emd & Tr).
  pose proof (chains_orders nm jobs done fin s I Ld) as O. pose proof (chains_ranked nm jobs V done fin s I Ld) as R. pose proof (chains_shaped nm jobs done fin s I) as Sc.
  destruct (local_search_spec n dur mach jpred jsucc (zero_edges jobs) (fact_n_pos nm jobs V) (fact_zedges_ne nm jobs V) (fact_zedges_ok nm jobs V) (fact_zedges_first jobs) (fact_jpred_lt jobs) (fact_jsucc_gt jobs) (fact_jsucc_jpred jobs)
    (fact_jsucc_last nm jobs V) (fact_total_small nm jobs V) (fact_dur_pos jobs Std) (fact_mach_ne jobs Std) _ _ _ O R Sc) as (k & ops' & chain & rank & D & E & F & P & Hle & Opt).
  exists (JInd (j_chromosome y) ops' (s_machines s) (N.min (s_last s) (D 0)) true true), (N.min (s_last s) (D 0)). split.
  - exists (2 * n + k). intros fuel Hf. rewrite evaluate_prep, Ey. cbn [mbind outcome_bind]. rewrite (evaluate_scheduled y s fuel Em Sh Es) by lia. rewrite (E fuel) by lia. reflexivity.
  - unfold outcome_of. cbn [j_chromosome j_ops j_machines j_fitness j_valid j_dirty].
    split; [exact Ec|]. split; [reflexivity|]. split; [reflexivity|]. split; [reflexivity|]. split; [split; [exact Gy|]|].
    + cbn [j_dirty j_machines j_ops]. split; [exact (i_mlen _ _ _ _ _ _ _ _ _ _ I)|]. split; [exists chain; apply P|]. specialize (E k ltac:(lia)). apply local_search_keep, keep_base in E. rewrite E, (scheduled_base _ _ _ Es).
      apply shaped_nothing_base, Eb.
    + exists done, fin, s, chain, rank, D. split; [exact I|]. split; [exact Ld|]. split; [exact P|]. split; [reflexivity|]. split; [|split; [exact Opt|split; [exact Hle|exists (j_ops y), md, times; rewrite <- Ec; split; [exact Sh|split; [exact Emd|exact Tr]]]]]. apply (finish_transfer _ _ done fin F). intros i o Hi Ho. apply (i_finish _ _ _ _ _ _ _ _ _ _ I i o); [right; apply (done_all nm jobs done fin s I Ld), Hi|exact Ho].
Qed.
Lemma evaluates_det x x1 m1 x2 m2 : evaluates dc x x1 m1 -> evaluates dc x x2 m2 -> x1 = x2 /\ m1 = m2.
Proof. intros (k1 & E1) (k2 & E2). specialize (E1 (k1 + k2) ltac:(lia)). specialize (E2 (k1 + k2) ltac:(lia)). rewrite E1 in E2. injection E2 as -> ->. auto. Qed.
Lemma reachable_ok p x : standard_shop jobs -> load nm jobs = Ok p -> reachable jobs p dc x -> ok_ind x.
Proof.
  intros Std Lp H. rewrite load_spec in Lp by apply V. injection Lp as <-. induction H as [c G|x x' m H IH E|x c H IH G].
  - split; [exact G|]. cbn. auto.
  - destruct (evaluate_spec x Std IH) as (x1 & m1 & E1 & O1). destruct (evaluates_det _ _ _ _ _ E E1) as [-> ->]. apply O1.
  - split; [exact G|]. cbn [with_genes j_dirty j_machines j_ops]. destruct IH as [_ IH]. exact IH.
Qed.

(** ** The result depends on the genes only *)
Lemma scheduled_blank c ops ops' s s' : map blank ops = map blank ops' -> scheduled_by nm jobs dc c ops s -> scheduled_by nm jobs dc c ops' s' -> blank_s s = blank_s s'.
Proof.
  intros Eb (s0 & md & E0 & Emd & Es) (s0' & md' & E0' & Emd' & Es'). 
  assert (H0 : blank_s s0 = blank_s s0').
  { unfold initial_sched in E0, E0'. apply bind_inv in E0 as (o & Ho & E0). apply bind_inv in E0' as (o' & Ho' & E0'). injection E0 as <-. injection E0' as <-. unfold blank_s. cbn [s_ops s_machines s_ft s_count s_g s_last]. f_equal.
    rewrite <- !map_insert', Eb. f_equal. apply index_inv in Ho, Ho'. assert (B : map blank ops !! 0 = Some (blank o)). { change (map blank ops) with (blank <$> ops). rewrite list_lookup_fmap, Ho. reflexivity. }
    rewrite Eb in B. change (map blank ops') with (blank <$> ops') in B. rewrite list_lookup_fmap, Ho' in B. cbn in B. apply (inj Some) in B. destruct o, o'; cbn in *. unfold blank, set_critical in B. cbn in B. injection B as -> -> -> -> -> -> ->. reflexivity. }
  assert (Hd : md = md').
  { assert (M : map op_duration (s_ops s0) = map op_duration (s_ops s0')). { apply (f_equal s_ops) in H0. cbn in H0. apply (f_equal (map op_duration)) in H0. rewrite !map_map in H0. exact H0. } rewrite M in Emd. congruence. }
  subst md'. specialize (Es (2 * n) ltac:(lia)). specialize (Es' (2 * n) ltac:(lia)).
  pose proof (schedule_all_blank dc c n md (2 * n) 0%N s0) as B. pose proof (schedule_all_blank dc c n md (2 * n) 0%N s0') as B'. rewrite Es in B. rewrite Es' in B'. rewrite H0 in B. rewrite B in B'. cbn in B'. congruence.
Qed.
Lemma mark_blank D chain ops : imap (mark n mach jsucc (zero_edges jobs) D chain) (map blank ops) = imap (mark n mach jsucc (zero_edges jobs) D chain) ops.
Proof. change (map blank ops) with (blank <$> ops). rewrite imap_fmap. apply imap_ext. intros i o _. reflexivity. Qed.
Lemma local_search_same chain rank ops ops' : Orders chain -> Ranked chain rank -> Shaped chain ops -> Shaped chain ops' -> map blank ops = map blank ops' -> exists k, forall fuel, k <= fuel -> local_search fuel ops = local_search fuel ops'.
Proof.
  intros O R Sh Sh' Eb. pose proof (dist_solves n dur mach jsucc (zero_edges jobs) (fact_n_pos nm jobs V) (fact_jsucc_last nm jobs V) (fact_total_small nm jobs V) chain rank R) as S.
  destruct (determine_makespan_spec n dur mach jpred jsucc (zero_edges jobs) (fact_n_pos nm jobs V) (fact_zedges_ne nm jobs V) (fact_zedges_ok nm jobs V) (fact_zedges_first jobs) (fact_jpred_lt jobs) (fact_jsucc_gt jobs) (fact_jsucc_jpred jobs) (fact_jsucc_last nm jobs V) (fact_total_small nm jobs V) chain rank _ ops O R S Sh) as (k1 & E1).
  destruct (determine_makespan_spec n dur mach jpred jsucc (zero_edges jobs) (fact_n_pos nm jobs V) (fact_zedges_ne nm jobs V) (fact_zedges_ok nm jobs V) (fact_zedges_first jobs) (fact_jpred_lt jobs) (fact_jsucc_gt jobs) (fact_jsucc_jpred jobs) (fact_jsucc_last nm jobs V) (fact_total_small nm jobs V) chain rank _ ops' O R S Sh') as (k2 & E2).
  exists (Datatypes.S (k1 + k2)). intros fuel Hf. destruct fuel as [|fuel]; [lia|]. unfold local_search. cbn [local_search_loop].
  destruct (E1 (Datatypes.S fuel) ltac:(lia)) as (r1 & -> & ->). destruct (E2 (Datatypes.S fuel) ltac:(lia)) as (r2 & -> & ->). rewrite <- (mark_blank _ _ ops), <- (mark_blank _ _ ops'), Eb. reflexivity.
Qed.
Theorem evaluate_same x x2 : ok_ind x -> ok_ind x2 -> j_chromosome x = j_chromosome x2 -> exists k, forall fuel, k <= fuel -> evaluate_individual fuel dc x = evaluate_individual fuel dc x2.
Proof.
  intros Ok Ok2 Ec. destruct (prep_spec x Ok) as (y & Ey & Ecy & Em & Eb & Sh). destruct (prep_spec x2 Ok2) as (y2 & Ey2 & Ecy2 & Em2 & Eb2 & Sh2).
  assert (Gy : genes_for jobs (j_chromosome y)) by (rewrite Ecy; apply Ok). assert (Ec' : j_chromosome y2 = j_chromosome y) by congruence.
  destruct (schedule_spec nm jobs V dc Hdc (j_chromosome y) (j_ops y) Gy Sh) as (s & done & fin & Es & I & Ld).
  destruct (schedule_spec nm jobs V dc Hdc (j_chromosome y) (j_ops y2) Gy Sh2) as (s2 & done2 & fin2 & Es2 & I2 & Ld2).
  assert (Bs : blank_s s = blank_s s2) by (exact (scheduled_blank _ _ _ _ _ (eq_trans Eb (eq_sym Eb2)) Es Es2)).
  pose proof (chains_orders nm jobs done fin s I Ld) as O. pose proof (chains_ranked nm jobs V done fin s I Ld) as R. pose proof (chains_shaped nm jobs done fin s I) as Sc.
  assert (Bo : map blank (s_ops s) = map blank (s_ops s2)) by (apply (f_equal s_ops) in Bs; exact Bs).
  assert (Sc2 : Shaped (chains jobs done) (s_ops s2)).
  { apply shaped_blank.
    - rewrite <- Bo. destruct Sc as (L & S & Lk). split; [rewrite map_length; exact L|]. assert (G : forall i o, map blank (s_ops s) !! i = Some o -> exists o1, s_ops s !! i = Some o1 /\ o = blank o1).
      { intros i o Ho. change (map blank (s_ops s)) with (blank <$> s_ops s) in Ho. apply list_lookup_fmap_inv in Ho as (o1 & -> & Ho). eauto. }
      split; [intros i o Ho; destruct (G i o Ho) as (o1 & H1 & ->); destruct (S i o1 H1) as (S1 & S2 & S3 & S4); split; [exact S1|]; split; [exact S2|]; split; [exact S3|]; intros E; destruct (S4 E) as (A & B & C & _); repeat split; auto|].
      intros i o Hi Ho. destruct (G i o Ho) as (o1 & H1 & ->). exact (Lk i o1 Hi H1).
    - intros i o Ho ->. pose proof (i_static _ _ _ _ _ _ _ _ _ _ I2 _ _ Ho) as (_ & _ & _ & S4). apply S4. reflexivity. }
  destruct (local_search_same _ _ _ _ O R Sc Sc2 Bo) as (k & E). exists (2 * n + k). intros fuel Hf.
  rewrite !evaluate_prep, Ey, Ey2. cbn [mbind outcome_bind]. rewrite (evaluate_scheduled y s fuel Em Sh Es) by lia. rewrite <- Ec' in Es2. rewrite (evaluate_scheduled y2 s2 fuel Em2 Sh2 Es2) by lia. rewrite (E fuel) by lia.
  assert (Ef : finish y s = finish y2 s2); [|rewrite Ef; reflexivity]. unfold finish. rewrite Ec'. apply (f_equal s_machines) in Bs as Bm. apply (f_equal s_last) in Bs as Bl. cbn in Bm, Bl. rewrite Bm, Bl. reflexivity.
Qed.
End Run.
