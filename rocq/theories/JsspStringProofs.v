(** * The solution string of the job shop program *)
From Coq Require Import Sorting.Sorted.
From stdpp Require Import sorting.
From Verif Require Export JsspSolverProofs JsspMainSpec.
Open Scope nat_scope.

Section Sort.
Context (ops : list operation) (n : nat) (fin dur : nat -> N) (mach : nat -> nat).
Context (Len : length ops = n + 2) (Ids : forall i o, ops !! i = Some o -> op_id o = i).
Context (Fin : forall i o, i <= n -> ops !! i = Some o -> op_finish o = Some (fin i)) (Real : forall i o, 1 <= i <= n -> ops !! i = Some o -> op_duration o = dur i /\ op_machine o = mach i).
Context (F0 : fin 0 = 0%N) (Dpos : forall i, 1 <= i <= n -> (0 < dur i)%N /\ (dur i <= fin i)%N).
Context (Apart : forall i i', 1 <= i <= n -> 1 <= i' <= n -> i <> i' -> mach i = mach i' -> fin i <> fin i').
Definition lower (i i' : nat) : Prop := i' = n + 1 /\ i <= n \/ (i <= n /\ i' <= n) /\ ((fin i < fin i')%N \/ (fin i = fin i' /\ mach i < mach i')).
Lemma lower_trans a b c : lower a b -> lower b c -> lower a c.
Proof. unfold lower. intros [[H1 H2]|[[H1 H2] H3]] [[H4 H5]|[[H4 H5] H6]]; [lia|lia|left; lia|]. right. split; [lia|]. destruct H3 as [H3|[H3 H3']], H6 as [H6|[H6 H6']]; [left; lia|left; lia|left; lia|right]. split; [congruence|lia]. Qed.
Lemma lower_irrefl a : ~ lower a a.
Proof. unfold lower. intros [H|[_ [H|[_ H]]]]; lia. Qed.
Lemma lower_total i i' : i <= n + 1 -> i' <= n + 1 -> i <> i' -> lower i i' \/ lower i' i.
Proof.
  intros H H' Hne. unfold lower. destruct (decide (i = n + 1)); [right; left; lia|]. destruct (decide (i' = n + 1)); [left; left; lia|].
  destruct (N.lt_total (fin i) (fin i')) as [L|[L|L]]; [left; right; split; [lia|left; exact L]| |right; right; split; [lia|left; exact L]].
  destruct (decide (i = 0)) as [->|Hi]. { destruct (Dpos i' ltac:(lia)). lia. }
  destruct (decide (i' = 0)) as [->|Hi']. { destruct (Dpos i ltac:(lia)). lia. }
  destruct (Nat.lt_total (mach i) (mach i')) as [M|[M|M]].
  - left; right; split; [lia|right; auto].
  - exfalso. apply (Apart i i'); auto; lia.
  - right; right; split; [lia|right; auto].
Qed.
Lemma compare_spec o o' : o ∈ ops -> o' ∈ ops -> op_id o <> op_id o' ->
  (lower (op_id o) (op_id o') /\ compare_ops n o o' = Ok Lt) \/ (lower (op_id o') (op_id o) /\ compare_ops n o o' = Ok Gt).
Proof.
  intros Ho Ho' Hne. apply elem_of_list_lookup in Ho as [i Ho], Ho' as [i' Ho']. pose proof (Ids _ _ Ho) as Ei. pose proof (Ids _ _ Ho') as Ei'. rewrite Ei, Ei' in *. pose proof (lookup_lt_Some _ _ _ Ho) as Hi. pose proof (lookup_lt_Some _ _ _ Ho') as Hi'.
  unfold compare_ops. rewrite Ei, Ei'. destruct (Nat.eqb_spec i (n + 1)) as [E|E]; [right; split; [left; lia|reflexivity]|]. destruct (Nat.eqb_spec i' (n + 1)) as [E'|E']; [left; split; [left; lia|reflexivity]|].
  pose proof (Fin i o ltac:(lia) Ho) as F. pose proof (Fin i' o' ltac:(lia) Ho') as F'. rewrite F, F'. cbn [unwrap mbind outcome_bind].
  destruct (N.ltb_spec (fin i) (fin i')) as [L|L]; [left; split; [right; split; [lia|left; exact L]|reflexivity]|]. destruct (N.ltb_spec (fin i') (fin i)) as [L'|L']; [right; split; [right; split; [lia|left; exact L']|reflexivity]|].
  assert (Eq : fin i = fin i') by lia. assert (Hi0 : i <> 0). { intros ->. destruct (Dpos i' ltac:(lia)). lia. } assert (Hi0' : i' <> 0). { intros ->. destruct (Dpos i ltac:(lia)). lia. }
  destruct (Real i o ltac:(lia) Ho) as (D & M), (Real i' o' ltac:(lia) Ho') as (D' & M'). rewrite D, D', M, M'.
  destruct (Dpos i ltac:(lia)) as [P _], (Dpos i' ltac:(lia)) as [P' _]. destruct (N.eqb_spec (dur i) 0) as [|_]; [lia|]. destruct (N.eqb_spec (dur i') 0) as [|_]; [lia|]. cbn [negb andb].
  pose proof (Apart i i' ltac:(lia) ltac:(lia) Hne) as Ap. destruct (Nat.compare_spec (mach i) (mach i')) as [C|C|C]; [exfalso; apply Ap; assumption| |].
  - left. split; [right; split; [lia|right; auto]|reflexivity].
  - right. split; [right; split; [lia|right; auto]|reflexivity].
Qed.
Notation sorted_ids l := (StronglySorted lower (map op_id l)).
Lemma insert_op_spec o l : o ∈ ops -> Forall (fun y => y ∈ ops /\ op_id o <> op_id y) l -> sorted_ids l -> exists l', insert_op n o l = Ok l' /\ l' ≡ₚ o :: l /\ sorted_ids l'.
Proof.
  intros Ho. induction l as [|y l IH]; intros F S; [exists [o]; split; [reflexivity|]; split; [reflexivity|]; repeat constructor|].
  apply Forall_cons in F as [[Hy Hne] F]. cbn [map] in S. apply StronglySorted_inv in S as [S Sy]. cbn [insert_op]. destruct (compare_spec o y Ho Hy Hne) as [[L ->]|[L ->]]; cbn [mbind outcome_bind].
  - exists (o :: y :: l). split; [reflexivity|]. split; [reflexivity|]. cbn [map]. constructor; [constructor; assumption|]. constructor; [exact L|]. eapply Forall_impl; [exact Sy|]. intros i H. exact (lower_trans _ _ _ L H).
  - destruct (IH F S) as (l' & -> & P & S'). cbn [mbind outcome_bind]. exists (y :: l'). split; [reflexivity|]. split; [rewrite P; apply Permutation_swap|]. cbn [map]. constructor; [exact S'|].
    assert (P' : map op_id l' ≡ₚ op_id o :: map op_id l) by (change (op_id <$> l' ≡ₚ op_id <$> o :: l); rewrite P; reflexivity). rewrite P'. constructor; [exact L|exact Sy].
Qed.
Lemma sort_ops_spec l : Forall (fun y => y ∈ ops) l -> NoDup (map op_id l) -> exists l', sort_ops n l = Ok l' /\ l' ≡ₚ l /\ sorted_ids l'.
Proof.
  induction l as [|o l IH]; intros F N; [exists []; split; [reflexivity|]; split; [reflexivity|constructor]|]. apply Forall_cons in F as [Ho F]. cbn [map] in N. apply NoDup_cons in N as [Nin N].
  destruct (IH F N) as (l1 & E & P & S). cbn [sort_ops]. rewrite E. cbn [mbind outcome_bind]. destruct (insert_op_spec o l1 Ho) as (l' & E' & P' & S'); [|exact S|].
  - rewrite P. apply Forall_forall. intros y Hy. rewrite Forall_forall in F. split; [apply F, Hy|]. intros Eq. apply Nin. rewrite Eq. change (map op_id l) with (op_id <$> l). apply elem_of_list_fmap. eauto.
  - exists l'. split; [exact E'|]. split; [rewrite P', P; reflexivity|exact S'].
Qed.
Lemma ids_seq : map op_id ops = seq 0 (n + 2).
Proof.
  apply list_eq. intros i. change (map op_id ops) with (op_id <$> ops). rewrite list_lookup_fmap. destruct (ops !! i) as [o|] eqn:E.
  - rewrite lookup_seq_lt by (apply lookup_lt_Some in E; lia). cbn. rewrite (Ids _ _ E). reflexivity.
  - rewrite lookup_seq_ge by (apply lookup_ge_None in E; lia). reflexivity.
Qed.
Lemma filter_ids l : map op_id (filter (fun o => op_id o <> 0 /\ op_id o <> n + 1) l) = filter (fun i => i <> 0 /\ i <> n + 1) (map op_id l).
Proof. induction l as [|o l IH]; [reflexivity|]. rewrite filter_cons. cbn [map]. rewrite filter_cons. destruct (decide (op_id o <> 0 /\ op_id o <> n + 1)) as [H|H]; [cbn [map]; rewrite IH; reflexivity|exact IH]. Qed.
Lemma filter_sorted (P : nat -> Prop) `{!forall x, Decision (P x)} l : StronglySorted lower l -> StronglySorted lower (filter P l).
Proof.
  induction 1 as [|x l S IH F]; [constructor|]. rewrite filter_cons. destruct (decide (P x)); [|exact IH]. constructor; [exact IH|]. apply Forall_forall. intros y Hy. apply elem_of_list_filter in Hy as [_ Hy]. rewrite Forall_forall in F. apply F, Hy.
Qed.
Lemma filter_all (P : nat -> Prop) `{!forall x, Decision (P x)} (l : list nat) : (forall x, x ∈ l -> P x) -> filter P l = l.
Proof. induction l as [|x l IH]; intros HA; [reflexivity|]. rewrite filter_cons, decide_True by (apply HA; left). f_equal. apply IH. intros y Hy. apply HA. right. exact Hy. Qed.
Lemma inner_ids : filter (fun i => i <> 0 /\ i <> n + 1) (seq 0 (n + 2)) = seq 1 n.
Proof.
  replace (n + 2) with (S (S n)) by lia. change (seq 0 (S (S n))) with (0 :: seq 1 (S n)). rewrite filter_cons, decide_False by lia. rewrite seq_S, filter_app. rewrite filter_cons, decide_False by lia. rewrite filter_nil, app_nil_r.
  apply filter_all. intros i Hi. apply elem_of_seq in Hi. lia.
Qed.
Lemma sorted_precedes l i i' : StronglySorted lower l -> precedes l i i' -> lower i i'.
Proof. intros S (a & b & c & ->). induction a as [|y a IH]; cbn in S; apply StronglySorted_inv in S as [S F]; [|exact (IH S)]. rewrite Forall_forall in F. apply F. apply elem_of_app. right. left. Qed.
Lemma solution_string_spec : exists s, solution_string ops = Ok s /\ s ≡ₚ seq 1 n /\ forall i i', precedes s i i' -> lower i i'.
Proof.
  unfold solution_string. rewrite decide_True by lia. cbn [mbind outcome_bind]. rewrite Len. replace (n + 2 - 2) with n by lia.
  destruct (sort_ops_spec ops) as (l & E & P & S); [apply Forall_forall; auto|rewrite ids_seq; apply NoDup_ListNoDup, seq_NoDup|]. rewrite E. cbn [mbind outcome_bind]. eexists. split; [reflexivity|]. rewrite filter_ids.
  split; [|intros i i'; apply sorted_precedes, filter_sorted, S]. rewrite <- inner_ids, <- ids_seq. apply filter_Permutation. change (op_id <$> l ≡ₚ op_id <$> ops). rewrite P. reflexivity.
Qed.
End Sort.

Section Strings.
Context (nm : nat) (jobs : shop) (V : valid_shop nm jobs) (dc : f64) (Hdc : delay_ok dc) (Std : standard_shop jobs) (p : provider) (Lp : load nm jobs = Ok p).
Notation n := (n_tasks jobs).
Notation dur := (dur_of jobs).
Notation mach := (mach_of jobs).
(** What an evaluated individual records *)
Lemma fresh_ops c x m : genes_for jobs c -> evaluates dc (fresh p c) x m -> exists fin : nat -> N,
  length (j_ops x) = n + 2 /\ (forall i o, j_ops x !! i = Some o -> op_id o = i) /\ (forall i o, i <= n -> j_ops x !! i = Some o -> op_finish o = Some (fin i)) /\
  (forall i o, 1 <= i <= n -> j_ops x !! i = Some o -> op_duration o = dur i /\ op_machine o = mach i) /\ fin 0 = 0%N /\ (forall i, 1 <= i <= n -> (dur i <= fin i)%N) /\
  feasible jobs (start_of jobs fin) /\ exists order, placed_earliest jobs (start_of jobs fin) order.
Proof.
  intros Gc (k & E). rewrite load_spec in Lp by apply V. injection Lp as <-. set (y := fresh _ c) in *.
  destruct (schedule_spec nm jobs V dc Hdc c (shop_ops jobs) Gc (shop_shaped jobs)) as (s & done & fin & Es & I & Ld).
  specialize (E (2 * n + k) ltac:(lia)). rewrite evaluate_prep in E. cbn [prep j_dirty fresh new_jind y mbind outcome_bind] in E. change (prep y) with (Ok y) in E. cbn [mbind outcome_bind] in E.
  rewrite (evaluate_scheduled nm jobs dc y s (2 * n + k) eq_refl (shop_shaped jobs) Es ltac:(lia)) in E. destruct (local_search (2 * n + k) (s_ops s)) as [[ops m']| |] eqn:El; [|discriminate|discriminate]. cbn in E. injection E as <- _.
  cbn [j_ops]. pose proof (local_search_keep _ _ _ _ El) as K.
  assert (Kop : forall i o, ops !! i = Some o -> exists o', s_ops s !! i = Some o' /\ keep o = keep o').
  { intros i o Ho. assert (H : map keep ops !! i = Some (keep o)) by (change (map keep ops) with (keep <$> ops); rewrite list_lookup_fmap, Ho; reflexivity). rewrite K in H. change (map keep (s_ops s)) with (keep <$> s_ops s) in H. apply list_lookup_fmap_inv in H as (o' & H1 & H2). eauto. }
  exists fin. split; [|split; [|split; [|split; [|split; [|split; [|split]]]]]].
  - rewrite <- (i_len _ _ _ _ _ _ _ _ _ _ I). apply (f_equal length) in K. rewrite !map_length in K. exact K.
  - intros i o Ho. destruct (Kop i o Ho) as (o' & Ho' & Ek). apply (f_equal op_id) in Ek. change (op_id o = op_id o') in Ek. rewrite Ek. apply (i_static _ _ _ _ _ _ _ _ _ _ I _ o' Ho').
  - intros i o Hi Ho. destruct (Kop i o Ho) as (o' & Ho' & Ek). apply (f_equal op_finish) in Ek. change (op_finish o = op_finish o') in Ek. rewrite Ek. apply (i_finish _ _ _ _ _ _ _ _ _ _ I i o'); [|exact Ho'].
    destruct (decide (i = 0)) as [->|Hne]; [left; reflexivity|right; apply (done_all nm jobs done fin s I Ld); lia].
  - intros i o Hi Ho. destruct (Kop i o Ho) as (o' & Ho' & Ek). pose proof (f_equal op_duration Ek) as Ed. change (op_duration o = op_duration o') in Ed. pose proof (f_equal op_machine Ek) as Em. change (op_machine o = op_machine o') in Em. rewrite Ed, Em.
    destruct (i_static _ _ _ _ _ _ _ _ _ _ I _ o' Ho') as (_ & S1 & _). destruct (S1 Hi) as (E1 & E2 & _). auto.
  - exact (i_fin0 _ _ _ _ _ _ _ _ _ _ I).
  - intros i Hi. apply (placed nm jobs done fin s I Ld i Hi).
  - exact (decoded_feasible nm jobs done fin s I Ld).
  - exists (map (name_of jobs) done). exact (decoded_earliest nm jobs done fin s I Ld).
Qed.
Lemma fresh_string c x m : genes_for jobs c -> evaluates dc (fresh p c) x m -> exists s start order, solution_string (j_ops x) = Ok s /\ records jobs x start /\ feasible jobs start /\ placed_earliest jobs start order /\
  s ≡ₚ seq 1 n /\ forall j k m d j' k' m' d', task jobs j k m d -> task jobs j' k' m' d' -> precedes s (op_number jobs j k) (op_number jobs j' k') ->
    (start j k + d < start j' k' + d')%N \/ ((start j k + d = start j' k' + d')%N /\ m < m').
Proof.
  intros Gc E. destruct (fresh_ops c x m Gc E) as (fin & Len & Ids & Fin & Real & F0 & Le & Fe & order & Ear).
  assert (Dpos : forall i, 1 <= i <= n -> (0 < dur i)%N /\ (dur i <= fin i)%N). { intros i Hi. split; [exact (fact_dur_pos jobs Std i Hi)|exact (Le i Hi)]. }
  assert (Apart : forall i i', 1 <= i <= n -> 1 <= i' <= n -> i <> i' -> mach i = mach i' -> fin i <> fin i').
  { intros i i' Hi Hi' Hne Hm Hf. destruct (real_task jobs i Hi) as (j & k & m1 & d & T & ->). destruct (real_task jobs i' Hi') as (j' & k' & m2 & d' & T' & ->).
    destruct (fact_task jobs j k m1 d T) as (_ & Ed & Em & _). destruct (fact_task jobs j' k' m2 d' T') as (_ & Ed' & Em' & _). assert (m2 = m1) as -> by congruence.
    destruct Fe as [_ Fe]. assert (Hjk : (j, k) <> (j', k')) by congruence. destruct (Fe j k j' k' m1 d d' T T' Hjk) as [H|H]; unfold start_of in H; destruct (Dpos _ Hi), (Dpos _ Hi'); lia. }
  destruct (solution_string_spec (j_ops x) n fin dur mach Len Ids Fin Real F0 Dpos Apart) as (s & Es & Ps & Ss). exists s, (start_of jobs fin), order. split; [exact Es|]. split; [|split; [exact Fe|split; [exact Ear|split; [exact Ps|]]]].
  - intros j k m1 d T. unfold recorded_start. destruct (fact_task jobs j k m1 d T) as (Hi & _). destruct (lookup_lt_is_Some_2 (j_ops x) (op_number jobs j k)) as [o Ho]; [rewrite Len; lia|]. rewrite Ho. cbn. rewrite (Fin (op_number jobs j k) o ltac:(lia) Ho). cbn.
    destruct (Real _ o Hi Ho) as [-> _]. reflexivity.
  - intros j k m1 d j' k' m2 d' T T' Hp. apply Ss in Hp. destruct (fact_task jobs j k m1 d T) as (Hi & Ed & Em & _). destruct (fact_task jobs j' k' m2 d' T') as (Hi' & Ed' & Em' & _).
    assert (A1 : (start_of jobs fin j k + d)%N = fin (op_number jobs j k)) by (unfold start_of; specialize (Le _ Hi); lia). assert (A2 : (start_of jobs fin j' k' + d')%N = fin (op_number jobs j' k')) by (unfold start_of; specialize (Le _ Hi'); lia).
    rewrite A1, A2. destruct Hp as [Hp|[_ [Hp|[Hp Hq]]]]; [lia|left; exact Hp|right; split; [exact Hp|congruence]].
Qed.
End Strings.

(** ** What the string tells *)
Lemma precedes_total l i i' : NoDup l -> i ∈ l -> i' ∈ l -> i <> i' -> precedes l i i' \/ precedes l i' i.
Proof.
  intros Nd Hi Hi' Hne. apply elem_of_list_split in Hi as (a & b & ->). apply elem_of_app in Hi' as [H|H].
  - right. apply elem_of_list_split in H as (a1 & a2 & ->). exists a1, a2, b. rewrite <- app_assoc. reflexivity.
  - apply elem_of_cons in H as [->|H]; [congruence|]. left. apply elem_of_list_split in H as (b1 & b2 & ->). exists a, b1, b2. reflexivity.
Qed.
Section Replay.
Context (nm : nat) (jobs : shop) (V : valid_shop nm jobs) (Std : standard_shop jobs) (start : nat -> nat -> N) (s : list nat) (order : list (nat * nat)).
Context (Fe : feasible jobs start) (Ear : placed_earliest jobs start order) (Ps : s ≡ₚ seq 1 (n_tasks jobs)).
Context (Ss : forall j k m d j' k' m' d', task jobs j k m d -> task jobs j' k' m' d' -> precedes s (op_number jobs j k) (op_number jobs j' k') ->
    (start j k + d < start j' k' + d')%N \/ ((start j k + d = start j' k' + d')%N /\ m < m')).
Lemma string_nodup : NoDup s. Proof. rewrite Ps. apply NoDup_ListNoDup, seq_NoDup. Qed.
Lemma string_in j k m d : task jobs j k m d -> op_number jobs j k ∈ s.
Proof. intros T. rewrite Ps. destruct (fact_task jobs j k m d T) as (Hi & _). apply elem_of_seq. lia. Qed.
Lemma task_fun j k m d m' d' : task jobs j k m d -> task jobs j k m' d' -> m' = m /\ d' = d.
Proof. intros (job & H1 & H2) (job' & H1' & H2'). rewrite H1 in H1'. injection H1' as <-. rewrite H2 in H2'. injection H2' as <- <-. auto. Qed.
Definition waits (j k j' k' : nat) : Prop := (j' = j /\ S k' = k) \/ exists m d d', task jobs j k m d /\ task jobs j' k' m d' /\ precedes s (op_number jobs j' k') (op_number jobs j k).
Lemma waits_end j k j' k' m d m' d' : task jobs j k m d -> task jobs j' k' m' d' -> waits j k j' k' -> (start j' k' + d' <= start j k)%N.
Proof.
  intros T T' [[-> <-]|(m0 & d0 & d0' & T0 & T0' & Hp)]; [destruct Fe as [F _]; exact (F _ _ _ _ _ _ T' T)|].
  destruct (task_fun _ _ _ _ _ _ T T0) as [-> ->]. destruct (task_fun _ _ _ _ _ _ T' T0') as [Em ->]. subst m'. clear T0 T0'. destruct Fe as [_ F].
  assert (Hjk : (j', k') <> (j, k)). { intros [= -> ->]. destruct (Ss _ _ _ _ _ _ _ _ T' T Hp) as [H|[_ H]]; destruct (task_fun _ _ _ _ _ _ T T') as [_ ->]; lia. }
  destruct (F _ _ _ _ _ _ _ T' T Hjk) as [H|H]; [exact H|]. destruct Std as [Dp _]. specialize (Dp _ _ _ _ T'). destruct (Ss _ _ _ _ _ _ _ _ T' T Hp) as [H'|[H' _]]; lia.
Qed.
(** An operation cannot start later than everything it waits for has ended *)
Lemma no_idle j k m d t : task jobs j k m d -> (forall j' k' m' d', task jobs j' k' m' d' -> waits j k j' k' -> (start j' k' + d' <= t)%N) -> (start j k <= t)%N.
Proof.
  intros T Ht. destruct (N.le_gt_cases (start j k) t) as [H|H]; [exact H|]. exfalso. apply N.lt_nge in H. apply H. apply (earliest_active jobs start order j k m d t Ear T).
  destruct Fe as [F1 F2]. split.
  - intros j0 k0 m0 d0 m1 d1 T0 T1. unfold move. destruct (decide ((j0, k0) = (j, k))) as [E0|E0].
    + injection E0 as -> ->. rewrite decide_False by (intros [=]; lia). destruct (task_fun _ _ _ _ _ _ T T0) as [-> ->]. specialize (F1 _ _ _ _ _ _ T0 T1). lia.
    + destruct (decide ((j0, S k0) = (j, k))) as [E1|E1]; [|exact (F1 _ _ _ _ _ _ T0 T1)]. injection E1 as -> <-. apply (Ht j k0 m0 d0 T0). left. auto.
  - assert (Main : forall j' k' d', task jobs j' k' m d' -> (j, k) <> (j', k') -> (t + d <= start j' k')%N \/ (start j' k' + d' <= t)%N).
    { intros j' k' d' T' Hne. assert (Hno : op_number jobs j k <> op_number jobs j' k'). { intros Eq. destruct (task_number_inj jobs j k m d j' k' m d' T T' Eq) as [-> ->]. congruence. }
      destruct (precedes_total s _ _ string_nodup (string_in _ _ _ _ T) (string_in _ _ _ _ T') Hno) as [Hp|Hp].
      - left. destruct (F2 _ _ _ _ _ _ _ T T' Hne) as [H1|H1]; [lia|]. destruct Std as [Dp _]. pose proof (Dp _ _ _ _ T). destruct (Ss _ _ _ _ _ _ _ _ T T' Hp) as [H'|[H' H'']]; lia.
      - right. apply (Ht j' k' m d' T'). right. exists m, d, d'. auto. }
    intros j0 k0 j1 k1 m0 d0 d1 T0 T1 Hne. unfold move. destruct (decide ((j0, k0) = (j, k))) as [E0|E0].
    + injection E0 as -> ->. rewrite decide_False by congruence. destruct (task_fun _ _ _ _ _ _ T T0) as [-> ->]. exact (Main _ _ _ T1 Hne).
    + destruct (decide ((j1, k1) = (j, k))) as [E1|E1]; [|exact (F2 _ _ _ _ _ _ _ T0 T1 Hne)]. injection E1 as -> ->. destruct (task_fun _ _ _ _ _ _ T T1) as [-> ->]. destruct (Main _ _ _ T0 ltac:(congruence)) as [H1|H1]; auto.
Qed.
Lemma exists_or_all (l : list nat) (P Q : nat -> Prop) : (forall i, i ∈ l -> P i \/ Q i) -> (exists i, i ∈ l /\ P i) \/ forall i, i ∈ l -> Q i.
Proof.
  induction l as [|x l IH]; intros H; [right; intros i Hi; apply elem_of_nil in Hi; tauto|]. destruct (H x ltac:(left)) as [Hx|Hx]; [left; exists x; split; [left|exact Hx]|].
  destruct IH as [(i & Hi & Pi)|IH]; [intros i Hi; apply H; right; exact Hi|left; exists i; split; [right; exact Hi|exact Pi]|]. right. intros i [->|Hi]%elem_of_cons; auto.
Qed.
Lemma replay j k m d : task jobs j k m d -> ready_at jobs start s j k (start j k).
Proof.
  intros T. split; [intros j' k' m' d' T' W; exact (waits_end j k j' k' m d m' d' T T' W)|]. destruct (N.eq_dec (start j k) 0) as [H0|H0]; [left; exact H0|right].
  destruct (exists_or_all (seq 1 (n_tasks jobs)) (fun i => exists j' k' m' d', op_number jobs j' k' = i /\ task jobs j' k' m' d' /\ waits j k j' k' /\ start j k = (start j' k' + d')%N)
    (fun i => forall j' k' m' d', op_number jobs j' k' = i -> task jobs j' k' m' d' -> waits j k j' k' -> (start j' k' + d' <= start j k - 1)%N)) as [(i & _ & j' & k' & m' & d' & _ & T' & W & E)|H].
  - intros i Hi. apply elem_of_seq in Hi. destruct (real_task jobs i ltac:(lia)) as (j' & k' & m' & d' & T' & ->). destruct (N.eq_dec (start j' k' + d') (start j k)) as [E|E].
    + destruct (decide (j' = j /\ S k' = k)) as [W|W]; [left; exists j', k', m', d'; repeat split; [exact T'|left; exact W|auto]|].
      destruct (decide (m' = m)) as [->|Hm]; [|right; intros j2 k2 m2 d2 E2 T2 W2; destruct (task_number_inj jobs _ _ _ _ _ _ _ _ T2 T' E2) as [-> ->]; destruct W2 as [W2|(m3 & d3 & d4 & T3 & T4 & _)]; [tauto|]; destruct (task_fun _ _ _ _ _ _ T T3) as [-> _], (task_fun _ _ _ _ _ _ T' T4) as [? _]; congruence].
      destruct (decide ((j', k') = (j, k))) as [Ejk|Ejk]. { injection Ejk as -> ->. right. intros j2 k2 m2 d2 E2 T2 W2. destruct (task_number_inj jobs _ _ _ _ _ _ _ _ T2 T E2) as [-> ->]. pose proof (waits_end _ _ _ _ _ _ _ _ T T2 W2). destruct Std as [Dp _]. pose proof (Dp _ _ _ _ T2). lia. }
      assert (Hno : op_number jobs j' k' <> op_number jobs j k). { intros Eq. destruct (task_number_inj jobs _ _ _ _ _ _ _ _ T' T Eq) as [-> ->]. congruence. }
      destruct (precedes_total s _ _ string_nodup (string_in _ _ _ _ T') (string_in _ _ _ _ T) Hno) as [Hp|Hp]; [left; exists j', k', m, d'; repeat split; [exact T'|right; exists m, d, d'; auto|auto]|].
      exfalso. destruct Std as [Dp _]. pose proof (Dp _ _ _ _ T). destruct (Ss _ _ _ _ _ _ _ _ T T' Hp) as [H'|[H' _]]; lia.
    + right. intros j2 k2 m2 d2 E2 T2 W2. destruct (task_number_inj jobs _ _ _ _ _ _ _ _ T2 T' E2) as [-> ->]. destruct (task_fun _ _ _ _ _ _ T' T2) as [-> ->]. pose proof (waits_end _ _ _ _ _ _ _ _ T T2 W2). lia.
  - exists j', k', m', d'. auto.
  - exfalso. assert (Hle : (start j k <= start j k - 1)%N); [|lia]. apply (no_idle j k m d _ T). intros j' k' m' d' T' W. apply (H (op_number jobs j' k') ltac:(destruct (fact_task jobs j' k' m' d' T') as (Hi & _); apply elem_of_seq; lia) j' k' m' d' eq_refl T' W).
Qed.
Lemma precedes_irrefl i i' : precedes s i i' -> i <> i'.
Proof. intros (a & b & c & E) ->. pose proof string_nodup as Nd. rewrite E in Nd. apply NoDup_app in Nd as (_ & _ & Nd). apply NoDup_cons in Nd as [Nin _]. apply Nin. apply elem_of_app. right. left. Qed.
Lemma waits_precedes j k j' k' m d m' d' : task jobs j k m d -> task jobs j' k' m' d' -> waits j k j' k' -> precedes s (op_number jobs j' k') (op_number jobs j k).
Proof.
  intros T T' [[-> <-]|(m0 & d0 & d0' & T0 & T0' & Hp)]; [|exact Hp]. assert (Hno : op_number jobs j k' <> op_number jobs j (S k')) by (rewrite op_number_S; lia).
  destruct (precedes_total s _ _ string_nodup (string_in _ _ _ _ T') (string_in _ _ _ _ T) Hno) as [Hp|Hp]; [exact Hp|]. exfalso. destruct Fe as [F _]. specialize (F _ _ _ _ _ _ T' T). destruct Std as [Dp _]. specialize (Dp _ _ _ _ T). destruct (Ss _ _ _ _ _ _ _ _ T T' Hp) as [H|[H _]]; lia.
Qed.
End Replay.

Section Same.
Context (nm : nat) (jobs : shop) (V : valid_shop nm jobs) (Std : standard_shop jobs) (start start' : nat -> nat -> N) (s s' : list nat) (order order' : list (nat * nat)).
Notation lists start s := (forall j k m d j' k' m' d', task jobs j k m d -> task jobs j' k' m' d' -> precedes s (op_number jobs j k) (op_number jobs j' k') ->
    (start j k + d < start j' k' + d')%N \/ ((start j k + d = start j' k' + d')%N /\ m < m')).
Context (Fe : feasible jobs start) (Ear : placed_earliest jobs start order) (Ps : s ≡ₚ seq 1 (n_tasks jobs)) (Ss : lists start s).
Lemma same_schedule : feasible jobs start' -> placed_earliest jobs start' order' -> lists start' s -> forall j k m d, task jobs j k m d -> start' j k = start j k.
Proof.
  intros Fe' Ear' Ss'. assert (Main : forall a b, s = a ++ b -> forall j k m d, task jobs j k m d -> op_number jobs j k ∈ a -> start' j k = start j k).
  { intros a. induction a as [|i a IH] using rev_ind; intros b E j k m d T Hin; [apply elem_of_nil in Hin; tauto|]. rewrite <- app_assoc in E. apply elem_of_app in Hin as [Hin|Hin]; [exact (IH _ E j k m d T Hin)|]. apply elem_of_list_singleton in Hin as <-.
    assert (Before : forall j' k' m' d', task jobs j' k' m' d' -> precedes s (op_number jobs j' k') (op_number jobs j k) -> start' j' k' = start j' k').
    { intros j' k' m' d' T' (a1 & a2 & a3 & E'). apply (IH _ E j' k' m' d' T'). pose proof (string_nodup jobs s Ps) as Nd. rewrite E in Nd, E'. cbn [app] in E'.
      assert (Hpos : length a = length (a1 ++ op_number jobs j' k' :: a2)).
      { apply (NoDup_lookup (a ++ [op_number jobs j k] ++ b) _ _ (op_number jobs j k) Nd); [rewrite lookup_app_r by lia; rewrite Nat.sub_diag; reflexivity|]. change ([op_number jobs j k] ++ b) with (op_number jobs j k :: b). rewrite E'. change (op_number jobs j' k' :: a2 ++ op_number jobs j k :: a3) with ((op_number jobs j' k' :: a2) ++ op_number jobs j k :: a3). rewrite app_assoc. rewrite lookup_app_r by lia. rewrite Nat.sub_diag. reflexivity. }
      change (op_number jobs j' k' :: a2 ++ op_number jobs j k :: a3) with ((op_number jobs j' k' :: a2) ++ op_number jobs j k :: a3) in E'. rewrite app_assoc in E'. apply app_inj_1 in E' as [-> _]; [|exact Hpos]. apply elem_of_app. right. left. }
    apply N.le_antisymm.
    - apply (no_idle jobs Std start' s order' Fe' Ear' Ps Ss' j k m d _ T). intros j' k' m' d' T' W. rewrite (Before j' k' m' d' T' (waits_precedes jobs Std start' s Fe' Ps Ss' j k j' k' m d m' d' T T' W)). exact (waits_end jobs Std start s Fe Ss j k j' k' m d m' d' T T' W).
    - apply (no_idle jobs Std start s order Fe Ear Ps Ss j k m d _ T). intros j' k' m' d' T' W. rewrite <- (Before j' k' m' d' T' (waits_precedes jobs Std start s Fe Ps Ss j k j' k' m d m' d' T T' W)). exact (waits_end jobs Std start' s Fe' Ss' j k j' k' m d m' d' T T' W). }
  intros j k m d T. apply (Main s [] ltac:(rewrite app_nil_r; reflexivity) j k m d T). exact (string_in jobs s Ps _ _ _ _ T).
Qed.
Lemma sorted_of_precedes (R : nat -> nat -> Prop) l : (forall i i', precedes l i i' -> R i i') -> StronglySorted R l.
Proof.
  induction l as [|x l IH]; intros H; [constructor|]. constructor.
  - apply IH. intros i i' (a & b & c & ->). apply H. exists (x :: a), b, c. reflexivity.
  - apply Forall_forall. intros y Hy. apply elem_of_list_split in Hy as (b & c & ->). apply H. exists [], b, c. reflexivity.
Qed.
Lemma same_string : s' ≡ₚ seq 1 (n_tasks jobs) -> lists start s' -> s' = s.
Proof.
  intros Ps' Ss'. assert (Asym : forall i i', i ∈ s -> i' ∈ s -> precedes s i i' -> precedes s i' i -> False).
  { intros i i' Hi Hi' H1 H2. rewrite Ps in Hi, Hi'. apply elem_of_seq in Hi, Hi'. destruct (real_task jobs i ltac:(lia)) as (j & k & m & d & T & ->). destruct (real_task jobs i' ltac:(lia)) as (j' & k' & m' & d' & T' & ->).
    destruct (Ss _ _ _ _ _ _ _ _ T T' H1) as [L|[L L']], (Ss _ _ _ _ _ _ _ _ T' T H2) as [M|[M M']]; lia. }
  assert (AS : AntiSymm (=) (precedes s)).
  { intros i i' H1 H2. exfalso. assert (Hin : forall a b, precedes s a b -> a ∈ s) by (intros x y (a & b & c & ->); apply elem_of_app; right; left). exact (Asym i i' (Hin _ _ H1) (Hin _ _ H2) H1 H2). }
  apply (StronglySorted_unique (precedes s)).
  - apply sorted_of_precedes. intros i i' Hp. pose proof (precedes_irrefl jobs s' Ps' i i' Hp) as Hne.
    assert (Hi : i ∈ seq 1 (n_tasks jobs)). { rewrite <- Ps'. destruct Hp as (a & b & c & ->). apply elem_of_app. right. left. } assert (Hi' : i' ∈ seq 1 (n_tasks jobs)). { rewrite <- Ps'. destruct Hp as (a & b & c & ->). apply elem_of_app. right. right. apply elem_of_app. right. left. }
    destruct (precedes_total s i i' (string_nodup jobs s Ps) ltac:(rewrite Ps; exact Hi) ltac:(rewrite Ps; exact Hi') Hne) as [H|H]; [exact H|]. exfalso. apply elem_of_seq in Hi, Hi'.
    destruct (real_task jobs i ltac:(lia)) as (j & k & m & d & T & ->). destruct (real_task jobs i' ltac:(lia)) as (j' & k' & m' & d' & T' & ->). destruct (Ss' _ _ _ _ _ _ _ _ T T' Hp) as [L|[L L']], (Ss _ _ _ _ _ _ _ _ T' T H) as [M|[M M']]; lia.
  - apply sorted_of_precedes. auto.
  - rewrite Ps, Ps'. reflexivity.
Qed.
End Same.
