(** * With a long enough delay window every schedule can be matched (C139) *)
From Verif Require Import AcoTspGenProofs JsspWindowProofs EvenPointProofs JsspOpsProofs JsspOrderProofs JsspTheorems JsspFloatProofs JsspInstProofs JsspModel JsspSpec F64R.
From Coq Require Import Reals Lra.
From Flocq Require Import Core.
Open Scope nat_scope.

Lemma filter_length_lt {A} (P Q : A -> bool) l y : (forall x, P x = true -> Q x = true) -> y ∈ l -> P y = false -> Q y = true ->
  length (List.filter P l) < length (List.filter Q l).
Proof.
  intros H Hy Py Qy. assert (Hle : forall l, length (List.filter P l) <= length (List.filter Q l)).
  { induction l0 as [|x l0 IH]; [apply le_n|]. cbn [List.filter]. destruct (P x) eqn:E; [rewrite (H _ E); cbn [length]; lia|]. destruct (Q x); cbn [length]; lia. }
  induction l as [|x l IH]; [apply elem_of_nil in Hy; tauto|]. cbn [List.filter]. apply elem_of_cons in Hy as [->|Hy].
  - rewrite Py, Qy. cbn [length]. specialize (Hle l). lia.
  - specialize (IH Hy). destruct (P x) eqn:E; [rewrite (H _ E); cbn [length]; lia|]. destruct (Q x); cbn [length]; lia.
Qed.
Lemma filter_length_le {A} (P : A -> bool) l : length (List.filter P l) <= length l.
Proof. induction l as [|x l IH]; [apply le_n|]. cbn [List.filter]. destruct (P x); cbn [length]; lia. Qed.
Lemma last_all {A} (d : A) l : (forall x, x ∈ l -> x = d) -> List.last l d = d.
Proof.
  induction l as [|x l IH]; intros H; [reflexivity|]. destruct l as [|y l]; [apply H; left|]. change (List.last (x :: y :: l) d) with (List.last (y :: l) d).
  apply IH. intros z Hz. apply H. right. exact Hz.
Qed.
Lemma unit_flt a b : (a < b)%N -> (b < 2 ^ 52)%N -> flt (f_unit 52 a) (f_unit 52 b) = true.
Proof.
  intros H Hb. apply flt_R; try (apply fvalid_unit; lia); try (apply ffinite_unit).
  rewrite !f2r_unit by lia. apply Rmult_lt_compat_r; [apply bpow_gt_0|]. apply IZR_lt. lia.
Qed.

Section Reach.
Context (nm : nat) (jobs : shop) (V : valid_shop nm jobs) (Std : standard_shop jobs) (dc : f64) (Hdc : delay_ok dc).
Context (sigma : nat -> nat -> N) (F : feasible jobs sigma) (t : N) (Mk : has_makespan jobs sigma t) (lg : N) (Hlg : longest jobs lg).
Context (ga : f64) (Hga : valid_binary 53 1024 ga = true /\ fle f0 ga = true /\ fle ga f1 = true).
Context (Room : forall a, (a <= t)%N -> fle (f_of_N a) (fadd (f_of_N 0) (fmul (fmul ga dc) (f_of_N lg))) = true).
Notation n := (n_tasks jobs).
Notation isop u := (exists m d, task jobs u.1 u.2 m d).

Definition all_ops : list (nat * nat) := concat (imap (fun j job => map (pair j) (seq 0 (length job))) jobs).
Lemma all_ops_in j k : (j, k) ∈ all_ops <-> exists m d, task jobs j k m d.
Proof.
  unfold all_ops. rewrite elem_of_list_In, in_concat. split.
  - intros (l & Hl & Hin). apply elem_of_list_In in Hl, Hin. apply elem_of_lookup_imap in Hl as (j' & job & -> & Hj).
    apply elem_of_list_fmap in Hin as (k' & E & Hk). injection E as -> ->. apply elem_of_seq in Hk. destruct (lookup_lt_is_Some_2 job k') as [[m d] Hm]; [lia|].
    exists m, d, job. auto.
  - intros (m & d & job & Hj & Hk). exists (map (pair j) (seq 0 (length job))). split.
    + apply elem_of_list_In, elem_of_lookup_imap. exists j, job. auto.
    + apply elem_of_list_In, elem_of_list_fmap. exists k. split; [reflexivity|]. apply elem_of_seq. apply lookup_lt_Some in Hk. lia.
Qed.
Definition num (u : nat * nat) : nat := op_number jobs u.1 u.2.
Definition start_of (u : nat * nat) : N := sigma u.1 u.2.
Definition earlier (v u : nat * nat) : bool := ((start_of v <? start_of u) || ((start_of v =? start_of u) && (Nat.ltb (num v) (num u))))%N%bool.
Lemma earlier_trans u v w : earlier u v = true -> earlier v w = true -> earlier u w = true.
Proof.
  unfold earlier. rewrite !orb_true_iff, !andb_true_iff, !N.ltb_lt, !N.eqb_eq, !Nat.ltb_lt. lia.
Qed.
Lemma earlier_irrefl u : earlier u u = false.
Proof. unfold earlier. rewrite N.ltb_irrefl, Nat.ltb_irrefl, andb_false_r. reflexivity. Qed.
Lemma earlier_total u v : isop u -> isop v -> u <> v -> earlier u v = true \/ earlier v u = true.
Proof.
  intros (m & d & Tu) (m' & d' & Tv) Hne. unfold earlier. rewrite !orb_true_iff, !andb_true_iff, !N.ltb_lt, !N.eqb_eq, !Nat.ltb_lt.
  assert (num u <> num v). { intros E. destruct (task_number_inj _ _ _ _ _ _ _ _ _ Tu Tv E). apply Hne. destruct u, v; cbn in *; congruence. }
  lia.
Qed.
Lemma earlier_le u v : earlier u v = true -> (start_of u <= start_of v)%N.
Proof. unfold earlier. rewrite !orb_true_iff, !andb_true_iff, !N.ltb_lt, !N.eqb_eq. lia. Qed.
Lemma earlier_pred j k : isop (j, S k) -> isop (j, k) -> earlier (j, k) (j, S k) = true.
Proof.
  intros (m & d & T) (m' & d' & T'). unfold earlier, start_of. cbn [fst snd] in *. rewrite orb_true_iff, N.ltb_lt. left.
  pose proof (proj1 F j k m' d' m d T' T) as H. pose proof (proj1 Std j k m' d' T'). lia.
Qed.
Lemma pred_isop j k : isop (j, S k) -> isop (j, k).
Proof.
  intros (m & d & job & Hj & Hk). cbn [fst snd] in *. destruct (lookup_lt_is_Some_2 job k) as [[m' d'] H]; [apply lookup_lt_Some in Hk; lia|]. exists m', d', job. auto.
Qed.

Definition rank (u : nat * nat) : nat := length (List.filter (fun v => earlier v u) all_ops).
Lemma rank_lt u v : isop u -> earlier u v = true -> rank u < rank v.
Proof.
  intros Hu E. unfold rank. apply (filter_length_lt _ _ _ u).
  - intros x Hx. exact (earlier_trans _ _ _ Hx E).
  - destruct u as [j k]. apply all_ops_in. exact Hu.
  - apply earlier_irrefl.
  - exact E.
Qed.
Lemma tasks_work : (N.of_nat n <= shop_work jobs)%N.
Proof.
  assert (Hp : forall job, job ∈ jobs -> forall md, md ∈ job -> (0 < md.2)%N).
  { intros job Hj md Hm. apply elem_of_list_lookup in Hj as [j Hj]. apply elem_of_list_lookup in Hm as [k Hk]. destruct md as [m d]. apply (proj1 Std j k m d). exists job. auto. }
  clear -Hp. induction jobs as [|job l IH]; [cbn; lia|]. unfold n_tasks. cbn [map shop_work foldr]. change (list_sum (length job :: map length l)) with (length job + list_sum (map length l)).
  specialize (IH (fun j Hj => Hp j (elem_of_list_further _ _ _ Hj))). unfold n_tasks in IH.
  assert (N.of_nat (length job) <= job_work job)%N; [|unfold shop_work in IH; lia].
  assert (Hj : forall md, md ∈ job -> (0 < md.2)%N) by (apply Hp; left). clear -Hj. induction job as [|md job IH]; [cbn; lia|]. cbn [length job_work foldr].
  specialize (IH (fun x Hx => Hj x (elem_of_list_further _ _ _ Hx))). pose proof (Hj md (elem_of_list_here _ _)). unfold job_work in IH. lia.
Qed.
Lemma order_short order : NoDup order -> (forall j k, (j, k) ∈ order <-> exists m d, task jobs j k m d) -> length order <= n.
Proof.
  intros Nd All. rewrite <- (seq_length n 1), <- (map_length num order). apply submseteq_length, NoDup_submseteq.
  - apply NoDup_fmap_2_strong; [|exact Nd]. intros [j k] [j' k'] Hx Hy E. apply All in Hx as (m & d & T), Hy as (m' & d' & T').
    destruct (task_number_inj _ _ _ _ _ _ _ _ _ T T' E) as [-> ->]. reflexivity.
  - intros x Hx. apply elem_of_list_fmap in Hx as ([j k] & -> & Hx). apply All in Hx as (m & d & T). apply task_range in T as [T _]. unfold num. cbn [fst snd]. rewrite op_number_eq. apply elem_of_seq. lia.
Qed.
Lemma all_ops_nodup : NoDup all_ops.
Proof.
  unfold all_ops. assert (H : forall l (f : nat -> nat), (forall a b, f a = f b -> a = b) -> NoDup (concat (imap (fun j (job : list (nat * N)) => map (pair (f j)) (seq 0 (length job))) l))).
  { induction l as [|job l IH]; intros f Hf; [constructor|]. cbn [imap concat]. apply NoDup_app. split; [|split].
    - apply NoDup_fmap_2; [intros a b E; injection E as E; exact E|apply NoDup_seq].
    - intros [j k] H1 H2. apply elem_of_list_fmap in H1 as (k1 & E1 & _). injection E1 as -> ->.
      apply elem_of_list_In, in_concat in H2 as (l2 & H2 & H3). apply elem_of_list_In in H2, H3. apply elem_of_lookup_imap in H2 as (j2 & job2 & -> & _).
      apply elem_of_list_fmap in H3 as (k3 & E3 & _). injection E3 as E3 _. apply Hf in E3. discriminate E3.
    - apply (IH (fun j => f (S j))). intros a b E. specialize (Hf _ _ E). lia. }
  exact (H jobs (fun j => j) (fun a b E => E)).
Qed.
Lemma rank_small u : rank u <= n.
Proof. unfold rank. etransitivity; [apply filter_length_le|]. apply order_short; [exact all_ops_nodup|exact all_ops_in]. Qed.

Definition gene (i : nat) : f64 := match List.find (fun u => Nat.eqb (num u) (S i)) all_ops with Some u => f_unit 52 (N.of_nat (n - rank u)) | None => f0 end.
Definition genes : list f64 := map gene (seq 0 n) ++ repeat ga n.
Lemma n_small : (N.of_nat n < 2 ^ 52)%N.
Proof. pose proof tasks_work. destruct V as (_ & _ & _ & W). assert ((2 ^ 50 < 2 ^ 52)%N) by reflexivity. lia. Qed.
Lemma genes_ok : genes_for jobs genes.
Proof.
  split; [unfold genes; rewrite app_length, map_length, seq_length, repeat_length; lia|]. apply Forall_app. split.
  - apply Forall_forall. intros x Hx. apply elem_of_list_fmap in Hx as (i & -> & _). unfold gene. destruct (List.find _ _) as [u|]; [|split; [reflexivity|split; reflexivity]].
    assert (Hk : (N.of_nat (n - rank u) < 2 ^ 52)%N) by (pose proof n_small; lia).
    split; [apply fvalid_unit; lia|]. destruct (f_unit_range 52 _ Hk) as [A B]. split; [exact A|apply flt_le; exact B].
  - apply Forall_forall. intros x Hx. apply elem_of_list_In, repeat_spec in Hx as ->. exact Hga.
Qed.
Lemma genes_priority j k : isop (j, k) -> priority jobs genes j k = f_unit 52 (N.of_nat (n - rank (j, k))).
Proof.
  intros (m & d & T). cbn [fst snd] in T. pose proof (task_range _ _ _ _ _ T) as [R _]. unfold priority. rewrite op_number_eq. cbn [Nat.sub]. rewrite Nat.sub_0_r.
  unfold genes. rewrite app_nth1 by (rewrite map_length, seq_length; exact R). rewrite (nth_indep _ f0 (gene 0)) by (rewrite map_length, seq_length; exact R).
  rewrite map_nth, seq_nth by exact R. cbn [Nat.add]. unfold gene.
  destruct (List.find _ all_ops) as [u|] eqn:E.
  - apply find_some in E as [Hu E]. apply elem_of_list_In in Hu. apply Nat.eqb_eq in E. destruct u as [j' k']. apply all_ops_in in Hu as (m' & d' & T').
    destruct (task_number_inj _ _ _ _ _ _ _ _ _ T' T E) as [-> ->]. reflexivity.
  - exfalso. assert (Hin : (j, k) ∈ all_ops) by (apply all_ops_in; eauto). apply elem_of_list_In in Hin. apply (find_none _ _ E) in Hin. apply Nat.eqb_neq in Hin. apply Hin. reflexivity.
Qed.
Lemma genes_delay g : 1 <= g <= n -> nth (n + g - 1) genes f0 = ga.
Proof. intros H. unfold genes. rewrite app_nth2 by (rewrite map_length, seq_length; lia). rewrite map_length, seq_length. rewrite (nth_indep _ f0 ga) by (rewrite repeat_length; lia). apply nth_repeat. Qed.

(** The schedule that these genes stand for *)
Context (start : nat -> nat -> N) (order : list (nat * nat)) (PE : placed_earliest jobs start order) (PP : placed_by_priority jobs dc genes start order).
Lemma unit_nan k : is_nan (f_unit 52 k) = false.
Proof. pose proof (ffinite_unit 52 k) as H. destruct (f_unit 52 k); [reflexivity|reflexivity|discriminate|reflexivity]. Qed.
Lemma priority_first u v : isop u -> isop v -> rank v < rank u ->
  ~ (flt (priority jobs genes v.1 v.2) (priority jobs genes u.1 u.2) = true \/ fle (priority jobs genes v.1 v.2) (priority jobs genes u.1 u.2) = true).
Proof.
  intros Hu Hv R H. destruct u as [j k], v as [j' k']. cbn [fst snd] in *. rewrite (genes_priority j k Hu), (genes_priority j' k' Hv) in H. pose proof (rank_small (j, k)) as S.
  assert (L : flt (f_unit 52 (N.of_nat (n - rank (j, k)))) (f_unit 52 (N.of_nat (n - rank (j', k')))) = true) by (apply unit_flt; [lia|pose proof n_small; lia]).
  destruct H as [H|H]; [rewrite (flt_asym _ _ L) in H; discriminate|]. rewrite flt_fle_neg in L by apply unit_nan. rewrite H in L. discriminate.
Qed.
Lemma reached_op times : length times = length order ->
  (forall before j k after, order = before ++ (j, k) :: after ->
  exists T, times !! length before = Some T /\
    let since := List.last (take (length before) times) 0%N in
    let may t := eligible jobs start before (window_end jobs dc genes lg (S (length before)) t) in
    moment_from jobs start before since T /\ may T j k /\
    (forall t j' k', moment_from jobs start before since t -> (t < T)%N -> ~ may t j' k') /\
    forall j' k', may T j' k' -> flt (priority jobs genes j' k') (priority jobs genes j k) = true \/
      (fle (priority jobs genes j' k') (priority jobs genes j k) = true /\ op_number jobs j k <= op_number jobs j' k')) ->
  forall len before j k after, length before = len -> order = before ++ (j, k) :: after ->
  times !! len = Some 0%N /\ (start j k <= sigma j k)%N /\ forall v, isop v -> earlier v (j, k) = true -> v ∈ before.
Proof.
  intros Lt Rule len. induction len as [len IH] using lt_wf_ind. intros before j k after Hlen E. subst len.
  destruct PE as (Nd & All & Early).
  assert (Hop : isop (j, k)) by (apply All; rewrite E; apply elem_of_app; right; left).
  assert (IHv : forall j' k', (j', k') ∈ before -> isop (j', k') /\ (start j' k' <= sigma j' k')%N /\ forall v, isop v -> earlier v (j', k') = true -> v ∈ before).
  { intros j' k' Hin. split; [apply All; rewrite E; apply elem_of_app; left; exact Hin|]. apply elem_of_list_split in Hin as (b1 & b2 & ->). rewrite <- app_assoc in E. cbn [app] in E.
    destruct (IH (length b1) ltac:(rewrite app_length; cbn; lia) b1 j' k' _ eq_refl E) as (_ & S & C). split; [exact S|]. intros v Hv He. apply elem_of_app. left. exact (C v Hv He). }
  assert (Since : List.last (take (length before) times) 0%N = 0%N).
  { apply last_all. intros x Hx. apply elem_of_list_lookup in Hx as [i Hi]. apply lookup_take_Some in Hi as [Hi Hlt]. destruct (lookup_lt_is_Some_2 before i Hlt) as [[j' k'] Hb].
    pose proof (take_drop_middle before i (j', k') Hb) as Sp. assert (Li : length (take i before) = i) by (rewrite take_length; lia).
    destruct (IH i Hlt (take i before) j' k' (drop (S i) before ++ (j, k) :: after) Li) as (T0 & _).
    { rewrite E. rewrite <- Sp at 1. rewrite <- app_assoc. reflexivity. }
    congruence. }
  assert (Hlo : length before < n).
  { pose proof (order_short order Nd All) as H. rewrite E, app_length in H. cbn [length] in H. lia. }
  assert (May : forall j' k', isop (j', k') -> (j', k') ∉ before -> (forall q, k' = S q -> (j', q) ∈ before) -> eligible jobs start before (window_end jobs dc genes lg (S (length before)) 0) j' k').
  { intros j' k' Ho Hn Hp. split; [exact Ho|]. split; [exact Hn|]. intros q Eq. specialize (Hp q Eq). split; [exact Hp|]. intros m d T. destruct (IHv _ _ Hp) as (_ & S & _). pose proof (proj1 Mk _ _ _ _ T) as Hm.
    unfold window_end. rewrite genes_delay by lia. apply Room. lia. }
  destruct (Rule _ _ _ _ E) as (T & HT & Mo & (_ & Hn & Hp) & Min & Best). rewrite Since in Mo, Min.
  assert (HT0 : T = 0%N).
  { destruct (N.eq_dec T 0) as [?|Ne]; [assumption|]. exfalso. apply (Min 0%N j k); [left; reflexivity|lia|]. apply May; [exact Hop|exact Hn|]. intros q Eq. exact (proj1 (Hp q Eq)). }
  subst T. split; [exact HT|].
  assert (Closed : forall r v, rank v < r -> isop v -> earlier v (j, k) = true -> v ∈ before).
  { induction r as [|r IHr]; [lia|]. intros [j' k'] Hr Hv He. destruct (decide ((j', k') ∈ before)) as [?|Hb]; [assumption|]. exfalso.
    apply (priority_first (j, k) (j', k') Hop Hv (rank_lt _ _ Hv He)). cbn [fst snd].
    destruct (Best j' k') as [H|[H _]]; [|left; exact H|right; exact H]. apply May; [exact Hv|exact Hb|]. intros q ->. pose proof (pred_isop _ _ Hv) as Hq. pose proof (earlier_pred _ _ Hv Hq) as Eq.
    apply IHr; [pose proof (rank_lt _ _ Hq Eq); lia|exact Hq|exact (earlier_trans _ _ _ Eq He)]. }
  split; [|intros v Hv He; exact (Closed (S (rank v)) v ltac:(lia) Hv He)].
  apply (proj2 (Early _ _ _ _ E)). split.
  - intros q Eq. destruct (Hp q Eq) as [Hb _]. split; [exact Hb|]. intros m d T. destruct (IHv _ _ Hb) as (_ & S & _). subst k. destruct Hop as (m' & d' & T'). cbn [fst snd] in T'. pose proof (proj1 F _ _ _ _ _ _ T T'). lia.
  - intros j' k' m d d' Hb T T'. destruct (IHv _ _ Hb) as (Ho & S & C). assert (Ne : (j, k) <> (j', k')) by congruence.
    destruct (proj2 F _ _ _ _ _ _ _ T T' Ne) as [H|H]; [|right; lia]. exfalso.
    destruct (earlier_total (j, k) (j', k') Hop Ho Ne) as [He|He]; [exact (Hn (C _ Hop He))|]. apply earlier_le in He. unfold start_of in He. cbn [fst snd] in He. pose proof (proj1 Std _ _ _ _ T). lia.
Qed.
Lemma reached j k m d : task jobs j k m d -> (start j k <= sigma j k)%N.
Proof.
  intros T. destruct PP as (l & times & Hl & Lt & Rule). assert (l = lg) as -> by exact (longest_det jobs _ _ Hl Hlg).
  assert (Hin : (j, k) ∈ order) by (apply PE; eauto). apply elem_of_list_split in Hin as (before & after & E).
  exact (proj1 (proj2 (reached_op times Lt Rule _ _ _ _ _ eq_refl E))).
Qed.
End Reach.

(** All these genes can be drawn *)
Lemma genes_drawn nm jobs (V : valid_shop nm jobs) (Std : standard_shop jobs) sigma : Forall (fun x => exists k, (k < 2 ^ 52)%N /\ x = f_unit 52 k) (genes jobs sigma top_gene).
Proof.
  apply Forall_app. split.
  - apply Forall_forall. intros x Hx. apply elem_of_list_fmap in Hx as (i & -> & _). unfold gene. destruct (List.find _ _) as [u|]; [|exists 0%N; split; reflexivity].
    eexists. split; [|reflexivity]. pose proof (n_small nm jobs V Std). lia.
  - apply Forall_forall. intros x Hx. apply elem_of_list_In, repeat_spec in Hx as ->. eexists. split; [|reflexivity]. lia.
Qed.
Lemma drawn_stream l : Forall (fun x => exists k, (k < 2 ^ 52)%N /\ x = f_unit 52 k) l -> exists r : rng, forall i x, l !! i = Some x -> x = f_unit 52 (r i mod 2 ^ 52).
Proof.
  induction 1 as [|x l (k & Hk & ->) _ (r & IH)]; [exists (fun _ => 0%N); intros i x H; discriminate|].
  exists (fun i => match i with O => k | S i => r i end). intros [|i] x H; [injection H as <-; rewrite N.mod_small by exact Hk; reflexivity|exact (IH i x H)].
Qed.
Lemma generate_drawn nm jobs p c : valid_shop nm jobs -> load nm jobs = Ok p -> length c = 2 * n_tasks jobs -> Forall (fun x => exists k, (k < 2 ^ 52)%N /\ x = f_unit 52 k) c ->
  exists r, forall count, 0 < count -> exists rest r', generate_jssp p count r = Ok (fresh p c :: rest, r').
Proof.
  intros V Lp Lc Dc. destruct (drawn_stream c Dc) as (r & Hr). exists r. intros count Hc. rewrite load_spec in Lp by apply V. injection Lp as <-.
  unfold generate_jssp. cbn [p_ops]. rewrite shop_ops_length. rewrite decide_True by lia. replace (n_tasks jobs + 2 - 2) with (n_tasks jobs) by lia.
  unfold generate_with_single_constraint, generate_with_constraints. rewrite replicate_length, bool_decide_eq_true_2 by reflexivity. cbn [rassert mbind outcome_bind].
  destruct count as [|count]; [lia|]. cbn [repeatM]. destruct (one_point_draws (replicate (2 * n_tasks jobs) (f0, f1)) r) as [_ E]. destruct (one_point _ r) as [c' r1]. cbn [snd fst] in E.
  assert (c' = c) as ->.
  { rewrite E. apply list_eq. intros i. rewrite list_lookup_imap. destruct (decide (i < 2 * n_tasks jobs)) as [Hi|Hi].
    - rewrite lookup_replicate_2 by exact Hi. destruct (lookup_lt_is_Some_2 c i) as [x Hx]; [lia|]. rewrite Hx. cbn. rewrite scale_unit by (apply N.mod_lt; discriminate). rewrite (Hr i x Hx). reflexivity.
    - rewrite (proj1 (lookup_replicate_None (2 * n_tasks jobs) (f0, f1) i)) by lia. rewrite (lookup_ge_None_2 c i) by lia. reflexivity. }
  destruct (repeatM count _ r1) as [rest r2]. cbn [map]. eauto.
Qed.

Theorem within_reach nm jobs dc p lg sigma t : valid_shop nm jobs -> standard_shop jobs -> delay_ok dc -> load nm jobs = Ok p ->
  longest jobs lg -> feasible jobs sigma -> has_makespan jobs sigma t -> (t <= 2 ^ 50)%N -> (IZR (Z.of_N t) + 1 <= f2r dc * IZR (Z.of_N lg))%R ->
  exists genes, genes_for jobs genes /\ (exists r, forall count, 0 < count -> exists rest r', generate_jssp p count r = Ok (fresh p genes :: rest, r')) /\
  exists x m start, evaluates dc (fresh p genes) x m /\ (m <= t)%N /\ records jobs x start /\ forall j k mach d, task jobs j k mach d -> (start j k <= sigma j k)%N.
Proof.
  intros V Std Hdc Lp Hlg F Mk Ht Room.
  assert (Ll : (lg <= 2 ^ 50)%N).
  { destruct Hlg as (_ & j & k & m & T). pose proof (proj1 Mk _ _ _ _ T). lia. }
  pose proof (top_window dc lg t Hdc Ll Ht Room) as W.
  assert (Hga : valid_binary 53 1024 top_gene = true /\ fle f0 top_gene = true /\ fle top_gene f1 = true) by (split; [|split]; vm_compute; reflexivity).
  pose proof (genes_ok nm jobs V Std sigma top_gene Hga) as G. exists (genes jobs sigma top_gene). split; [exact G|]. split.
  { apply (generate_drawn nm jobs p _ V Lp); [apply G|exact (genes_drawn nm jobs V Std sigma)]. }
  destruct (reachable_evaluates nm jobs V dc Hdc p _ Std Lp (reach_fresh jobs p dc _ G)) as (x & m & E & _).
  destruct (fresh_decodes nm jobs V dc Hdc p _ x m Lp G E) as (start0 & _ & t0 & R0 & _ & M0 & Hm & _).
  destruct (fresh_order nm jobs V dc Hdc p _ x m Lp G E) as (start & order & R & PE & PP).
  assert (Le : forall j k mach d, task jobs j k mach d -> (start j k <= sigma j k)%N).
  { intros j k mach d T. exact (reached nm jobs V Std dc sigma F t Mk lg Hlg top_gene W start order PE PP j k mach d T). }
  exists x, m, start. split; [exact E|]. split; [|split; [exact R|exact Le]].
  destruct M0 as (_ & j & k & mach & d & T & <-). specialize (Le _ _ _ _ T). pose proof (proj1 Mk _ _ _ _ T). specialize (R _ _ _ _ T). specialize (R0 _ _ _ _ T). assert (start0 j k = start j k) by congruence. lia.
Qed.
Theorem optimum_within_reach nm jobs dc p lg sigma t : valid_shop nm jobs -> standard_shop jobs -> delay_ok dc -> load nm jobs = Ok p ->
  longest jobs lg -> feasible jobs sigma -> has_makespan jobs sigma t -> (forall other t', feasible jobs other -> has_makespan jobs other t' -> (t <= t')%N) -> (IZR (Z.of_N t) + 1 <= f2r dc * IZR (Z.of_N lg))%R ->
  exists r, forall count, 0 < count -> exists x rest r', generate_jssp p count r = Ok (x :: rest, r') /\ exists x', evaluates dc x x' t.
Proof.
  intros V Std Hdc Lp Hlg F Mk Opt Room.
  assert (Ht : (t <= 2 ^ 50)%N).
  { assert (G : genes_for jobs (repeat f1 (2 * n_tasks jobs))).
    { split; [apply repeat_length|]. apply Forall_forall. intros x Hx. apply elem_of_list_In, repeat_spec in Hx as ->. split; [reflexivity|split; reflexivity]. }
    pose proof (reach_fresh jobs p dc _ G) as Re. destruct (reachable_evaluates nm jobs V dc Hdc p _ Std Lp Re) as (x & m & E & _ & _ & _ & s & o & t0 & _ & _ & _ & _ & _ & best & Fb & Mb).
    pose proof (reachable_upper nm jobs V dc Hdc p _ x m Std Lp Re E). specialize (Opt _ _ Fb Mb). destruct V as (_ & _ & _ & Wk). lia. }
  destruct (within_reach nm jobs dc p lg sigma t V Std Hdc Lp Hlg F Mk Ht Room) as (c & G & (r & Hr) & x & m & start & E & Hm & _).
  exists r. intros count Hc. destruct (Hr count Hc) as (rest & r' & Eg). exists (fresh p c), rest, r'. split; [exact Eg|]. exists x.
  destruct (reachable_evaluates nm jobs V dc Hdc p _ Std Lp (reach_fresh jobs p dc _ G)) as (x1 & m1 & E1 & _ & _ & _ & s & o & t0 & _ & _ & _ & _ & _ & best & Fb & Mb).
  destruct (evaluates_det dc _ x m x1 m1 E E1) as [-> ->]. specialize (Opt _ _ Fb Mb). replace t with m1 by lia. exact E1.
Qed.

(** ** The populations that can be drawn *)
Notation drawn := (fun x : f64 => exists k, (k < 2 ^ 52)%N /\ x = f_unit 52 k).
Lemma points_drawn d cs : Forall (fun c => length c = d) cs -> forall r : rng, (forall i x, concat cs !! i = Some x -> x = f_unit 52 (r i mod 2 ^ 52)) ->
  (repeatM (length cs) (one_point (replicate d (f0, f1))) r).1 = cs.
Proof.
  induction 1 as [|c cs Hc _ IH]; intros r Hr; [reflexivity|]. cbn [length repeatM]. destruct (one_point_draws (replicate d (f0, f1)) r) as [E1 E2]. destruct (one_point _ r) as [c' r1]. cbn [fst snd] in E1, E2.
  rewrite replicate_length in E1. subst r1. specialize (IH (rng_skip d r)). destruct (repeatM (length cs) _ (rng_skip d r)) as [rest r2]. cbn [fst] in IH |- *. rewrite IH.
  - f_equal. rewrite E2. apply list_eq. intros i. rewrite list_lookup_imap. destruct (decide (i < d)) as [Hi|Hi].
    + rewrite lookup_replicate_2 by exact Hi. destruct (lookup_lt_is_Some_2 c i) as [x Hx]; [lia|]. rewrite Hx. cbn. rewrite scale_unit by (apply N.mod_lt; discriminate). f_equal. symmetry. apply Hr. cbn [concat]. rewrite lookup_app_l by lia. exact Hx.
    + rewrite (proj1 (lookup_replicate_None d (f0, f1) i)) by lia. rewrite (lookup_ge_None_2 c i) by lia. reflexivity.
  - intros i x Hx. rewrite AcoTspGenProofs.rng_skip_at. apply Hr. cbn [concat]. rewrite lookup_app_r by lia. replace (d + i - length c) with i by lia. exact Hx.
Qed.
Lemma points_drawn_only d n : forall r, Forall (fun c => length c = d /\ Forall drawn c) (repeatM n (one_point (replicate d (f0, f1))) r).1.
Proof.
  induction n as [|n IH]; intros r; [constructor|]. cbn [repeatM]. destruct (one_point_draws (replicate d (f0, f1)) r) as [_ E2]. destruct (one_point _ r) as [c r1]. cbn [fst snd] in E2.
  specialize (IH r1). destruct (repeatM n _ r1) as [rest r2]. cbn [fst] in *. constructor; [|exact IH]. subst c. split; [rewrite imap_length, replicate_length; reflexivity|].
  apply Forall_lookup_2. intros i x Hx. rewrite list_lookup_imap in Hx. destruct (replicate d (f0, f1) !! i) as [q|] eqn:Eq; [|discriminate]. apply lookup_replicate in Eq as [-> _]. injection Hx as <-.
  assert (L : (r i mod 2 ^ 52 < 2 ^ 52)%N) by (apply N.mod_lt; discriminate). exists (r i mod 2 ^ 52)%N. split; [exact L|]. apply scale_unit, L.
Qed.
Theorem drawn_populations nm jobs p pop : valid_shop nm jobs -> load nm jobs = Ok p ->
  (exists r r', generate_jssp p (length pop) r = Ok (pop, r')) <-> exists cs, pop = map (fresh p) cs /\ Forall (fun c => length c = 2 * n_tasks jobs /\ Forall drawn c) cs.
Proof.
  intros V Lp. rewrite load_spec in Lp by apply V. injection Lp as <-. set (p := Provider _ _).
  assert (Eg : forall count r, generate_jssp p count r = Ok (map (fresh p) (repeatM count (one_point (replicate (2 * n_tasks jobs) (f0, f1))) r).1, (repeatM count (one_point (replicate (2 * n_tasks jobs) (f0, f1))) r).2)).
  { intros count r. unfold generate_jssp, p. cbn [p_ops]. rewrite shop_ops_length. rewrite decide_True by lia. replace (n_tasks jobs + 2 - 2) with (n_tasks jobs) by lia.
    unfold generate_with_single_constraint, generate_with_constraints. rewrite replicate_length, bool_decide_eq_true_2 by reflexivity. cbn [rassert mbind outcome_bind]. destruct (repeatM count _ r) as [cs r2]. reflexivity. }
  split.
  - intros (r & r' & E). rewrite Eg in E. injection E as E _. eexists. split; [symmetry; exact E|]. apply points_drawn_only.
  - intros (cs & -> & F). destruct (drawn_stream (concat cs)) as (r & Hr).
    { apply Forall_forall. intros x Hx. apply elem_of_list_In, in_concat in Hx as (c & Hc & Hx). apply elem_of_list_In in Hc, Hx. rewrite Forall_forall in F. destruct (F c Hc) as [_ Fc]. rewrite Forall_forall in Fc. exact (Fc x Hx). }
    exists r. eexists. rewrite map_length, Eg. rewrite (points_drawn (2 * n_tasks jobs) cs); [reflexivity| |exact Hr]. eapply Forall_impl; [exact F|]. intros c [H _]. exact H.
Qed.
