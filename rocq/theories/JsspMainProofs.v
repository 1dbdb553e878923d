(** * The run of the job shop program and its log *)
From Verif Require Export JsspStringProofs.
Open Scope nat_scope.

(** ** The average distance *)
Lemma ofold_app {A B} (f : A -> B -> outcome A) l1 : forall l2 a, ofold f a (l1 ++ l2) = (b ← ofold f a l1; ofold f b l2).
Proof. induction l1 as [|x l1 IH]; intros l2 a; cbn [ofold app]; [reflexivity|]. destruct (f a x); [apply IH|reflexivity|reflexivity]. Qed.
Lemma distance_eq a b : 0 < length a -> 0 < length b -> jssp_distance a b = Ok (gene_distance a b).
Proof. destruct a, b; cbn; intros H1 H2; [lia|lia|lia|reflexivity]. Qed.
Notation far x y := (gene_distance (j_chromosome x) (j_chromosome y)).
Lemma inner_distance pop i x : pop !! i = Some x -> Forall (fun x => 0 < length (j_chromosome x)) pop -> forall count s a, a + count <= length pop ->
  ofold (fun s j => a ← index pop i; b ← index pop j; d ← jssp_distance (j_chromosome a) (j_chromosome b); Ok (fadd s d)) s (seq a count) = Ok (foldl fadd s (map (fun y => far x y) (take count (drop a pop)))).
Proof.
  intros Hx F. rewrite (index_eq _ _ _ Hx). cbn [mbind outcome_bind]. induction count as [|count IH]; intros s a H; [reflexivity|]. cbn [seq ofold].
  destruct (lookup_lt_is_Some_2 pop a ltac:(lia)) as [y Hy]. rewrite (index_eq _ _ _ Hy). cbn [mbind outcome_bind]. rewrite Forall_forall in F. rewrite distance_eq by (apply F; eapply elem_of_list_lookup_2; eauto). cbn [mbind outcome_bind].
  rewrite IH by lia. rewrite (drop_S pop y a Hy). reflexivity.
Qed.
Lemma pairs_length {A} (l : list A) : length (pairs l) = length l * (length l - 1) / 2.
Proof.
  assert (H : 2 * length (pairs l) = length l * (length l - 1)). { induction l as [|x l IH]; [reflexivity|]. cbn [pairs length]. rewrite app_length, map_length. destruct (length l) as [|n]; [lia|]. replace (S n - 1) with n in IH by lia. replace (S (S n) - 1) with (S n) by lia. lia. }
  rewrite <- H. rewrite Nat.mul_comm, Nat.div_mul by lia. reflexivity.
Qed.
Lemma outer_distance pop : Forall (fun x => 0 < length (j_chromosome x)) pop -> forall rest i s, drop i pop = rest -> i < length pop ->
  ofold (fun s i => ofold (fun s j => a ← index pop i; b ← index pop j; d ← jssp_distance (j_chromosome a) (j_chromosome b); Ok (fadd s d)) s (seq (i + 1) (length pop - (i + 1)))) s (seq i (length pop - 1 - i))
  = Ok (foldl fadd s (map (fun ab => far ab.1 ab.2) (pairs rest))).
Proof.
  intros F. induction rest as [|x rest IH]; intros i s E Hi; [apply (f_equal length) in E; rewrite drop_length in E; cbn in E; lia|].
  assert (Hx : pop !! i = Some x) by (rewrite <- (Nat.add_0_r i), <- lookup_drop, E; reflexivity). assert (Er : drop (S i) pop = rest) by (rewrite (drop_S pop x i Hx) in E; congruence).
  destruct (decide (S i < length pop)) as [Hs|Hs].
  - replace (length pop - 1 - i) with (S (length pop - 1 - S i)) by lia. cbn [seq ofold]. rewrite (inner_distance pop i x Hx F _ s (i + 1)) by lia.
    assert (Et : take (length pop - (i + 1)) (drop (i + 1) pop) = rest). { replace (i + 1) with (S i) by lia. rewrite Er. apply take_ge. rewrite <- Er, drop_length. lia. } rewrite Et. cbn [mbind outcome_bind]. rewrite (IH (S i) _ Er Hs).
    cbn [pairs]. rewrite map_app, foldl_app, map_map. reflexivity.
  - replace (length pop - 1 - i) with 0 by lia. assert (rest = []) as -> by (rewrite <- Er; apply drop_ge; lia). reflexivity.
Qed.
Lemma avg_distance_eq pop : pop <> [] -> Forall (fun x => 0 < length (j_chromosome x)) pop -> avg_distance pop = Ok (mean_distance pop).
Proof.
  intros Hne F. assert (Hl : 0 < length pop) by (destruct pop; [congruence|cbn; lia]). unfold avg_distance. rewrite bool_decide_eq_true_2 by exact Hl. cbn [rassert mbind outcome_bind]. pose proof (outer_distance pop F pop 0 f0 eq_refl Hl) as E. rewrite Nat.sub_0_r in E. rewrite E. cbn [mbind outcome_bind].
  unfold mean_distance. rewrite pairs_length. reflexivity.
Qed.

(** ** Best individuals *)
Lemma best_from_first l : forall b, first_best (b :: l) (best_from b l).
Proof.
  induction l as [|y l IH]; intros b; cbn [best_from]; [exists [], []; split; [reflexivity|]; split; intros z Hz; apply elem_of_nil in Hz; tauto|].
  destruct (N.ltb_spec (j_fitness y) (j_fitness b)) as [H|H].
  - destruct (IH y) as (before & after & E & H1 & H2). exists (b :: before), after. cbn [app]. rewrite E. split; [reflexivity|]. split; [|exact H2]. intros z [->|Hz]%elem_of_cons; [|exact (H1 z Hz)].
    destruct (best_from_spec l y) as [_ M]. specialize (M y ltac:(left)). lia.
  - destruct (IH b) as (before & after & E & H1 & H2). destruct before as [|b' before]; cbn [app] in E; injection E as Eb E.
    + exists [], (y :: l). split; [cbn; congruence|]. split; [intros z Hz; apply elem_of_nil in Hz; tauto|]. rewrite <- Eb. intros z [->|Hz]%elem_of_cons; [exact H|]. rewrite Eb. apply H2. rewrite <- E. exact Hz.
    + subst b'. exists (b :: y :: before), after. cbn [app]. split; [do 2 f_equal; exact E|]. split; [|exact H2]. intros z [->|[->|Hz]%elem_of_cons]%elem_of_cons; [apply H1; left| |apply H1; right; exact Hz]. specialize (H1 b ltac:(left)). lia.
Qed.
Lemma first_best_app l l' b b' : first_best l b -> first_best l' b' -> first_best (l ++ l') (if (j_fitness b' <? j_fitness b)%N then b' else b).
Proof.
  intros (u & v & -> & H1 & H2) (u' & v' & -> & H1' & H2'). destruct (N.ltb_spec (j_fitness b') (j_fitness b)) as [H|H].
  - exists ((u ++ b :: v) ++ u'), v'. split; [rewrite <- !app_assoc; reflexivity|]. split; [|exact H2']. intros y [Hy|Hy]%elem_of_app; [|exact (H1' y Hy)]. apply elem_of_app in Hy as [Hy|[->|Hy]%elem_of_cons]; [specialize (H1 y Hy); lia|exact H|specialize (H2 y Hy); lia].
  - exists u, (v ++ u' ++ b' :: v'). split; [rewrite <- app_assoc; reflexivity|]. split; [exact H1|]. intros y [Hy|Hy]%elem_of_app; [exact (H2 y Hy)|]. apply elem_of_app in Hy as [Hy|[->|Hy]%elem_of_cons]; [specialize (H1' y Hy); lia|exact H|specialize (H2' y Hy); lia].
Qed.
Lemma first_best_lowest l b : first_best l b -> lowest l (j_fitness b).
Proof. intros (u & v & -> & H1 & H2). split; [exists b; split; [apply elem_of_app; right; left|reflexivity]|]. intros x [Hx|[->|Hx]%elem_of_cons]%elem_of_app; [specialize (H1 x Hx); lia|lia|exact (H2 x Hx)]. Qed.
Lemma lowest_unique l m m' : lowest l m -> lowest l m' -> m = m'.
Proof. intros [(x & Hx & <-) H] [(x' & Hx' & <-) H']. specialize (H x' Hx'). specialize (H' x Hx). lia. Qed.
Lemma first_best_in l b : first_best l b -> b ∈ l.
Proof. intros (u & v & -> & _). apply elem_of_app. right. left. Qed.

(** ** The log *)
Record logged (pops : list (list jind)) (log : jssp_log) (best : jind) : Prop := {
  lg_pop : log_population log = imap (fun g pop => (g, length pop, mean_distance pop)) pops;
  lg_gen : length (log_bestingen log) = length pops - 1;
  lg_gens : forall g pop m, pops !! S g = Some pop -> lowest pop m -> log_bestingen log !! g = Some (S g, m);
  lg_new : forall g m, (g, m) ∈ log_newbest log <-> improves pops g m;
  lg_news : forall a g m b g' m' c, log_newbest log = a ++ (g, m) :: b ++ (g', m') :: c -> g < g';
  lg_best : first_best (concat pops) best }.
Lemma concat_snoc {A} (l : list (list A)) x : concat (l ++ [x]) = concat l ++ x.
Proof. rewrite concat_app. cbn. rewrite app_nil_r. reflexivity. Qed.
Lemma earlier_lowest pops best m : Forall (fun pop => pop <> []) pops -> first_best (concat pops) best ->
  (forall g pop m', pops !! g = Some pop -> lowest pop m' -> (m < m')%N) <-> (m < j_fitness best)%N.
Proof.
  intros Ne Fb. pose proof (first_best_in _ _ Fb) as Hin. destruct (first_best_lowest _ _ Fb) as [_ Min]. split.
  - intros H. apply elem_of_list_In, in_concat in Hin as (pop & Hp & Hb). apply elem_of_list_In in Hp, Hb. apply elem_of_list_lookup in Hp as [g Hg]. apply (H g pop (j_fitness best) Hg). split; [eauto|]. intros x Hx. apply Min. apply elem_of_list_In, in_concat. exists pop.
    split; apply elem_of_list_In; [eapply elem_of_list_lookup_2, Hg|exact Hx].
  - intros H g pop m' Hg [(x & Hx & <-) _]. assert (Hle : (j_fitness best <= j_fitness x)%N); [|lia]. apply Min. apply elem_of_list_In, in_concat. exists pop. split; apply elem_of_list_In; [eapply elem_of_list_lookup_2, Hg|exact Hx].
Qed.
Lemma logged_start pop b : first_best pop b -> logged [pop] (JLog [(0, length pop, mean_distance pop)] [(0, j_fitness b)] [] None) b.
Proof.
  intros Fb. pose proof (first_best_lowest _ _ Fb) as Lb. constructor; cbn [log_population log_newbest log_bestingen concat imap].
  - reflexivity.
  - reflexivity.
  - intros g p m H. discriminate.
  - intros g m. split.
    + intros H. apply elem_of_list_singleton in H as [= -> ->]. split; [exists pop; split; [reflexivity|exact Lb]|]. intros g' p m' H. lia.
    + intros [(p & Hp & Lp) _]. destruct g as [|g]; [|discriminate]. injection Hp as <-. rewrite (lowest_unique _ _ _ Lp Lb). left.
  - intros a g m b' g' m' c H. exfalso. apply (f_equal length) in H. rewrite app_length in H. cbn in H. rewrite app_length in H. cbn in H. lia.
  - rewrite app_nil_r. exact Fb.
Qed.
Lemma logged_step pops log best pop b : pops <> [] -> Forall (fun pop => pop <> []) pops -> logged pops log best -> first_best pop b ->
  logged (pops ++ [pop]) (JLog (log_population log ++ [(length pops, length pop, mean_distance pop)]) (log_newbest log ++ (if (j_fitness b <? j_fitness best)%N then [(length pops, j_fitness b)] else []))
    (log_bestingen log ++ [(length pops, j_fitness b)]) (log_output log)) (if (j_fitness b <? j_fitness best)%N then b else best).
Proof.
  intros Hp Ne L Fb. pose proof (first_best_lowest _ _ Fb) as Lb. assert (Hl : 0 < length pops) by (destruct pops; [congruence|cbn; lia]). destruct L as [L1 L2 L3 L4 L5 L6]. constructor; cbn [log_population log_newbest log_bestingen].
  - rewrite imap_app. cbn. rewrite Nat.add_0_r, L1. reflexivity.
  - rewrite !app_length. cbn. lia.
  - intros g p m Hg Lm. destruct (decide (S g < length pops)) as [H|H].
    + rewrite lookup_app_l in Hg by exact H. rewrite lookup_app_l by lia. exact (L3 g p m Hg Lm).
    + pose proof (lookup_lt_Some _ _ _ Hg) as Hlt. rewrite app_length in Hlt. cbn in Hlt. assert (Eg : S g = length pops) by lia. rewrite Eg in *. rewrite lookup_app_r in Hg by lia. rewrite Nat.sub_diag in Hg. injection Hg as <-.
      rewrite lookup_app_r by lia. replace (g - length (log_bestingen log)) with 0 by lia. cbn. rewrite (lowest_unique _ _ _ Lm Lb). reflexivity.
  - assert (Old : forall g m, improves (pops ++ [pop]) g m <-> (g < length pops /\ improves pops g m) \/ (g = length pops /\ m = j_fitness b /\ (j_fitness b < j_fitness best)%N)).
    { intros g m. split.
      - intros [(p & Hg & Lm) H]. destruct (decide (g < length pops)) as [Hlt|Hlt].
        + left. split; [exact Hlt|]. rewrite lookup_app_l in Hg by exact Hlt. split; [eauto|]. intros g' p' m' Hg' Hp' Lm'. apply (H g' p' m' Hg'); [|exact Lm']. rewrite lookup_app_l by lia. exact Hp'.
        + right. pose proof (lookup_lt_Some _ _ _ Hg) as Hlt'. rewrite app_length in Hlt'. cbn in Hlt'. assert (g = length pops) as -> by lia. rewrite lookup_app_r in Hg by lia. rewrite Nat.sub_diag in Hg. injection Hg as <-. pose proof (lowest_unique _ _ _ Lm Lb) as ->.
          split; [reflexivity|]. split; [reflexivity|]. apply (earlier_lowest pops best _ Ne L6). intros g' p' m' Hp' Lm'. apply (H g' p' m'); [exact (lookup_lt_Some _ _ _ Hp')| |exact Lm']. rewrite lookup_app_l by exact (lookup_lt_Some _ _ _ Hp'). exact Hp'.
      - intros [[Hlt [(p & Hg & Lm) H]]|[-> [-> H]]].
        + split; [exists p; split; [rewrite lookup_app_l by exact Hlt; exact Hg|exact Lm]|]. intros g' p' m' Hg' Hp' Lm'. rewrite lookup_app_l in Hp' by lia. exact (H g' p' m' Hg' Hp' Lm').
        + split; [exists pop; split; [rewrite lookup_app_r by lia; rewrite Nat.sub_diag; reflexivity|exact Lb]|]. intros g' p' m' Hg' Hp' Lm'. rewrite lookup_app_l in Hp' by lia. revert g' p' m' Hg' Hp' Lm'.
          intros g' p' m' _. apply (proj2 (earlier_lowest pops best _ Ne L6) H). }
    intros g m. rewrite Old, elem_of_app, L4. split.
    + intros [H|H]; [left; split; [|exact H]|right]. { destruct H as [(p & Hg & _) _]. exact (lookup_lt_Some _ _ _ Hg). } destruct (N.ltb_spec (j_fitness b) (j_fitness best)) as [Hb|Hb]; [|apply elem_of_nil in H; tauto]. apply elem_of_list_singleton in H as [= -> ->]. auto.
    + intros [[_ H]|[-> [-> H]]]; [left; exact H|right]. destruct (N.ltb_spec (j_fitness b) (j_fitness best)) as [Hb|Hb]; [left|lia].
  - destruct (j_fitness b <? j_fitness best)%N; [|rewrite app_nil_r; exact L5]. intros u g m v g' m' w E. destruct w as [|y w] using rev_ind.
    + change (u ++ (g, m) :: v ++ [(g', m')]) with (u ++ ((g, m) :: v) ++ [(g', m')]) in E. rewrite app_assoc in E. apply app_inj_tail in E as [E [= <- <-]]. assert (H : (g, m) ∈ log_newbest log) by (rewrite E; apply elem_of_app; right; left).
      apply L4 in H as [(p & Hg & _) _]. exact (lookup_lt_Some _ _ _ Hg).
    + clear IHw. change (u ++ (g, m) :: v ++ (g', m') :: w ++ [y]) with (u ++ ((g, m) :: v) ++ ((g', m') :: w) ++ [y]) in E. rewrite !app_assoc in E. apply app_inj_tail in E as [E _]. rewrite <- !app_assoc in E. exact (L5 _ _ _ _ _ _ _ E).
  - rewrite concat_snoc. apply first_best_app; assumption.
Qed.
