(** * Whole runs with the WeakParent and Noop replacements *)
From Verif Require Export ReplacementProofs GaProofs WeakRunSpec.
Open Scope nat_scope.

Section Weak.
Context {G : Type}.
Notation ind := (individual G).
Implicit Types pop ch : list ind.

Lemma raised_trans pop1 pop2 pop3 : raised pop1 pop2 -> raised pop2 pop3 -> raised pop1 pop3.
Proof.
  intros [A B] [C D]. split.
  - intros z Hz. destruct (C z Hz) as (y & Hy & Ly). destruct (A y Hy) as (x & Hx & Lx). exists x. split; [exact Hx|]. eapply fle_trans; eassumption.
  - intros x Hx. destruct (B x Hx) as (y & Hy & Ly). destruct (D y Hy) as (z & Hz & Lz). exists z. split; [exact Hz|]. eapply fle_trans; eassumption.
Qed.
Lemma raised_refl pop : comparable_all pop -> raised pop pop.
Proof. unfold comparable_all. rewrite Forall_forall. intros H. split; intros x Hx; exists x; (split; [exact Hx|]); apply fle_refl, H, Hx. Qed.

Lemma split_two {A} (l : list A) i a b : l !! i = Some a -> l !! (i + 1) = Some b -> exists pre post, l = pre ++ a :: b :: post /\ length pre = i.
Proof.
  intros Ha Hb. exists (take i l), (drop (S (S i)) l). split.
  - rewrite <- (take_drop i l) at 1. f_equal. rewrite (drop_S _ _ _ Ha). f_equal. rewrite Nat.add_1_r in Hb. exact (drop_S _ _ _ Hb).
  - apply take_length_le. apply lookup_lt_Some in Ha. lia.
Qed.
(** The parents of a family are enough to compare: children with a NaN fitness never win. *)
Lemma family_raises (a b c d : ind) : is_nan (fitness a) = false -> is_nan (fitness b) = false ->
  let '(x, y, z, w) := family a b c d in
  (exists p, (p = a \/ p = b) /\ fle (fitness p) (fitness x) = true /\ fle (fitness p) (fitness y) = true) /\
  fle (fitness a) (fitness x) = true /\ fle (fitness b) (fitness x) = true.
Proof.
  intros Na Nb. unfold family.
  assert (exists A B, (if ind_lt a b then (b, a) else (a, b)) = (A, B) /\ is_nan (fitness A) = false /\ is_nan (fitness B) = false /\
    fle (fitness B) (fitness A) = true /\ ((A = a /\ B = b) \/ (A = b /\ B = a))) as (A & B & E & NA & NB & HAB & HE).
  { unfold ind_lt. destruct (flt (fitness a) (fitness b)) eqn:L.
    - exists b, a. split; [reflexivity|]. split; [exact Nb|]. split; [exact Na|]. split; [apply flt_le, L|auto].
    - exists a, b. split; [reflexivity|]. split; [exact Na|]. split; [exact Nb|]. split; [apply not_flt_fle; assumption|auto]. }
  rewrite E. destruct (if ind_lt c d then (d, c) else (c, d)) as [C D]. unfold ind_gt, ind_lt.
  assert (Hends : forall x y : ind, fle (fitness A) (fitness x) = true -> fle (fitness B) (fitness y) = true ->
    (exists p, (p = a \/ p = b) /\ fle (fitness p) (fitness x) = true /\ fle (fitness p) (fitness y) = true) /\
    fle (fitness a) (fitness x) = true /\ fle (fitness b) (fitness x) = true).
  { intros x y Hx Hy. assert (HBx : fle (fitness B) (fitness x) = true) by exact (fle_trans _ _ _ HAB Hx).
    split; [exists B; split; [destruct HE as [[-> ->]|[-> ->]]; auto|auto]|]. destruct HE as [[-> ->]|[-> ->]]; auto. }
  destruct (flt (fitness A) (fitness C)) eqn:L1.
  - destruct (flt (fitness A) (fitness D)) eqn:L2; apply Hends.
    + apply flt_le, L1.
    + eapply fle_trans; [exact HAB|apply flt_le, L2].
    + apply flt_le, L1.
    + exact HAB.
  - destruct (flt (fitness B) (fitness C)) eqn:L2; apply Hends.
    + apply fle_refl, NA.
    + apply flt_le, L2.
    + apply fle_refl, NA.
    + apply fle_refl, NB.
Qed.
Lemma weak_parent_step_raises pop ch i pop' ch' : comparable_all pop -> weak_parent_step (pop, ch) i = Ok (pop', ch') ->
  comparable_all pop' /\ raised pop pop' /\ length pop' = length pop.
Proof.
  intros Np H.
  assert (exists a b c d, pop !! i = Some a /\ pop !! (i + 1) = Some b /\ ch !! i = Some c /\ ch !! (i + 1) = Some d) as (a & b & c & d & Ha & Hb & Hc & Hd).
  { unfold weak_parent_step in H. apply obind_Ok in H as (a & Ha & H). apply obind_Ok in H as (b & Hb & H). apply obind_Ok in H as (pop1 & _ & H).
    apply obind_Ok in H as (c & Hc & H). apply obind_Ok in H as (d & Hd & H). exists a, b, c, d. split_and!; apply index_Ok; assumption. }
  destruct (split_two _ _ _ _ Ha Hb) as (pre & post & -> & L1). destruct (split_two _ _ _ _ Hc Hd) as (cpre & cpost & -> & L2).
  pose proof (weak_parent_step_family pre cpre a b c d post cpost i L1 L2) as E.
  unfold comparable_all in Np. apply Forall_app in Np as [Np1 Np2]. apply Forall_cons in Np2 as [Na Np2]. apply Forall_cons in Np2 as [Nb Np2].
  pose proof (family_raises a b c d Na Nb) as F. destruct (family a b c d) as [[[x y] z] w]. rewrite E in H. injection H as <- <-.
  destruct F as ((p & Hp & Fx & Fy) & Fa & Fb).
  split; [apply Forall_app; split; [exact Np1|]; constructor; [exact (fle_nan_r _ _ Fx)|]; constructor; [exact (fle_nan_r _ _ Fy)|exact Np2]|].
  rewrite Forall_forall in Np1, Np2.
  split; [split|rewrite !app_length; reflexivity].
  - intros q Hq. rewrite elem_of_app, !elem_of_cons in Hq. setoid_rewrite elem_of_app. setoid_rewrite elem_of_cons. setoid_rewrite elem_of_cons.
    assert (Hin : p ∈ pre \/ p = a \/ p = b \/ p ∈ post) by (destruct Hp as [->| ->]; auto).
    destruct Hq as [Hq|[->|[->|Hq]]]; [exists q|exists p|exists p|exists q]; (split; [tauto|]); first [assumption|apply fle_refl; auto].
  - intros q Hq. rewrite elem_of_app, !elem_of_cons in Hq. setoid_rewrite elem_of_app. setoid_rewrite elem_of_cons. setoid_rewrite elem_of_cons.
    destruct Hq as [Hq|[->|[->|Hq]]]; [exists q|exists x|exists x|exists q]; (split; [tauto|]); first [assumption|apply fle_refl; auto].
Qed.
Lemma weak_parent_fold_raises l : forall pop ch pop' ch', comparable_all pop -> ofold weak_parent_step (pop, ch) l = Ok (pop', ch') ->
  comparable_all pop' /\ raised pop pop' /\ length pop' = length pop.
Proof.
  induction l as [|i l IH]; intros pop ch pop' ch' Np H; cbn [ofold] in H.
  - injection H as <- <-. split; [exact Np|]. split; [apply raised_refl, Np|reflexivity].
  - apply obind_Ok in H as ([pop1 ch1] & H1 & H). destruct (weak_parent_step_raises _ _ _ _ _ Np H1) as (N1 & R1 & P1).
    destruct (IH _ _ _ _ N1 H) as (N2 & R2 & P2). split; [exact N2|]. split; [eapply raised_trans; eassumption|]. congruence.
Qed.
Lemma weak_parent_raises debug pop ch pop' : comparable_all pop -> weak_parent debug pop ch = Ok pop' -> raised pop pop' /\ length pop' = length pop.
Proof.
  intros Np H. unfold weak_parent in H. apply obind_Ok in H as ([] & _ & H). apply obind_Ok in H as ([] & _ & H). apply obind_Ok in H as ([] & _ & H).
  apply obind_Ok in H as ([p c] & HF & H). injection H as ->. destruct (weak_parent_fold_raises _ _ _ _ _ Np HF) as (_ & R & P). auto.
Qed.
Lemma weak_parent_one debug pop ch pop' : length pop = 1 -> weak_parent debug pop ch = Ok pop' -> pop' = pop.
Proof.
  intros Hl H. unfold weak_parent in H. apply obind_Ok in H as ([] & _ & H). apply obind_Ok in H as ([] & _ & H). apply obind_Ok in H as ([] & _ & H).
  apply obind_Ok in H as ([p c] & HF & H). injection H as ->. rewrite Hl in HF. cbn in HF. injection HF as <- <-. reflexivity.
Qed.

(** Whatever the fitness values: the result consists of parents and children. *)
Lemma weak_parent_step_perm pop ch i pop' ch' : weak_parent_step (pop, ch) i = Ok (pop', ch') -> pop' ++ ch' ≡ₚ pop ++ ch.
Proof.
  intros H.
  assert (exists a b c d, pop !! i = Some a /\ pop !! (i + 1) = Some b /\ ch !! i = Some c /\ ch !! (i + 1) = Some d) as (a & b & c & d & Ha & Hb & Hc & Hd).
  { unfold weak_parent_step in H. apply obind_Ok in H as (a & Ha & H). apply obind_Ok in H as (b & Hb & H). apply obind_Ok in H as (pop1 & _ & H).
    apply obind_Ok in H as (c & Hc & H). apply obind_Ok in H as (d & Hd & H). exists a, b, c, d. split_and!; apply index_Ok; assumption. }
  destruct (split_two _ _ _ _ Ha Hb) as (pre & post & -> & L1). destruct (split_two _ _ _ _ Hc Hd) as (cpre & cpost & -> & L2).
  pose proof (weak_parent_step_family pre cpre a b c d post cpost i L1 L2) as E.
  unfold family in E. destruct (ind_lt a b), (ind_lt c d); cbn [fst snd] in E; repeat match type of E with context [if ?x then _ else _] => destruct x end; rewrite E in H; injection H as <- <-; solve_Permutation.
Qed.
Lemma weak_parent_members debug pop ch pop' : weak_parent debug pop ch = Ok pop' -> Forall (fun x => x ∈ pop \/ x ∈ ch) pop'.
Proof.
  intros H. unfold weak_parent in H. apply obind_Ok in H as ([] & _ & H). apply obind_Ok in H as ([] & _ & H). apply obind_Ok in H as ([] & _ & H).
  apply obind_Ok in H as ([p c] & HF & H). injection H as ->. assert (P : pop' ++ c ≡ₚ pop ++ ch).
  { revert HF. generalize (step_by_2 (length pop - 1)) as l. intros l. revert pop ch. induction l as [|i l IH]; intros pop ch HF; cbn [ofold] in HF; [injection HF as <- <-; reflexivity|].
    apply obind_Ok in HF as ([pop1 ch1] & H1 & HF). rewrite (IH _ _ HF). eapply weak_parent_step_perm, H1. }
  apply Forall_forall. intros x Hx. apply elem_of_app. rewrite <- P. apply elem_of_app. auto.
Qed.

Section Run.
Context {St : Type} (cfg : config G St).
Lemma evaluate_idem (q : list ind) : Forall (fun x => fitness x = op_fitness cfg (chromosome x)) q -> evaluate (op_fitness cfg) q = q.
Proof. intros H. induction H as [|x xs Hx Hxs IH]; [reflexivity|]. unfold evaluate in *. cbn [fmap list_fmap]. rewrite <- Hx. f_equal; [destruct x; reflexivity|exact IH]. Qed.
Lemma evaluate_evaluated (q : list ind) : Forall (fun x => fitness x = op_fitness cfg (chromosome x)) (evaluate (op_fitness cfg) q).
Proof. unfold evaluate. rewrite Forall_fmap. apply Forall_true. reflexivity. Qed.

Section Raising.
Context (HNext : forall m q s q' s', Forall (fun x => fitness x = op_fitness cfg (chromosome x)) q -> next_population cfg m q s q' s' ->
  (comparable_all q -> raised q q' /\ length q' = length q) /\ (length q = 1 -> q' = q)).
Lemma run_step ck m0 s evs b m s' : run cfg ck m0 s = Ok (evs, b, m, s') ->
  (forall j q, populations evs !! j = Some q -> Forall (fun x => fitness x = op_fitness cfg (chromosome x)) q) /\
  (forall j q q', populations evs !! j = Some q -> populations evs !! S j = Some q' ->
    (comparable_all q -> raised q q' /\ length q' = length q) /\ (length q = 1 -> q' = q)).
Proof.
  intros H. destruct (run_flow _ _ _ _ _ _ _ _ H) as (raw & s0 & ss & _ & Hh & _ & _ & Hl & _ & _ & Hstep).
  assert (Hnext : forall j q q', populations evs !! j = Some q -> populations evs !! S j = Some q' -> exists mm t1 t2, next_population cfg mm q t1 q' t2).
  { intros j q q' Hq Hq'.
    assert (Hs1 : is_Some (ss !! j)) by (apply lookup_lt_is_Some; rewrite Hl; apply lookup_lt_Some in Hq; exact Hq). destruct Hs1 as [t1 Ht1].
    assert (Hs2 : is_Some (ss !! S j)) by (apply lookup_lt_is_Some; rewrite Hl; apply lookup_lt_Some in Hq'; exact Hq'). destruct Hs2 as [t2 Ht2].
    destruct (Hstep j q t1 q' t2 Hq Ht1 Hq' Ht2) as (mm & _ & Hn). eauto. }
  assert (Hev : forall j q, populations evs !! j = Some q -> Forall (fun x => fitness x = op_fitness cfg (chromosome x)) q).
  { intros [|j] q Hq.
    - rewrite <- head_lookup, Hh in Hq. injection Hq as <-. apply evaluate_evaluated.
    - assert (Hj : is_Some (populations evs !! j)) by (apply lookup_lt_is_Some; apply lookup_lt_Some in Hq; lia). destruct Hj as [p Hp].
      destruct (Hnext j p q Hp Hq) as (mm & t1 & t2 & (sel & u1 & pool & ch & u2 & ch' & u3 & raw' & _ & _ & _ & _ & _ & ->)). apply evaluate_evaluated. }
  split; [exact Hev|]. intros j q q' Hq Hq'. destruct (Hnext j q q' Hq Hq') as (mm & t1 & t2 & Hn). eapply HNext; [eapply Hev, Hq|exact Hn].
Qed.
Lemma populations_comparable ck m0 s evs b m s' j q : run cfg ck m0 s = Ok (evs, b, m, s') -> populations evs !! j = Some q -> 2 <= length q -> comparable_all q.
Proof.
  intros H Hq Hl. apply elem_of_list_lookup_2 in Hq. unfold populations in Hq. apply elem_of_list_omap in Hq as (e & He & Hq).
  eapply run_comparable; [exact H|exact He| |exact Hl]. destruct e; try discriminate Hq; exact Hq.
Qed.
Lemma run_raised ck m0 s evs b m s' : run cfg ck m0 s = Ok (evs, b, m, s') ->
  forall i j q q', i <= j -> populations evs !! i = Some q -> populations evs !! j = Some q' -> 2 <= length q -> raised q q'.
Proof.
  intros H. destruct (run_step _ _ _ _ _ _ _ H) as [_ Hstep].
  assert (K : forall i j q q', i <= j -> populations evs !! i = Some q -> populations evs !! j = Some q' -> 2 <= length q -> raised q q' /\ 2 <= length q').
  { intros i j q q' Hij. revert q'. induction Hij as [|j Hij IH]; intros q' Hq Hq' H2.
    - rewrite Hq in Hq'. injection Hq' as <-. split; [|exact H2]. apply raised_refl. exact (populations_comparable _ _ _ _ _ _ _ _ _ H Hq H2).
    - assert (Hj : is_Some (populations evs !! j)) by (apply lookup_lt_is_Some; apply lookup_lt_Some in Hq'; lia). destruct Hj as [p Hp].
      destruct (IH p Hq Hp H2) as [R1 L1]. destruct (Hstep j p q' Hp Hq') as [S1 _].
      destruct (S1 (populations_comparable _ _ _ _ _ _ _ _ _ H Hp L1)) as [R2 L2]. split; [eapply raised_trans; eassumption|lia]. }
  intros i j q q' Hij Hq Hq' H2. exact (proj1 (K i j q q' Hij Hq Hq' H2)).
Qed.
Lemma run_single ck m0 s evs b m s' q : run cfg ck m0 s = Ok (evs, b, m, s') -> head (populations evs) = Some q -> length q = 1 ->
  forall j q', populations evs !! j = Some q' -> q' = q.
Proof.
  intros H Hq H1. destruct (run_step _ _ _ _ _ _ _ H) as [_ Hstep]. induction j as [|j IH]; intros q' Hq'; [rewrite <- head_lookup, Hq in Hq'; congruence|].
  assert (Hj : is_Some (populations evs !! j)) by (apply lookup_lt_is_Some; apply lookup_lt_Some in Hq'; lia). destruct Hj as [p Hp].
  pose proof (IH p Hp) as ->. exact (proj2 (Hstep j q q' Hp Hq') H1).
Qed.
Lemma trace_no_new_best (gens : list gen_rec) (best : ind) : (forall r, r ∈ gens -> flt (fitness (gr_best r)) (fitness best) = false) ->
  omap new_best (loop_trace best gens) = [] /\ final_best best gens = best.
Proof.
  induction gens as [|r rest IH]; intros HF; [auto|]. rewrite loop_trace_cons, omap_app. cbn [final_best loop_trace].
  rewrite (HF r ltac:(left)). destruct (IH (fun r' Hr => HF r' ltac:(right; exact Hr))) as [E1 E2]. rewrite E1, E2. split; reflexivity.
Qed.
Lemma population_in (evs : list (event G)) (q : list ind) : (exists e, e ∈ evs /\ population_of e = Some q) -> exists j, populations evs !! j = Some q.
Proof. intros (e & He & Hq). apply elem_of_list_lookup. unfold populations. apply elem_of_list_omap. eauto. Qed.
Lemma run_initial_best ck m0 s evs b m s' : run cfg ck m0 s = Ok (evs, b, m, s') ->
  omap new_best evs = [b] /\ exists q, head (populations evs) = Some q /\ b ∈ q.
Proof.
  intros H. pose proof (run_raised _ _ _ _ _ _ _ H) as HRz.
  destruct (run_gens _ _ _ _ _ _ _ _ H) as (m1 & m2 & pop0 & best0 & gens & Ee & Eb & Hb0 & _ & _ & _ & _ & _ & Hg & _).
  assert (Ep : head (populations evs) = Some pop0) by (rewrite Ee; reflexivity).
  assert (Ep0 : populations evs !! 0 = Some pop0) by (rewrite <- head_lookup; exact Ep).
  pose proof (find_best_in _ _ Hb0) as Hin.
  destruct (trace_no_new_best gens best0) as [E1 E2].
  { intros r Hr. destruct (trace_shown best0 gens r Hr) as (e & He & Hq).
    assert (Hpop : exists j, populations evs !! j = Some (gr_pop r)).
    { apply population_in. exists e. split; [rewrite Ee; apply elem_of_app; right; apply elem_of_app; left; exact He|].
      destruct e; try discriminate Hq; try exact Hq. exfalso. clear -He. revert He. revert best0. induction gens as [|r0 rest IH]; intros best0 He; [inversion He|].
      rewrite loop_trace_cons in He. apply elem_of_app in He as [He|He]; [|eapply IH, He]. cbn [loop_trace] in He. rewrite app_nil_r in He.
      destruct (flt (fitness (gr_best r0)) (fitness best0)); cbn [app] in He; rewrite !elem_of_cons in He; repeat (destruct He as [He|He]; [discriminate He|]); inversion He. }
    destruct Hpop as [j Hj].
    apply elem_of_list_lookup in Hr as [i Hi]. destruct (Hg i r Hi) as (_ & Hf). assert (Hbr : gr_best r ∈ gr_pop r) by (apply find_best_in; tauto).
    destruct (decide (2 <= length pop0)) as [H2|H2].
    - pose proof (populations_comparable _ _ _ _ _ _ _ _ _ H Ep0 H2) as N0.
      destruct (find_best_min _ _ Hb0 N0) as [_ Hmin]. rewrite Forall_forall in Hmin.
      destruct (HRz 0 j pop0 (gr_pop r) ltac:(lia) Ep0 Hj H2) as [A _].
      destruct (A _ Hbr) as (a & Ha & La). rewrite flt_fle_neg.
      + assert (fle (fitness best0) (fitness (gr_best r)) = true) as -> by (eapply fle_trans; [apply Hmin, Ha|exact La]). reflexivity.
      + exact (fle_nan_r _ _ La).
      + unfold comparable_all in N0. rewrite Forall_forall in N0. apply N0, Hin.
    - destruct pop0 as [|x0 [|]]; [inversion Hin| |cbn in H2; lia].
      pose proof (run_single _ _ _ _ _ _ _ _ H Ep eq_refl j _ Hj) as Er. rewrite Er in Hbr. apply elem_of_list_singleton in Hbr, Hin. rewrite Hbr, Hin. apply flt_irrefl. }
  split; [|exists pop0; split; [exact Ep|rewrite Eb, E2; exact Hin]].
  rewrite Ee, !omap_app, E1, Eb, E2. reflexivity.
Qed.
End Raising.

Section WeakParent.
Context (debug : bool).
Context (HR : forall m pop ch s pop' s', op_replace cfg m pop ch s = Ok (pop', s') -> weak_parent debug pop ch = Ok pop').
Context (HC : op_requires_children_fitness cfg = true).
Lemma next_raised m q s q' s' : Forall (fun x => fitness x = op_fitness cfg (chromosome x)) q -> next_population cfg m q s q' s' ->
  (comparable_all q -> raised q q' /\ length q' = length q) /\ (length q = 1 -> q' = q).
Proof.
  intros Eq (sel & s1 & pool & ch & s2 & ch' & s3 & raw & _ & _ & _ & _ & Hr & ->). rewrite HC in Hr. apply HR in Hr.
  assert (Ei : evaluate (op_fitness cfg) raw = raw).
  { apply evaluate_idem. pose proof (weak_parent_members _ _ _ _ Hr) as Src. apply Forall_forall. intros x Hx. rewrite Forall_forall in Src, Eq. destruct (Src x Hx) as [Hs|Hs]; [auto|].
    pose proof (evaluate_evaluated ch') as Ev. rewrite Forall_forall in Ev. auto. }
  rewrite Ei. split; [intros Nq; exact (weak_parent_raises _ _ _ _ Nq Hr)|intros H1; exact (weak_parent_one _ _ _ _ H1 Hr)].
Qed.
End WeakParent.

Lemma noop_next m q s q' s' : (forall m pop ch s pop' s', op_replace cfg m pop ch s = Ok (pop', s') -> noop pop ch = Ok pop') ->
  Forall (fun x => fitness x = op_fitness cfg (chromosome x)) q -> next_population cfg m q s q' s' -> q' = q.
Proof.
  intros HR Eq (sel & s1 & pool & ch & s2 & ch' & s3 & raw & _ & _ & _ & _ & Hr & ->). apply HR in Hr. injection Hr as <-. apply evaluate_idem, Eq.
Qed.
End Run.

Lemma weak_run_raised {St} (cfg : config G St) debug :
  (forall m pop ch s pop' s', op_replace cfg m pop ch s = Ok (pop', s') -> weak_parent debug pop ch = Ok pop') -> op_requires_children_fitness cfg = true ->
  forall ck m0 s evs b m s', run cfg ck m0 s = Ok (evs, b, m, s') ->
  forall i j q q', i <= j -> populations evs !! i = Some q -> populations evs !! j = Some q' -> 2 <= length q -> raised q q'.
Proof. intros HR HC. apply run_raised. intros m q s q' s'. eapply next_raised; eassumption. Qed.
Lemma weak_run_best {St} (cfg : config G St) debug :
  (forall m pop ch s pop' s', op_replace cfg m pop ch s = Ok (pop', s') -> weak_parent debug pop ch = Ok pop') -> op_requires_children_fitness cfg = true ->
  forall ck m0 s evs b m s', run cfg ck m0 s = Ok (evs, b, m, s') ->
  omap new_best evs = [b] /\ exists q, head (populations evs) = Some q /\ b ∈ q.
Proof. intros HR HC. apply run_initial_best. intros m q s q' s'. eapply next_raised; eassumption. Qed.
Lemma noop_run_best {St} (cfg : config G St) :
  (forall m pop ch s pop' s', op_replace cfg m pop ch s = Ok (pop', s') -> noop pop ch = Ok pop') ->
  forall ck m0 s evs b m s', run cfg ck m0 s = Ok (evs, b, m, s') ->
  omap new_best evs = [b] /\ exists q, b ∈ q /\ Forall (fun q' => q' = q) (populations evs).
Proof.
  intros HR ck m0 s evs b m s' H. destruct (run_initial_best cfg) with (ck := ck) (m0 := m0) (s := s) (evs := evs) (b := b) (m := m) (s' := s') as (E & q & Hq & Hb); [|exact H|].
  { intros mm q t q' t' Eq Hn. rewrite (noop_next cfg mm q t q' t' HR Eq Hn). split; [|reflexivity]. intros N. split; [apply raised_refl, N|reflexivity]. }
  split; [exact E|]. exists q. split; [exact Hb|].
  destruct (run_flow _ _ _ _ _ _ _ _ H) as (raw & s0 & ss & _ & Hh & _ & _ & Hl & _ & _ & Hstep).
  assert (Hall : forall j q', populations evs !! j = Some q' -> q' = q).
  { assert (Eq : Forall (fun x => fitness x = op_fitness cfg (chromosome x)) q) by (rewrite Hq in Hh; injection Hh as ->; apply evaluate_evaluated).
    induction j as [|j IH]; intros q' Hq'; [rewrite <- head_lookup, Hq in Hq'; congruence|].
    assert (Hj : is_Some (populations evs !! j)) by (apply lookup_lt_is_Some; apply lookup_lt_Some in Hq'; lia). destruct Hj as [p Hp].
    assert (Hs1 : is_Some (ss !! j)) by (apply lookup_lt_is_Some; rewrite Hl; apply lookup_lt_Some in Hp; exact Hp). destruct Hs1 as [t1 Ht1].
    assert (Hs2 : is_Some (ss !! S j)) by (apply lookup_lt_is_Some; rewrite Hl; apply lookup_lt_Some in Hq'; exact Hq'). destruct Hs2 as [t2 Ht2].
    destruct (Hstep j p t1 q' t2 Hp Ht1 Hq' Ht2) as (mm & _ & Hn). pose proof (IH p Hp) as ->. eapply noop_next; eassumption. }
  apply Forall_forall. intros q' Hq'. apply elem_of_list_lookup in Hq' as [j Hj]. eauto.
Qed.
End Weak.
