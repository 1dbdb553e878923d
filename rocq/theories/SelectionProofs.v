(** * Proofs about the selection operators (no reals needed) *)
From Verif Require Export SelectionModel SelectionSpec.
Open Scope nat_scope.

(** ** Repetition *)
Lemma repeatO_post {A} (f : rng -> outcome (A * rng)) (P : A -> Prop) n : forall r l r',
  (forall r x r', f r = Ok (x, r') -> P x) ->
  repeatO n f r = Ok (l, r') -> length l = n /\ Forall P l.
Proof.
  induction n as [|n IH]; intros r l r' Hf H; cbn [repeatO] in H; [injection H as <- <-; auto|].
  apply obind_Ok in H as ([x r1] & H1 & H). apply obind_Ok in H as ([xs r2] & H2 & H). injection H as <- <-.
  destruct (IH _ _ _ Hf H2) as [Hl Hall]. cbn. split; [lia|]. constructor; eauto.
Qed.
Lemma repeatO_ok {A} (f : rng -> outcome (A * rng)) n : forall r,
  (forall r, exists x r', f r = Ok (x, r')) -> exists l r', repeatO n f r = Ok (l, r').
Proof.
  induction n as [|n IH]; intros r Hf; cbn [repeatO]; [eauto|].
  destruct (Hf r) as (x & r1 & ->). cbn [mbind outcome_bind]. destruct (IH r1 Hf) as (l & r2 & ->). cbn. eauto.
Qed.
Lemma repeatO_panic {A} (f : rng -> outcome (A * rng)) n r : 0 < n -> f r = Panic -> repeatO n f r = Panic.
Proof. intros Hn H. destruct n; [lia|]. cbn. rewrite H. reflexivity. Qed.
(** Any sequence of possible results of single steps is a possible result. *)
Lemma repeatO_surj {A} (f : rng -> outcome (A * rng)) (l : list A) rest :
  Forall (fun x => forall rest, exists r, f r = Ok (x, rest)) l ->
  exists r, repeatO (length l) f r = Ok (l, rest).
Proof.
  induction 1 as [|x xs Hx _ [r IH]]; [exists rest; reflexivity|].
  destruct (Hx r) as [r0 H0]. exists r0. cbn [length repeatO]. rewrite H0. cbn [mbind outcome_bind]. rewrite IH. reflexivity.
Qed.

Lemma omapM_index_ok {A} (l : list A) is : Forall (fun i => i < length l) is -> exists xs, omapM (index l) is = Ok xs.
Proof.
  induction 1 as [|i is Hi _ [xs IH]]; [exists []; reflexivity|].
  destruct (lookup_lt_is_Some_2 l i Hi) as [x Hx]. exists (x :: xs). cbn [omapM].
  rewrite (proj2 (index_Ok _ _ _) Hx). cbn [mbind outcome_bind]. rewrite IH. reflexivity.
Qed.

(** ** Surjectivity of the shuffling contract *)
Lemma shuffle_from_surj {A} i : forall (l l' : list A) rest,
  l' ≡ₚ l -> (i = 0 \/ i < length l) -> (forall k, i < k -> l' !! k = l !! k) ->
  exists r, shuffle_from i l r = Ok (l', rest).
Proof.
  induction i as [|i IH]; intros l l' rest Hp Hi Hk; cbn [shuffle_from].
  - exists rest. f_equal. f_equal. destruct l as [|x xs], l' as [|y ys].
    + reflexivity.
    + apply Permutation_length in Hp; discriminate.
    + apply Permutation_length in Hp; discriminate.
    + assert (ys = xs) as ->. { apply list_eq. intros k. apply (Hk (S k)). lia. }
      apply Permutation_app_inv_r with (l := xs) (l1 := [y]) (l2 := [x]) in Hp.
      apply Permutation_singleton_r in Hp. injection Hp as ->. reflexivity.
  - assert (Hlen : length l' = length l) by (rewrite Hp; reflexivity).
    destruct Hi as [Hi|Hi]; [discriminate|].
    destruct (lookup_lt_is_Some_2 l' (S i)) as [x Hx]; [lia|].
    assert (Ht : take (S (S i)) l' ≡ₚ take (S (S i)) l).
    { assert (Ed : drop (S (S i)) l' = drop (S (S i)) l).
      { apply list_eq. intros k. rewrite !lookup_drop. apply Hk. lia. }
      apply Permutation_app_inv_r with (l := drop (S (S i)) l). rewrite <- Ed at 1. rewrite !take_drop. exact Hp. }
    assert (Hin : x ∈ take (S (S i)) l).
    { rewrite <- Ht. apply elem_of_list_lookup. exists (S i). rewrite lookup_take by lia. exact Hx. }
    apply elem_of_list_lookup in Hin as [j Hj]. apply lookup_take_Some in Hj as [Hj Hji].
    destruct (proj2 (swap_ok_iff (S i) j l)) as [l1 H1]; [lia|].
    destruct (swap_Ok _ _ _ _ H1) as (a & b & Ha & Hb & El1).
    assert (b = x) as -> by congruence.
    destruct (IH l1 l' rest) as [r Hr].
    + rewrite Hp. symmetry. apply swap_perm with (1 := H1).
    + right. rewrite (swap_length _ _ _ _ H1). lia.
    + intros k Hki. rewrite El1, (insert_swap_lookup l (S i) j a x) by auto.
      unfold transp. repeat case_decide; subst; try lia.
      * congruence.
      * apply Hk; lia.
    + destruct (gen_range_surj 0 (S (S i) + 0) j r) as [r0 H0]; [lia|].
      exists r0. rewrite H0. cbn [mbind outcome_bind]. rewrite H1. cbn [mbind outcome_bind]. exact Hr.
Qed.
Lemma shuffle_surj {A} (l l' : list A) rest : l' ≡ₚ l -> exists r, shuffle l r = Ok (l', rest).
Proof.
  intros H. apply shuffle_from_surj; auto.
  - destruct l; cbn; [left; reflexivity|right; lia].
  - intros k Hk. assert (length l' = length l) by (rewrite H; reflexivity). rewrite !lookup_ge_None_2 by lia. reflexivity.
Qed.
Lemma sample_indices_surj len (l : list nat) rest : NoDup l -> Forall (fun i => i < len) l ->
  exists r, sample_indices len (length l) r = Ok (l, rest).
Proof.
  intros Hn Hl. unfold sample_indices.
  assert (Hsub : l ⊆+ seq 0 len).
  { apply NoDup_submseteq; auto. intros x Hx. rewrite Forall_forall in Hl. apply elem_of_seq. specialize (Hl x Hx). lia. }
  assert (Hle : length l <= len) by (apply submseteq_length in Hsub; rewrite seq_length in Hsub; exact Hsub).
  apply submseteq_Permutation in Hsub as [k Hk].
  destruct (shuffle_surj (seq 0 len) (l ++ k) rest) as [r Hr]; [symmetry; exact Hk|].
  exists r. rewrite decide_True by exact Hle. rewrite Hr. cbn [mbind outcome_bind]. rewrite take_app. reflexivity.
Qed.

Section Sel.
Context {G : Type}.
Notation population := (list (individual G)).
Implicit Types pop : population.

(** ** Random *)
Definition pick pop r : outcome (nat * rng) := '(i, r1) ← gen_range 0 (length pop) r; _ ← index pop i; Ok (i, r1).
Lemma pick_ok pop r : 0 < length pop -> exists i, pick pop r = Ok (i, rng_tail r) /\ i < length pop.
Proof.
  intros H. unfold pick. destruct (gen_range_is_Ok 0 (length pop) r H) as (i & -> & Hi). cbn [mbind outcome_bind].
  destruct (lookup_lt_is_Some_2 pop i) as [p Hp]; [lia|]. rewrite (proj2 (index_Ok _ _ _) Hp). cbn.
  exists i. split; [reflexivity|lia].
Qed.
Lemma pick_surj pop i rest : i < length pop -> exists r, pick pop r = Ok (i, rest).
Proof.
  intros H. destruct (gen_range_surj 0 (length pop) i rest) as [r Hr]; [lia|]. exists r. unfold pick.
  rewrite Hr. cbn [mbind outcome_bind]. destruct (lookup_lt_is_Some_2 pop i) as [p Hp]; [lia|].
  rewrite (proj2 (index_Ok _ _ _) Hp). reflexivity.
Qed.
Lemma random_sel_eq kind count pop r : random_sel kind count pop r =
  (_ ← rassert (bool_decide (0 < length pop)); '(sel, r1) ← repeatO count (pick pop) r; Ok (sel, after_clone kind r r1)).
Proof. reflexivity. Qed.
Lemma random_sel_spec kind count pop r :
  (pop = [] -> random_sel kind count pop r = Panic) /\
  (pop <> [] -> exists sel r', random_sel kind count pop r = Ok (sel, r') /\
     length sel = count /\ Forall (fun i => i < length pop) sel) /\
  (forall sel, pop <> [] -> length sel = count -> Forall (fun i => i < length pop) sel ->
     exists r r', random_sel kind count pop r = Ok (sel, r')).
Proof.
  split_and!.
  - intros ->. reflexivity.
  - intros H%length_pos_ne. rewrite random_sel_eq, bool_decide_true by exact H. cbn [rassert mbind outcome_bind].
    destruct (repeatO_ok (pick pop) count r) as (l & r1 & E).
    { intros r0. destruct (pick_ok pop r0 H) as (i & Hi & _). eauto. }
    rewrite E. cbn. eexists _, _. split; [reflexivity|].
    eapply repeatO_post in E; [exact E|]. intros r0 i r0' Hr0.
    destruct (pick_ok pop r0 H) as (i' & E' & Hi'). congruence.
  - intros sel H%length_pos_ne <- Hall.
    destruct (repeatO_surj (pick pop) sel (fun _ => 0%N)) as [r0 E].
    { eapply Forall_impl; [exact Hall|]. intros i Hi rest. apply pick_surj; auto. }
    exists r0. rewrite random_sel_eq, bool_decide_true by exact H. cbn [rassert mbind outcome_bind]. rewrite E. cbn. eauto.
Qed.
(** With a value-type RNG the operator's RNG never advances: the same positions are returned every time. *)
Lemma random_sel_same count pop r sel r' : random_sel ValueRng count pop r = Ok (sel, r') -> r' = r.
Proof. rewrite random_sel_eq. intros H. apply obind_Ok in H as ([] & _ & H). apply obind_Ok in H as ([sel1 r1] & _ & H). injection H as _ <-. reflexivity. Qed.

(** ** UniqueRandom *)
Lemma unique_random_spec count pop r :
  (length pop < count -> unique_random count pop r = Panic) /\
  (count <= length pop -> exists sel r', unique_random count pop r = Ok (sel, r') /\
     length sel = count /\ Forall (fun i => i < length pop) sel /\ NoDup sel) /\
  (forall sel, length sel = count -> Forall (fun i => i < length pop) sel -> NoDup sel ->
     exists r r', unique_random count pop r = Ok (sel, r')).
Proof.
  split_and!.
  - intros H. unfold unique_random. rewrite sample_indices_panic by exact H. reflexivity.
  - intros H. unfold unique_random. destruct (sample_indices_ok (length pop) count r H) as (l & r1 & E).
    rewrite E. cbn [mbind outcome_bind]. destruct (sample_indices_Ok _ _ _ _ _ E) as (_ & Hl & Hnd & Hall).
    destruct (omapM_index_ok pop l Hall) as [xs ->]. cbn. eauto 10.
  - intros sel <- Hall Hnd. destruct (sample_indices_surj (length pop) sel (fun _ => 0%N) Hnd Hall) as [r0 E].
    exists r0. unfold unique_random. rewrite E. cbn [mbind outcome_bind].
    destruct (omapM_index_ok pop sel Hall) as [xs ->]. cbn. eauto.
Qed.

(** ** Rank and RankR *)
Lemma rank_spin_ok pop r : 0 < length pop -> exists i j a b,
  pop !! i = Some a /\ pop !! j = Some b /\
  rank_spin pop r = Ok (if fge (fitness a) (fitness b) then i else j, rng_tail (rng_tail r)).
Proof.
  intros H. unfold rank_spin.
  destruct (gen_range_is_Ok 0 (length pop) r H) as (i & -> & Hi). cbn [mbind outcome_bind].
  destruct (lookup_lt_is_Some_2 pop i) as [a Ha]; [lia|]. rewrite (proj2 (index_Ok _ _ _) Ha). cbn [mbind outcome_bind].
  destruct (gen_range_is_Ok 0 (length pop) (rng_tail r) H) as (j & -> & Hj). cbn [mbind outcome_bind].
  destruct (lookup_lt_is_Some_2 pop j) as [b Hb]; [lia|]. rewrite (proj2 (index_Ok _ _ _) Hb). cbn [mbind outcome_bind].
  exists i, j, a, b. auto.
Qed.

(** [s] is the winner of the pair of positions (i, j). *)
Lemma rank_spec count pop r :
  (0 < count -> pop = [] -> rank count pop r = Panic) /\
  (count = 0 \/ pop <> [] -> exists sel draws r', rank count pop r = Ok (sel, r') /\
     length sel = count /\ Forall2 (rank_winner pop) draws sel) /\
  (forall draws, length draws = count ->
     Forall (fun ij => ij.1 < length pop /\ ij.2 < length pop) draws ->
     exists r sel r', rank count pop r = Ok (sel, r') /\ Forall2 (rank_winner pop) draws sel).
Proof.
  split_and!.
  - intros H ->. unfold rank. apply repeatO_panic; auto.
  - intros H. revert r. unfold rank. induction count as [|count IH]; intros r.
    { exists [], [], r. split_and!; auto. }
    destruct H as [H|H]; [discriminate|].
    destruct (rank_spin_ok pop r) as (i & j & a & b & Ha & Hb & E); [apply length_pos_ne; auto|].
    destruct (IH (or_intror H) (rng_tail (rng_tail r))) as (sel & draws & r' & E' & Hl & Hf).
    cbn [repeatO]. rewrite E. cbn [mbind outcome_bind]. rewrite E'. cbn.
    eexists _, ((i, j) :: draws), _. split; [reflexivity|]. cbn. split; [lia|]. constructor; [|exact Hf].
    exists a, b. auto.
  - intros draws <- Hall.
    assert (exists sel, Forall2 (rank_winner pop) draws sel) as [sel Hsel].
    { induction Hall as [|[i j] draws [Hi Hj] _ [sel IH]]; [exists []; constructor|]. cbn in Hi, Hj.
      destruct (lookup_lt_is_Some_2 pop i Hi) as [a Ha]. destruct (lookup_lt_is_Some_2 pop j Hj) as [b Hb].
      eexists (_ :: sel). constructor; [|exact IH]. exists a, b. eauto. }
    assert (Hlen : length draws = length sel) by (eapply Forall2_length; eauto).
    destruct (repeatO_surj (rank_spin pop) sel (fun _ => 0%N)) as [r0 E].
    { apply Forall_lookup. intros k s Hs rest.
      destruct (Forall2_lookup_r _ _ _ _ _ Hsel Hs) as ([i j] & Hij & a & b & Ha & Hb & ->). cbn in *.
      destruct (gen_range_surj 0 (length pop) j rest) as [r1 H1]; [apply lookup_lt_Some in Hb; lia|].
      destruct (gen_range_surj 0 (length pop) i r1) as [r0 H0]; [apply lookup_lt_Some in Ha; lia|].
      exists r0. unfold rank_spin. rewrite H0. cbn [mbind outcome_bind].
      rewrite (proj2 (index_Ok _ _ _) Ha). cbn [mbind outcome_bind]. rewrite H1. cbn [mbind outcome_bind].
      rewrite (proj2 (index_Ok _ _ _) Hb). reflexivity. }
    exists r0, sel. eexists. split; [|exact Hsel]. unfold rank. rewrite Hlen. exact E.
Qed.

(** What winning means. *)
Lemma rank_winner_best pop i j s a b : rank_winner pop (i, j) s -> pop !! i = Some a -> pop !! j = Some b ->
  (s = i \/ s = j) /\
  (is_nan (fitness a) = false -> is_nan (fitness b) = false ->
     exists w, pop !! s = Some w /\ fle (fitness a) (fitness w) = true /\ fle (fitness b) (fitness w) = true) /\
  (feq (fitness a) (fitness b) = true -> s = i).
Proof.
  intros (a' & b' & Ha & Hb & ->) Ha' Hb'. cbn in *.
  assert (a' = a) as -> by congruence. assert (b' = b) as -> by congruence.
  unfold fge. split; [destruct (fle (fitness b) (fitness a)); auto|]. split.
  - intros Na Nb. destruct (fle (fitness b) (fitness a)) eqn:E.
    + exists a. split_and!; auto using fle_refl.
    + exists b. split_and!; auto using fle_refl. apply flt_le. apply not_fle_flt; auto.
  - intros E. assert (fle (fitness b) (fitness a) = true) as ->; [|reflexivity].
    fkeys. apply fle_key. split_and!; auto. match goal with H : fkey _ = fkey _ |- _ => rewrite H end. fkeyd; lia.
Qed.

Lemma rank_r_spin_ok rr pop r : 0 < length pop -> exists i j u,
  i < length pop /\ j < length pop /\ uni_f64 (rng_tail (rng_tail r)) = (u, rng_tail (rng_tail (rng_tail r))) /\
  rank_r_spin rr pop r = Ok (if flt u rr then i else j, rng_tail (rng_tail (rng_tail r))).
Proof.
  intros H. unfold rank_r_spin.
  destruct (gen_range_is_Ok 0 (length pop) r H) as (i & -> & Hi). cbn [mbind outcome_bind].
  destruct (lookup_lt_is_Some_2 pop i) as [a Ha]; [lia|]. rewrite (proj2 (index_Ok _ _ _) Ha). cbn [mbind outcome_bind].
  destruct (gen_range_is_Ok 0 (length pop) (rng_tail r) H) as (j & -> & Hj). cbn [mbind outcome_bind].
  destruct (lookup_lt_is_Some_2 pop j) as [b Hb]; [lia|]. rewrite (proj2 (index_Ok _ _ _) Hb). cbn [mbind outcome_bind].
  eexists i, j, _. split; [lia|]. split; [lia|]. split; reflexivity.
Qed.
Lemma rank_r_spec rr count pop r :
  (fle f0 rr && fle rr f1 = false \/ pop = [] -> rank_r rr count pop r = Panic) /\
  (fle f0 rr = true -> fle rr f1 = true -> pop <> [] -> exists sel draws r',
     rank_r rr count pop r = Ok (sel, r') /\ length sel = count /\
     Forall (fun i => i < length pop) sel /\
     Forall2 (fun (d : nat * nat * f64) s => d.1.1 < length pop /\ d.1.2 < length pop /\
        fle f0 d.2 = true /\ flt d.2 f1 = true /\ s = if flt d.2 rr then d.1.1 else d.1.2) draws sel).
Proof.
  split.
  - intros H. unfold rank_r. destruct (fle f0 rr && fle rr f1); [|reflexivity].
    destruct H as [H| ->]; [discriminate|reflexivity].
  - intros H0 H1 Hp%length_pos_ne. unfold rank_r. rewrite H0, H1, bool_decide_true by exact Hp. cbn [andb rassert mbind outcome_bind].
    revert r. induction count as [|count IH]; intros r.
    { exists [], [], r. split_and!; auto. }
    destruct (rank_r_spin_ok rr pop r Hp) as (i & j & u & Hi & Hj & Hu & E).
    destruct (IH (rng_tail (rng_tail (rng_tail r)))) as (sel & draws & r' & E' & Hl & Ha & Hf).
    cbn [repeatO]. rewrite E. cbn [mbind outcome_bind]. rewrite E'. cbn.
    eexists _, ((i, j, u) :: draws), _. split; [reflexivity|]. cbn. split; [lia|].
    destruct (uni_f64_range _ _ _ Hu) as [U0 U1].
    split; [constructor; [destruct (flt u rr); auto|exact Ha]|]. constructor; [cbn; auto|exact Hf].
Qed.

(** ** Tournament *)
Lemma omapM_pairs_ok pop idx : Forall (fun i => i < length pop) idx ->
  exists grp, omapM (fun i => p ← index pop i; Ok (i, p)) idx = Ok grp /\
    grp.*1 = idx /\ Forall (fun ip => pop !! ip.1 = Some ip.2) grp.
Proof.
  induction 1 as [|i idx Hi _ (grp & E & Hg & Hall)]; [exists []; split_and!; auto|].
  destruct (lookup_lt_is_Some_2 pop i Hi) as [p Hp]. cbn [omapM].
  rewrite (proj2 (index_Ok _ _ _) Hp). cbn [mbind outcome_bind]. rewrite E. cbn.
  eexists. split; [reflexivity|]. cbn. split; [rewrite Hg; reflexivity|]. constructor; auto.
Qed.

(** [s] wins the tournament of the positions [grp]. *)
Lemma tournament_group pop idx : Forall (fun i => i < length pop) idx -> idx <> [] ->
  Forall (fun p => is_nan (fitness p) = false) pop ->
  exists grp b, omapM (fun i => p ← index pop i; Ok (i, p)) idx = Ok grp /\
    iter_max (fun ip => fitness ip.2) grp = Ok (Some b) /\ tournament_winner pop idx b.1.
Proof.
  intros Hidx Hne Hnan. destruct (omapM_pairs_ok pop idx Hidx) as (grp & E & Hg & Hall).
  destruct grp as [|x xs]; [cbn in Hg; congruence|].
  assert (Hn : Forall (fun ip : nat * individual G => is_nan (fitness ip.2) = false) (x :: xs)).
  { apply Forall_lookup. intros k ip Hk. rewrite Forall_lookup in Hall; rewrite Forall_lookup in Hnan. specialize (Hall _ _ Hk). eauto. }
  inversion_clear Hn as [|? ? Hx Hxs].
  destruct (iter_max_from_ok (fun ip => fitness ip.2) xs x Hx Hxs) as [b Hb].
  exists (x :: xs), b. split; [exact E|]. split; [cbn [iter_max]; rewrite Hb; reflexivity|].
  destruct (iter_max_from_spec (fun ip => fitness ip.2) xs x b Hb Hx) as (Hin & H1 & H2).
  split.
  - rewrite <- Hg. apply elem_of_list_fmap. eauto.
  - intros j a p Hj Ha Hp. rewrite <- Hg in Hj. apply elem_of_list_fmap in Hj as ([j' q] & -> & Hq). cbn in Ha.
    rewrite Forall_forall in Hall. pose proof (Hall _ Hq) as Hq'. pose proof (Hall _ Hin) as Hb'. cbn in Hq', Hb'.
    assert (q = a) as -> by congruence. assert (p = b.2) as -> by congruence.
    rewrite Forall_forall in H2. apply elem_of_cons in Hq as [<-|Hq]; [exact H1|]. apply (H2 _ Hq).
Qed.

Lemma tournament_spin_ok pop size r : 0 < size -> size <= length pop ->
  Forall (fun p => is_nan (fitness p) = false) pop ->
  exists s grp r', tournament_spin size pop r = Ok (s, r') /\
    length grp = size /\ NoDup grp /\ Forall (fun i => i < length pop) grp /\ tournament_winner pop grp s.
Proof.
  intros H0 Hs Hn. destruct (sample_indices_ok (length pop) size r Hs) as (idx & r1 & E).
  destruct (sample_indices_Ok _ _ _ _ _ E) as (_ & Hl & Hnd & Hall).
  destruct (tournament_group pop idx Hall) as (grp & b & E1 & E2 & Hw); auto.
  { intros ->. cbn in Hl. lia. }
  unfold tournament_spin. rewrite E. cbn [mbind outcome_bind]. rewrite E1. cbn [mbind outcome_bind]. rewrite E2.
  cbn [mbind outcome_bind unwrap]. eexists _, idx, _. split; [reflexivity|]. auto.
Qed.

Lemma tournament_spin_surj pop idx rest : NoDup idx -> Forall (fun i => i < length pop) idx -> idx <> [] ->
  Forall (fun p => is_nan (fitness p) = false) pop ->
  exists s r, tournament_winner pop idx s /\ tournament_spin (length idx) pop r = Ok (s, rest).
Proof.
  intros Hnd Hall Hne Hn. destruct (sample_indices_surj (length pop) idx rest Hnd Hall) as [r E].
  destruct (tournament_group pop idx Hall) as (grp & b & E1 & E2 & Hw); auto.
  exists b.1, r. split; [exact Hw|]. unfold tournament_spin. rewrite E. cbn [mbind outcome_bind]. rewrite E1. cbn [mbind outcome_bind]. rewrite E2.
  reflexivity.
Qed.

Lemma tournament_gen factor count pop r : unit_factor factor ->
  tournament_size factor (length pop) <= length pop ->
  Forall (fun p => is_nan (fitness p) = false) pop ->
  exists sel groups r', tournament factor count pop r = Ok (sel, r') /\ length sel = count /\
    Forall2 (fun grp s => length grp = tournament_size factor (length pop) /\ NoDup grp /\
      Forall (fun i => i < length pop) grp /\ tournament_winner pop grp s) groups sel.
Proof.
  intros [F0 F1] Hs Hn. unfold tournament. rewrite F0, F1. cbn [andb rassert mbind outcome_bind].
  set (size := tournament_size factor (length pop)) in *.
  assert (0 < size) by (unfold size, tournament_size; lia). clearbody size.
  revert r. induction count as [|count IH]; intros r.
  { exists [], [], r. split_and!; auto. }
  destruct (tournament_spin_ok pop size r) as (s & grp & r1 & E & Hg); auto.
  destruct (IH r1) as (sel & groups & r' & E' & Hl & Hf).
  cbn [repeatO]. rewrite E. cbn [mbind outcome_bind]. rewrite E'. cbn.
  eexists _, (grp :: groups), _. split; [reflexivity|]. cbn. split; [lia|]. constructor; auto.
Qed.

Lemma tournament_empty factor count r : 0 < count -> tournament factor count ([] : population) r = Panic.
Proof.
  intros H. unfold tournament. destruct (fle f0 factor && fle factor f1); [|reflexivity]. cbn [rassert mbind outcome_bind].
  apply repeatO_panic; auto. unfold tournament_spin. cbn [length].
  rewrite sample_indices_panic; [reflexivity|]. unfold tournament_size. lia.
Qed.

(** ** Boltzmann *)
Lemma boltzmann_spec powf exp alpha temp_0 g mg count pop r :
  let ws := boltzmann_weights powf exp alpha temp_0 g mg pop in
  let bad := fle f0 alpha && fle alpha f1 = false \/ fle (f_of_nat 5) temp_0 && fle temp_0 (f_of_nat 100) = false \/
             length pop < count \/ (0 < count /\ Exists (fun w => fle f0 w = false) ws) in
  (bad -> boltzmann powf exp alpha temp_0 g mg count pop r = Panic) /\
  (~ bad -> exists sel r', boltzmann powf exp alpha temp_0 g mg count pop r = Ok (sel, r') /\
     length sel = count /\ Forall (fun i => i < length pop) sel /\ NoDup sel).
Proof.
  cbv zeta. set (ws := boltzmann_weights powf exp alpha temp_0 g mg pop).
  assert (Hw : length ws = length pop) by apply fmap_length.
  split.
  - intros Hb. unfold boltzmann. fold ws. destruct (fle f0 alpha && fle alpha f1); [|reflexivity]. cbn [rassert mbind outcome_bind].
    destruct (fle (f_of_nat 5) temp_0 && fle temp_0 (f_of_nat 100)); [|reflexivity]. cbn [rassert mbind outcome_bind].
    destruct Hb as [Hb|[Hb|[Hb|[Hb Hw']]]]; try discriminate; unfold sample_weighted.
    + rewrite decide_False by lia. rewrite decide_True by lia. reflexivity.
    + rewrite decide_False by lia. case_decide; [reflexivity|].
      assert (forallb (fun w => fge w f0) ws = false) as ->; [|reflexivity].
      apply not_true_is_false. rewrite forallb_forall. intros Hall. rewrite Exists_exists in Hw'.
      destruct Hw' as (w & Hin & Hf). apply elem_of_list_In in Hin. specialize (Hall w Hin). unfold fge in Hall. congruence.
  - intros Hb. unfold boltzmann. fold ws.
    destruct (fle f0 alpha && fle alpha f1); [|exfalso; auto]. cbn [rassert mbind outcome_bind].
    destruct (fle (f_of_nat 5) temp_0 && fle temp_0 (f_of_nat 100)); [|exfalso; auto]. cbn [rassert mbind outcome_bind].
    unfold sample_weighted. case_decide as H0.
    + subst count. cbn. exists [], r. split_and!; auto. constructor.
    + case_decide; [exfalso; apply Hb; right; right; left; lia|].
      destruct (forallb (fun w => fge w f0) ws) eqn:Ef.
      * destruct (sample_indices_ok (length ws) count r) as (l & r1 & E); [lia|]. rewrite E. cbn [mbind outcome_bind unwrap].
        destruct (sample_indices_Ok _ _ _ _ _ E) as (_ & Hl & Hnd & Hall). rewrite Hw in Hall.
        destruct (omapM_index_ok pop l Hall) as [xs ->]. cbn. eauto 10.
      * exfalso. apply Hb. right; right; right. split; [lia|]. apply not_true_iff_false in Ef. rewrite forallb_forall in Ef.
        destruct (decide (Exists (fun w => fle f0 w = false) ws)) as [Hex|Hex]; [exact Hex|]. exfalso.
        apply Ef. intros w Hin%elem_of_list_In. unfold fge. destruct (fle f0 w) eqn:E; [reflexivity|].
        exfalso. apply Hex. apply Exists_exists. eauto.
Qed.

(** ** RouletteWheel *)
Lemma cumulative_S (fs : list f64) f i : cumulative (f :: fs) i = foldl fadd (fadd f0 f) (take i fs).
Proof. reflexivity. Qed.

Lemma roulette_scan_spec threshold pop : forall i0 acc,
  match roulette_scan threshold acc i0 pop with
  | Some i => i0 <= i < i0 + length pop /\
      fle threshold (foldl fadd acc (take (S (i - i0)) (fitness <$> pop))) = true /\
      forall j, j < i - i0 -> fle threshold (foldl fadd acc (take (S j) (fitness <$> pop))) = false
  | None => forall j, j < length pop -> fle threshold (foldl fadd acc (take (S j) (fitness <$> pop))) = false
  end.
Proof.
  induction pop as [|p pop IH]; intros i0 acc; cbn [roulette_scan]; [cbn; intros; lia|].
  unfold fge. destruct (fle threshold (fadd acc (fitness p))) eqn:E.
  - rewrite Nat.sub_diag. split; [cbn; lia|]. split; [cbn; exact E|]. intros; lia.
  - specialize (IH (S i0) (fadd acc (fitness p))).
    destruct (roulette_scan threshold (fadd acc (fitness p)) (S i0) pop) as [i|].
    + destruct IH as (Hi & H1 & H2). split; [cbn [length]; lia|].
      replace (i - i0) with (S (i - S i0)) by lia. split; [exact H1|].
      intros [|j] Hj; [exact E|]. apply (H2 j). lia.
    + intros [|j] Hj; [exact E|]. apply (IH j). cbn in Hj; lia.
Qed.

Lemma roulette_scan_hit threshold pop i : roulette_scan threshold f0 0 pop = Some i <-> wheel_hit (fitness <$> pop) threshold i.
Proof.
  pose proof (roulette_scan_spec threshold pop 0 f0) as H. split.
  - intros E. rewrite E in H. rewrite Nat.sub_0_r in H. destruct H as (H0 & H1 & H2). split; [rewrite fmap_length; lia|]. auto.
  - intros (Hi & H1 & H2). rewrite fmap_length in Hi. destruct (roulette_scan threshold f0 0 pop) as [i'|].
    + f_equal. rewrite Nat.sub_0_r in H. destruct H as (H0' & H1' & H2').
      destruct (lt_eq_lt_dec i' i) as [[Hlt|]|Hlt]; auto.
      * specialize (H2 _ Hlt). unfold cumulative in H2. congruence.
      * specialize (H2' _ Hlt). unfold cumulative in H1. congruence.
    + specialize (H _ Hi). unfold cumulative in H1. congruence.
Qed.

Lemma roulette_spins_spec total pop : forall count r,
  (roulette_spins count total pop r).1 =
  omap (fun k => roulette_scan (fmul total (standard_draw r k)) f0 0 pop) (seq 0 count).
Proof.
  induction count as [|count IH]; intros r; [reflexivity|]. cbn [roulette_spins].
  destruct (gen_f64 r) as [u r1] eqn:E. unfold gen_f64 in E. injection E as <- <-.
  specialize (IH (rng_tail r)). destruct (roulette_spins count total pop (rng_tail r)) as [sel r2]. cbn [fst] in *.
  cbn [seq omap list_omap]. rewrite <- fmap_S_seq. 
  assert (Ho : forall l : list nat, omap (fun k => roulette_scan (fmul total (standard_draw r k)) f0 0 pop) (S <$> l) =
     omap (fun k => roulette_scan (fmul total (standard_draw (rng_tail r) k)) f0 0 pop) l).
  { induction l as [|k l IHl]; [reflexivity|]. cbn. rewrite IHl. reflexivity. }
  rewrite Ho, <- IH. unfold standard_draw. destruct (roulette_scan _ f0 0 pop); reflexivity.
Qed.

Lemma omap_length_le {A B} (f : A -> option B) (l : list A) : length (omap f l) <= length l.
Proof. induction l as [|x l IH]; cbn; [lia|]. destruct (f x); cbn; lia. Qed.
Lemma omap_all {A B} (f : A -> option B) (l : list A) : Forall (fun x => is_Some (f x)) l ->
  length (omap f l) = length l /\ forall k x, l !! k = Some x -> omap f l !! k = f x.
Proof.
  induction 1 as [|x l [y Hy] _ [IH1 IH2]]; [split; [reflexivity|intros ? ? [=]]|].
  cbn. rewrite Hy. split; [cbn; lia|]. intros [|k] z Hz; cbn in *; [congruence|]. auto.
Qed.

Lemma roulette_le count pop r : exists sel r', roulette_wheel count pop r = Ok (sel, r') /\
  length sel <= count /\ Forall (fun i => i < length pop) sel.
Proof.
  unfold roulette_wheel. destruct (roulette_spins count (total_fitness pop) pop r) as [sel r'] eqn:E.
  exists sel, r'. split; [reflexivity|]. pose proof (roulette_spins_spec (total_fitness pop) pop count r) as H.
  rewrite E in H. cbn in H. subst sel. split; [etransitivity; [apply omap_length_le|rewrite seq_length; lia]|].
  apply Forall_forall. intros i Hi. apply elem_of_list_omap in Hi as (k & _ & Hk).
  apply roulette_scan_hit in Hk as [Hk _]. rewrite fmap_length in Hk. exact Hk.
Qed.

Lemma total_cumulative pop : pop <> [] -> total_fitness pop = cumulative (fitness <$> pop) (length pop - 1).
Proof.
  intros H%length_pos_ne. unfold cumulative. rewrite take_ge; [reflexivity|]. rewrite fmap_length. lia.
Qed.

(** If the total reaches every threshold total*u, all spins hit. *)
Lemma roulette_full count pop r :
  (forall k, k < count -> fle (fmul (total_fitness pop) (standard_draw r k)) (total_fitness pop) = true) -> pop <> [] ->
  exists sel r', roulette_wheel count pop r = Ok (sel, r') /\ length sel = count /\
    forall k i, sel !! k = Some i -> wheel_hit (fitness <$> pop) (fmul (total_fitness pop) (standard_draw r k)) i.
Proof.
  intros H Hne. unfold roulette_wheel. destruct (roulette_spins count (total_fitness pop) pop r) as [sel r'] eqn:E.
  exists sel, r'. split; [reflexivity|]. pose proof (roulette_spins_spec (total_fitness pop) pop count r) as Hs.
  rewrite E in Hs. cbn in Hs. subst sel.
  edestruct (omap_all (fun k => roulette_scan (fmul (total_fitness pop) (standard_draw r k)) f0 0 pop) (seq 0 count)) as [H1 H2].
  { apply Forall_forall. intros k Hk%elem_of_seq.
    pose proof (roulette_scan_spec (fmul (total_fitness pop) (standard_draw r k)) pop 0 f0) as Hsc.
    destruct (roulette_scan _ f0 0 pop) as [i|]; [eauto|]. exfalso.
    specialize (Hsc (length pop - 1)). specialize (H k). rewrite (total_cumulative pop Hne) in H at 2. unfold cumulative in H.
    apply length_pos_ne in Hne. rewrite H in Hsc by lia. specialize (Hsc ltac:(lia)). discriminate. }
  rewrite H1, seq_length. split; [reflexivity|]. intros k i Hk.
  assert (Hkc : k < count). { apply lookup_lt_Some in Hk. rewrite H1, seq_length in Hk. exact Hk. }
  rewrite (H2 k k) in Hk by (apply lookup_seq; lia). apply roulette_scan_hit. exact Hk.
Qed.

(** ** Stochastic universal sampling *)
Lemma pointer_at_S p0 d k : pointer_at p0 d (S k) = fadd (pointer_at p0 d k) d.
Proof. reflexivity. Qed.

Lemma sus_while_spec fuel p0 d cs i : forall k p' sel sel',
  sus_while fuel cs d i (pointer_at p0 d k) sel = Ok (p', sel') ->
  exists m, p' = pointer_at p0 d (k + m) /\ sel' = sel ++ replicate m i /\
    (forall j, k <= j < k + m -> fle (pointer_at p0 d j) cs = true) /\ fle (pointer_at p0 d (k + m)) cs = false.
Proof.
  induction fuel as [|fuel IH]; intros k p' sel sel' H; cbn [sus_while] in H; [discriminate|].
  unfold fge in H. destruct (fle (pointer_at p0 d k) cs) eqn:E.
  - rewrite <- pointer_at_S in H. destruct (IH (S k) _ _ _ H) as (m & Hp & Hs & Hj & Hl).
    exists (S m). rewrite Nat.add_succ_r. split_and!; auto.
    + rewrite Hs, <- app_assoc. reflexivity.
    + intros j Hjb. destruct (decide (j = k)) as [->|]; [exact E|]. apply Hj. lia.
  - injection H as <- <-. exists 0. rewrite Nat.add_0_r, app_nil_r. split_and!; auto. intros; lia.
Qed.

Definition sus_inv (p0 d : f64) (fs : list f64) (n : nat) (s : f64 * f64 * list nat) : Prop :=
  let '(cs, p, sel) := s in
  cs = foldl fadd f0 (take n fs) /\ p = pointer_at p0 d (length sel) /\
  (forall k i, sel !! k = Some i -> i < n /\ search_from sel k <= i /\
     fle (pointer_at p0 d k) (cumulative fs i) = true /\
     forall j, search_from sel k <= j < i -> fle (pointer_at p0 d k) (cumulative fs j) = false) /\
  (forall j, search_from sel (length sel) <= j < n -> fle (pointer_at p0 d (length sel)) (cumulative fs j) = false).

Lemma search_from_app sel sel2 k : k <= length sel -> search_from (sel ++ sel2) k = search_from sel k.
Proof. intros H. destruct k; [reflexivity|]. cbn [search_from]. rewrite lookup_app_l by lia. reflexivity. Qed.
Lemma search_from_replicate sel m i k : length sel < k <= length sel + m -> search_from (sel ++ replicate m i) k = i.
Proof.
  intros H. destruct k; [lia|]. cbn [search_from]. rewrite lookup_app_r by lia. rewrite lookup_replicate_2 by lia. reflexivity.
Qed.

Lemma sus_step_inv fuel p0 d fs n (q : individual G) s s' : fs !! n = Some (fitness q) -> sus_inv p0 d fs n s ->
  sus_step fuel d s (n, q) = Ok s' -> sus_inv p0 d fs (S n) s'.
Proof.
  destruct s as [[cs p] sel]. intros Hq (Hcs & Hp & Hhit & Hrest) H. cbn [sus_step fst snd] in H.
  apply obind_Ok in H as ([p' sel'] & H & H'). injection H' as <-. rewrite Hp in H.
  assert (Ecs : fadd cs (fitness q) = cumulative fs n).
  { unfold cumulative. rewrite (take_S_r _ _ _ Hq), foldl_app, <- Hcs. reflexivity. }
  rewrite Ecs in H. apply sus_while_spec in H as (m & Hp' & Hs' & Hj & Hl).
  assert (Hlen : length sel' = length sel + m) by (rewrite Hs', app_length, replicate_length; reflexivity).
  assert (Hsf : search_from sel (length sel) <= n).
  { destruct sel as [|x sel0] using rev_ind; [cbn; lia|]. rewrite app_length, Nat.add_1_r. cbn [search_from].
    rewrite lookup_app_r by lia. rewrite Nat.sub_diag. cbn.
    specialize (Hhit (length sel0) x). rewrite lookup_app_r, Nat.sub_diag in Hhit by lia. destruct (Hhit eq_refl). lia. }
  unfold sus_inv. split_and!.
  - rewrite Ecs. reflexivity.
  - rewrite Hlen. exact Hp'.
  - intros k i Hk. rewrite Hs' in Hk. destruct (decide (k < length sel)) as [Hkl|Hkl].
    + rewrite lookup_app_l in Hk by exact Hkl. destruct (Hhit _ _ Hk) as (H1 & H2 & H3 & H4).
      rewrite Hs', search_from_app by lia. split_and!; auto; lia.
    + rewrite lookup_app_r in Hk by lia. apply lookup_replicate in Hk as [-> Hkm].
      split; [lia|]. destruct (decide (k = length sel)) as [->|Hne].
      * rewrite Hs', search_from_app by lia. split; [exact Hsf|]. split; [apply Hj; lia|].
        intros j Hjb. apply Hrest. lia.
      * rewrite Hs', search_from_replicate by lia. split; [lia|]. split; [apply Hj; lia|]. intros; lia.
  - intros j Hjb. rewrite Hlen in *.
    destruct (decide (m = 0)) as [->|Hm].
    + rewrite Nat.add_0_r in *. cbn in Hs'. rewrite app_nil_r in Hs'. subst sel'.
      destruct (decide (j = n)) as [->|]; [exact Hl|]. apply Hrest. lia.
    + rewrite Hs', search_from_replicate in Hjb by lia. assert (j = n) as -> by lia. exact Hl.
Qed.

Lemma sus_loop_inv fuel p0 d fs : forall (pop : population) n s s', n + length pop = length fs -> drop n fs = fitness <$> pop -> sus_inv p0 d fs n s ->
  ofold (sus_step fuel d) s (imap (fun i p => (n + i, p)) pop) = Ok s' -> sus_inv p0 d fs (length fs) s'.
Proof.
  induction pop as [|q pop IH]; intros n s s' Hn Hd Hi H.
  - cbn in H. injection H as <-. rewrite <- Hn. cbn. rewrite Nat.add_0_r. exact Hi.
  - cbn [imap] in H. rewrite Nat.add_0_r in H. apply obind_Ok in H as (s1 & H1 & H).
    assert (Hq : fs !! n = Some (fitness q)).
    { rewrite <- (Nat.add_0_r n), <- lookup_drop, Hd. reflexivity. }
    apply (IH (S n) s1); auto.
    + cbn in Hn. lia.
    + rewrite (drop_S _ _ _ Hq) in Hd. cbn in Hd. congruence.
    + eapply sus_step_inv; eauto.
    + erewrite imap_ext; [exact H|]. intros i x _. cbn. rewrite Nat.add_succ_r. reflexivity.
Qed.

Lemma sus_spec fuel count pop r sel r' : sus fuel count pop r = Ok (sel, r') ->
  let fs := fitness <$> pop in
  let d := fdiv (total_fitness pop) (f_of_nat count) in
  flt f0 d = true /\ length sel = count /\
  exists p0, gen_range_f64 f0 d r = Ok (p0, r') /\ pointer_hits fs p0 d sel /\ pointers_exhausted fs p0 d sel.
Proof.
  intros H. cbv zeta. unfold sus in H. apply obind_Ok in H as ([] & Hd & H). apply rassert_Ok in Hd.
  apply obind_Ok in H as ([p0 r1] & Hp0 & H). apply obind_Ok in H as ([[cs p] sel'] & Hf & H).
  apply obind_Ok in H as ([] & Hl & H). apply rassert_Ok, bool_decide_eq_true in Hl. injection H as <- <-.
  split; [exact Hd|]. split; [exact Hl|]. exists p0. split; [exact Hp0|].
  assert (I : sus_inv p0 (fdiv (total_fitness pop) (f_of_nat count)) (fitness <$> pop) (length (fitness <$> pop)) (cs, p, sel')).
  { eapply (sus_loop_inv fuel p0 _ (fitness <$> pop) pop 0); [rewrite fmap_length; reflexivity|reflexivity| |exact Hf].
    split_and!; auto; [intros k i Hk; discriminate|cbn; intros; lia]. }
  destruct I as (_ & _ & Hhit & Hrest). split; [exact Hhit|exact Hrest].
Qed.

Lemma pointer_hits_sorted fs p0 d sel : pointer_hits fs p0 d sel -> Forall (fun i => i < length fs) sel /\
  forall k1 k2 i1 i2, k1 <= k2 -> sel !! k1 = Some i1 -> sel !! k2 = Some i2 -> i1 <= i2.
Proof.
  intros H. split.
  - apply Forall_lookup. intros k i Hk. apply (H k i Hk).
  - intros k1 k2 i1 i2 Hk. revert i2. induction Hk as [|k2 Hk IH]; intros i2 H1 H2.
    + assert (i1 = i2) by congruence. lia.
    + destruct (lookup_lt_is_Some_2 sel k2) as [i Hi]; [apply lookup_lt_Some in H2; lia|].
      specialize (IH _ H1 Hi). destruct (H _ _ H2) as (_ & Hs & _). cbn [search_from] in Hs. rewrite Hi in Hs. cbn in Hs. lia.
Qed.
End Sel.
