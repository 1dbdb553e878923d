(** * Proofs: every permutation, bit string, cut and position comes from equally many draws *)
From Verif Require Export Rng.
From Verif Require Import PopulationModel PopulationSpec SelectionModel CrossoverModel CrossoverSpec CrossoverProofs CrossoverPermProofs.
From Coq Require Import Lia.
Open Scope nat_scope.

Lemma rng_skip_at n r k : rng_skip n r k = r (n + k).
Proof. revert r. induction n as [|n IH]; intros r; [reflexivity|]. cbn [rng_skip]. rewrite IH. unfold rng_tail. reflexivity. Qed.
Lemma rng_skip_skip n m r : rng_skip m (rng_skip n r) = rng_skip (n + m) r.
Proof. revert r. induction n as [|n IH]; intros r; [reflexivity|]. cbn [rng_skip Nat.add]. apply IH. Qed.

(** ** Shuffling *)
Lemma shuffle_from_skip {A} i (l : list A) r l' r' : shuffle_from i l r = Ok (l', r') -> r' = rng_skip i r.
Proof.
  revert l r. induction i as [|i IH]; intros l r H; cbn [shuffle_from] in H; [injection H as <- <-; reflexivity|].
  apply obind_Ok in H as ([j r1] & H1 & H). apply obind_Ok in H as (l1 & H2 & H). unfold gen_range in H1; case_decide; [|discriminate]; injection H1 as _ <-. exact (IH _ _ H).
Qed.
Lemma shuffle_from_above {A} i (l : list A) r l' r' : shuffle_from i l r = Ok (l', r') -> forall k, i < k -> l' !! k = l !! k.
Proof.
  revert l r. induction i as [|i IH]; intros l r H k Hk; cbn [shuffle_from] in H; [injection H as <- <-; reflexivity|].
  apply obind_Ok in H as ([j r1] & H1 & H). apply obind_Ok in H as (l1 & H2 & H). apply gen_range_Ok in H1 as H1.
  rewrite (IH _ _ H k) by lia. apply swap_Ok in H2 as (a & b & Ha & Hb & ->). rewrite (insert_swap_lookup _ _ _ _ _ _ Ha Hb). unfold transp.
  rewrite decide_False by lia. rewrite decide_False by lia. reflexivity.
Qed.
Lemma shuffle_draws {A} i : forall (l q : list A), NoDup l -> q ≡ₚ l -> (i = 0 \/ i < length l) -> (forall k, i < k -> q !! k = l !! k) ->
  exists ds, length ds = i /\ (forall k d, ds !! k = Some d -> d < S i - k) /\
    forall r, (exists r', shuffle_from i l r = Ok (q, r')) <-> (forall k d, ds !! k = Some d -> N.to_nat (r k mod N.of_nat (S i - k)) = d).
Proof.
  induction i as [|i IH]; intros l q Nd P Hi Hab.
  - exists []. split; [reflexivity|]. split; [intros k d X; discriminate X|]. intros r. split; [intros _ k d X; discriminate X|]. intros _. exists r. cbn [shuffle_from]. repeat f_equal.
    destruct l as [|x l]; [apply Permutation_nil_r in P; congruence|]. destruct q as [|y q]; [apply Permutation_sym, Permutation_nil_r in P; discriminate|].
    assert (q = l) as <-. { apply list_eq. intros k. apply (Hab (S k)). lia. }
    change (y :: q) with ([y] ++ q) in P. change (x :: q) with ([x] ++ q) in P. apply Permutation_app_inv_r in P. apply Permutation_singleton_r in P. congruence.
  - destruct Hi as [Hi|Hi]; [discriminate|].
    assert (length q = length l) as EL by (rewrite P; reflexivity).
    destruct (lookup_lt_is_Some_2 q (S i)) as [y Hy]; [lia|].
    assert (y ∈ l) as Hin by (rewrite <- P; apply elem_of_list_lookup; eauto). apply elem_of_list_lookup in Hin as (j & Hj).
    assert (NoDup q) as Nq by (rewrite P; exact Nd).
    assert (j <= S i) as Hji.
    { destruct (le_lt_dec j (S i)) as [L|L]; [exact L|]. rewrite <- (Hab j L) in Hj. pose proof (NoDup_lookup q _ _ _ Nq Hy Hj). lia. }
    destruct (proj2 (swap_ok_iff (S i) j l)) as [l1 H1]; [lia|].
    pose proof H1 as H1'. apply swap_Ok in H1' as (a & b & Ha & Hb & E1).
    assert (forall k, l1 !! k = l !! transp (S i) j k) as EL1 by (intros k; rewrite E1; apply insert_swap_lookup; auto).
    assert (l1 ≡ₚ l) as P1 by exact (swap_perm _ _ _ _ H1).
    destruct (IH l1 q) as (ds & L & B & Hds).
    + rewrite P1. exact Nd.
    + rewrite P1. exact P.
    + right. rewrite P1. lia.
    + intros k Hk. rewrite EL1. unfold transp. destruct (decide (k = S i)) as [->|Nk]; [congruence|]. rewrite decide_False by lia. apply Hab. lia.
    + exists (j :: ds). split; [cbn; congruence|]. split.
      { intros [|k] d Hk; [injection Hk as <-; lia|]. apply (B k) in Hk. lia. }
      intros r. cbn [shuffle_from]. unfold gen_range. rewrite decide_True by lia. cbn [mbind outcome_bind]. replace (S (S i) + 0 - 0) with (S (S i)) by lia.
      set (v := N.to_nat (r 0 mod N.of_nat (S (S i)))). assert (v < S (S i)) as Hv. { unfold v. pose proof (N.mod_lt (r 0) (N.of_nat (S (S i))) ltac:(lia)). lia. }
      change (0 + v) with v. split.
      * intros (r' & H). apply obind_Ok in H as (l2 & H2 & H).
        assert (v = j) as Ev.
        { pose proof (shuffle_from_above _ _ _ _ _ H (S i) ltac:(lia)) as X. apply swap_Ok in H2 as (a2 & b2 & Ha2 & Hb2 & ->). rewrite (insert_swap_lookup _ _ _ _ _ _ Ha2 Hb2) in X. unfold transp in X. rewrite decide_True in X by reflexivity.
          assert (l !! v = Some y) as Hv' by congruence. exact (NoDup_lookup l _ _ _ Nd Hv' Hj). }
        rewrite Ev in H2. assert (l2 = l1) as -> by congruence. 
        intros [|k] d Hk; [injection Hk as <-; exact Ev|]. apply (proj1 (Hds (rng_tail r))) with (k := k); [eauto|exact Hk].
      * intros H. assert (v = j) as -> by (apply (H 0 j); reflexivity). rewrite H1. cbn [mbind outcome_bind]. apply Hds. intros k d Hk. apply (H (S k) d). exact Hk.
Qed.

(** Consecutive shuffles of the same list *)
Lemma repeat_rows {A} (f : rng -> outcome (A * rng)) w : (forall r, exists x, f r = Ok (x, rng_skip w r)) ->
  forall n r, exists rows, repeatO n f r = Ok (rows, rng_skip (n * w) r) /\ length rows = n /\
    forall m x, m < n -> (rows !! m = Some x <-> exists r', f (rng_skip (m * w) r) = Ok (x, r')).
Proof.
  intros Hf. induction n as [|n IH]; intros r; cbn [repeatO].
  - exists []. split; [reflexivity|]. split; [reflexivity|]. intros; lia.
  - destruct (Hf r) as [x0 E0]. rewrite E0. cbn [mbind outcome_bind]. destruct (IH (rng_skip w r)) as (rows & E & L & H). rewrite E. cbn [mbind outcome_bind].
    exists (x0 :: rows). split; [rewrite rng_skip_skip; reflexivity|]. split; [cbn; lia|]. intros [|m] x Hm.
    + cbn [Nat.mul rng_skip]. split; [intros [= <-]; eauto|]. intros (r' & X). rewrite E0 in X. injection X as <- <-. reflexivity.
    + change ((x0 :: rows) !! S m) with (rows !! m). rewrite (H m x) by lia. rewrite rng_skip_skip. replace (w + m * w) with (S m * w) by lia. reflexivity.
Qed.
Lemma shuffle_skip {A} (l : list A) r : exists x, shuffle l r = Ok (x, rng_skip (length l - 1) r).
Proof. destruct (shuffle_ok l r) as (x & r' & E). exists x. rewrite E. unfold shuffle in E. apply shuffle_from_skip in E. subst r'. reflexivity. Qed.

Lemma permutation_draws {G} (genes q : list G) : NoDup genes -> q ≡ₚ genes ->
  exists ds, length ds = length genes - 1 /\ (forall k d, ds !! k = Some d -> d < length genes - k) /\
    forall count r, exists pop g', random_permutations_generate (RandomPermutations genes r) count = Ok (pop, g') /\ length pop = count /\
      forall m, m < count -> ((exists x, pop !! m = Some x /\ chromosome x = q) <->
        (forall k d, ds !! k = Some d -> N.to_nat (r (m * (length genes - 1) + k) mod N.of_nat (length genes - k)) = d)).
Proof.
  intros Nd P. destruct (shuffle_draws (length genes - 1) genes q Nd P) as (ds & L & B & H).
  { lia. } { intros k Hk. rewrite !lookup_ge_None_2; [reflexivity|lia|]. rewrite P. lia. }
  exists ds. split; [exact L|].
  assert (forall k d, ds !! k = Some d -> S (length genes - 1) - k = length genes - k) as Es.
  { intros k d Hk. apply lookup_lt_Some in Hk. lia. }
  split; [intros k d Hk; rewrite <- (Es k d Hk); exact (B k d Hk)|]. intros count r.
  destruct (repeat_rows (shuffle genes) (length genes - 1) (shuffle_skip genes) count r) as (rows & E & Lr & HR).
  unfold random_permutations_generate. cbn [perm_genes perm_rng]. rewrite E. cbn [mbind outcome_bind]. eexists _, _. split; [reflexivity|]. split; [unfold individuals; rewrite fmap_length; exact Lr|].
  intros m Hm. transitivity (rows !! m = Some q).
  - unfold individuals. rewrite list_lookup_fmap. split; [|intros ->; eexists; split; reflexivity]. intros (x & Hx & <-). destruct (rows !! m) as [row|]; [|discriminate]. injection Hx as <-. reflexivity.
  - rewrite (HR m q Hm). unfold shuffle. rewrite (H (rng_skip (m * (length genes - 1)) r)). split; intros X k d Hk; specialize (X k d Hk); rewrite rng_skip_at in *; rewrite (Es k d Hk) in *; exact X.
Qed.

(** ** Bit strings *)
Lemma repeatM_skip {A} (f : rng -> A * rng) w : (forall r, (f r).2 = rng_skip w r) -> forall n r,
  (repeatM n f r).2 = rng_skip (n * w) r /\ forall m, m < n -> (repeatM n f r).1 !! m = Some (f (rng_skip (m * w) r)).1.
Proof.
  intros Hf. induction n as [|n IH]; intros r; cbn [repeatM]; [split; [reflexivity|intros; lia]|].
  pose proof (Hf r) as E. destruct (f r) as [x r1] eqn:Ef. cbn [snd] in E. subst r1. destruct (IH (rng_skip w r)) as [I1 I2]. destruct (repeatM n f (rng_skip w r)) as [xs r2]. cbn [fst snd] in *. split.
  - rewrite I1, rng_skip_skip. reflexivity.
  - intros [|m] Hm; [cbn; rewrite Ef; reflexivity|]. change ((x :: xs) !! S m) with (xs !! m). rewrite I2 by lia. rewrite rng_skip_skip. reflexivity.
Qed.
Lemma bit_draws (g : bit_strings) count m j x b : (bit_strings_generate g count).1 !! m = Some x -> chromosome x !! j = Some b ->
  b = N.odd (bs_rng g (m * bs_dim g + j)).
Proof.
  unfold bit_strings_generate. 
  assert (forall r, (repeatM (bs_dim g) gen_bool r).2 = rng_skip (bs_dim g) r) as H1.
  { intros r. rewrite <- (Nat.mul_1_r (bs_dim g)) at 2. apply (repeatM_skip gen_bool 1). reflexivity. }
  destruct (repeatM_skip (repeatM (bs_dim g) gen_bool) (bs_dim g) H1 count (bs_rng g)) as [_ H2].
  destruct (repeatM count (repeatM (bs_dim g) gen_bool) (bs_rng g)) as [rows r'] eqn:E. cbn [fst] in *.
  intros Hx Hb. unfold individuals in Hx. rewrite list_lookup_fmap in Hx. destruct (rows !! m) as [row|] eqn:Er; [|discriminate]. injection Hx as <-. cbn [ind_from chromosome] in Hb.
  assert (m < count) as Hm. { apply lookup_lt_Some in Er. rewrite (repeatM_length _ _ _ _ _ E) in Er. exact Er. }
  specialize (H2 m Hm). injection (eq_trans (eq_sym Er) H2) as ->.
  assert (j < bs_dim g) as Hj. { apply lookup_lt_Some in Hb. destruct (repeatM (bs_dim g) gen_bool (rng_skip (m * bs_dim g) (bs_rng g))) as [z1 z2] eqn:Ez. cbn [fst] in Hb. rewrite (repeatM_length _ _ _ _ _ Ez) in Hb. exact Hb. }
  destruct (repeatM_skip gen_bool 1 (fun _ => eq_refl) (bs_dim g) (rng_skip (m * bs_dim g) (bs_rng g))) as [_ H3]. rewrite (H3 j Hj) in Hb.
  injection Hb as <-. cbn [gen_bool fst]. rewrite !rng_skip_at. f_equal. f_equal. lia.
Qed.

(** ** Random selection *)
Lemma random_draws {G} kind count (pop : list (individual G)) r : pop <> [] ->
  exists sel r', random_sel kind count pop r = Ok (sel, r') /\ length sel = count /\
    forall k, k < count -> sel !! k = Some (N.to_nat (r k mod N.of_nat (length pop))).
Proof.
  intros Hne. assert (0 < length pop) as Hl by (destruct pop; [congruence|cbn; lia]). unfold random_sel. rewrite bool_decide_eq_true_2 by exact Hl. cbn [rassert mbind outcome_bind].
  set (f := fun r : rng => '(i, r1) ← gen_range 0 (length pop) r; _ ← index pop i; Ok (i, r1)).
  assert (forall r, f r = Ok (N.to_nat (r 0 mod N.of_nat (length pop)), rng_skip 1 r)) as Hf.
  { intros r0. unfold f, gen_range. rewrite decide_True by exact Hl. cbn [mbind outcome_bind]. rewrite Nat.sub_0_r. cbn [Nat.add].
    destruct (lookup_lt_is_Some_2 pop (N.to_nat (r0 0 mod N.of_nat (length pop)))) as [p Hp]; [pose proof (N.mod_lt (r0 0) (N.of_nat (length pop)) ltac:(lia)); lia|].
    unfold index. rewrite Hp. reflexivity. }
  destruct (repeat_rows f 1 (fun r => ex_intro _ _ (Hf r)) count r) as (sel & E & L & H). rewrite E. cbn [mbind outcome_bind]. eexists _, _. split; [reflexivity|]. split; [exact L|].
  intros k Hk. apply (H k _ Hk). rewrite Nat.mul_1_r. eexists. rewrite Hf. rewrite rng_skip_at, Nat.add_0_r. reflexivity.
Qed.

(** ** Cuts and segments *)
Lemma gen_range_eq lo hi r : lo < hi -> gen_range lo hi r = Ok (lo + N.to_nat (r 0 mod N.of_nat (hi - lo)), rng_tail r).
Proof. intros H. unfold gen_range. rewrite decide_True by exact H. reflexivity. Qed.
Lemma draw_below (n : nat) (x : N) : 0 < n -> N.to_nat (x mod N.of_nat n) < n.
Proof. intros H. pose proof (N.mod_lt x (N.of_nat n) ltac:(lia)). lia. Qed.

Lemma single_point_draws {G} (p1 p2 : list G) r : length p1 = length p2 -> 0 < length p1 ->
  let cut := N.to_nat (r 0 mod N.of_nat (length p1)) in
  exists r', single_point p1 p2 r = Ok ((cut_once cut p1 p2, cut_once cut p2 p1), r').
Proof.
  intros Hl Hn cut. destruct (single_point_structure p1 p2 r Hl Hn) as (c & r' & Hg & _ & E). exists r'. rewrite E.
  rewrite gen_range_eq in Hg by lia. injection Hg as Hc _. rewrite Nat.sub_0_r in Hc. unfold cut. rewrite Hc. reflexivity.
Qed.

Lemma two_point_draws {G} (p1 p2 : list G) r : length p1 = length p2 -> 0 < length p1 ->
  let x := N.to_nat (r 0 mod N.of_nat (length p1)) in let y := N.to_nat (r 1 mod N.of_nat (length p1)) in
  let a := Nat.min x y in let b := Nat.max x y in
  exists r', two_point p1 p2 r = Ok ((cut_twice a b p1 p2, cut_twice a b p2 p1), r').
Proof.
  intros Hlen Hne x y a b.
  assert (x < length p1) as Hx by (apply draw_below; lia). assert (y < length p1) as Hy by (apply draw_below; lia).
  unfold two_point. rewrite bool_decide_eq_true_2 by auto. cbn [rassert mbind outcome_bind].
  rewrite gen_range_eq by lia. cbn [mbind outcome_bind]. rewrite gen_range_eq by lia. cbn [mbind outcome_bind]. rewrite Nat.sub_0_r. cbn [Nat.add].
  change (rng_tail r 0) with (r 1). fold x y.
  assert ((if decide (x <= y) then (x, y) else (y, x)) = (a, b)) as ->.
  { unfold a, b. case_decide; f_equal; lia. }
  assert (a <= b < length p1) as Hab by (unfold a, b; lia). clearbody a b. clear x y Hx Hy.
  set (f := fun l => bool_decide (l < a) || bool_decide (b <= l)).
  destruct (copy_built f p1 p2 0 a ([], []) true) as (c1 & Hc1 & Hb1); try lia.
  { apply built_nil. } { intros; unfold f; rewrite bool_decide_eq_true_2 by lia; auto. }
  cbn -[copy_loci] in Hc1. rewrite Hc1. cbn -[copy_loci].
  destruct (copy_built f p1 p2 a b c1 false) as (c2 & Hc2 & Hb2); try lia; auto.
  { intros; unfold f; rewrite !bool_decide_eq_false_2 by lia; auto. }
  cbn -[copy_loci] in Hc2. rewrite Hc2. cbn -[copy_loci].
  destruct (copy_built f p1 p2 b (length p1) c2 true) as (c3 & Hc3 & Hb3); try lia; auto.
  { intros; unfold f; rewrite (bool_decide_eq_true_2 (b <= l)) by lia. apply orb_true_r. }
  cbn -[copy_loci] in Hc3. rewrite Hc3. cbn.
  eexists. repeat f_equal. apply (follows_ext_eq _ p1 p2 c3 Hlen Hb3); intros l; rewrite cut_twice_lookup by (auto; lia); reflexivity.
Qed.

(** Shuffle crossover: the draws after the first determine an arrangement of the positions. *)
Lemma shuffle_xo_draws (n : nat) (q : list nat) : q ≡ₚ seq 0 n ->
  exists ds, length ds = n - 1 /\ (forall k d, ds !! k = Some d -> d < n - k) /\
    forall (G : Type) (p1 p2 : list G) r, length p1 = n -> length p2 = n -> 0 < n ->
      (forall k d, ds !! k = Some d -> N.to_nat (r (S k) mod N.of_nat (n - k)) = d) ->
      exists c1 c2 r', shuffle_xo p1 p2 r = Ok ((c1, c2), r') /\ length c1 = n /\ length c2 = n /\
        forall l a, q !! l = Some a ->
          if a <? N.to_nat (r 0 mod N.of_nat n) then c1 !! l = p1 !! l /\ c2 !! l = p2 !! l else c1 !! l = p2 !! l /\ c2 !! l = p1 !! l.
Proof.
  intros P. assert (length q = n) as Lq by (rewrite P; apply seq_length).
  destruct (shuffle_draws (n - 1) (seq 0 n) q (NoDup_seq _ _) P) as (ds & L & B & H).
  { rewrite seq_length. lia. } { intros k Hk. rewrite !lookup_ge_None_2; [reflexivity|rewrite seq_length; lia|lia]. }
  exists ds. split; [exact L|].
  assert (forall k d, ds !! k = Some d -> S (n - 1) - k = n - k) as Es by (intros k d Hk; apply lookup_lt_Some in Hk; lia).
  split; [intros k d Hk; rewrite <- (Es k d Hk); exact (B k d Hk)|]. intros G p1 p2 r E1 E2 Hn Hr.
  unfold shuffle_xo. rewrite E1. rewrite gen_range_eq by lia. cbn [mbind outcome_bind]. rewrite Nat.sub_0_r. cbn [Nat.add]. set (cut := N.to_nat (r 0 mod N.of_nat n)).
  destruct (proj2 (H (rng_tail r))) as (r' & Hs). { intros k d Hk. rewrite (Es k d Hk). apply (Hr k d Hk). }
  unfold shuffle. rewrite seq_length, Hs. cbn [mbind outcome_bind].
  destruct (apply_mask_built ((fun x => bool_decide (x < cut)) <$> q) p1 p2) as (c & -> & Hb); [rewrite fmap_length; congruence|congruence|].
  cbn [mbind outcome_bind]. destruct c as [c1 c2]. exists c1, c2, r'. split; [reflexivity|].
  destruct Hb as (B1 & B2 & Hb). cbn [fst snd] in *. split; [congruence|]. split; [congruence|]. intros l a Ha.
  assert (l < length p1) as Hlt by (apply lookup_lt_Some in Ha; lia). specialize (Hb l Hlt). rewrite list_lookup_fmap, Ha in Hb. cbn [fmap option_fmap option_map default from_option] in Hb.
  destruct (Nat.ltb_spec a cut) as [X|X].
  - rewrite bool_decide_eq_true_2 in Hb by exact X. exact Hb.
  - rewrite bool_decide_eq_false_2 in Hb by lia. exact Hb.
Qed.

(** The segment kept by the ordered and partially mapped crossover *)
Lemma segment_draws (n : nat) r : 0 < n ->
  let b := N.to_nat (r 0 mod N.of_nat n) in let e := b + N.to_nat (r 1 mod N.of_nat (n + 1 - b)) in
  gen_range 0 n r = Ok (b, rng_tail r) /\ gen_range b (n + 1) (rng_tail r) = Ok (e, rng_tail (rng_tail r)) /\ b < n /\ b <= e <= n.
Proof.
  intros Hn b e. assert (b < n) as Hb by (apply draw_below; exact Hn).
  split; [rewrite gen_range_eq by exact Hn; rewrite Nat.sub_0_r; reflexivity|]. split; [rewrite gen_range_eq by lia; reflexivity|]. split; [exact Hb|].
  assert (N.to_nat (r 1 mod N.of_nat (n + 1 - b)) < n + 1 - b) as W by (apply draw_below; lia). unfold e. clear e. clearbody b. revert W. generalize (N.to_nat (r 1 mod N.of_nat (n + 1 - b))). clear r. intros w W. lia.
Qed.
Lemma ordered_draws {G} `{EqDecision G} (p1 p2 : list G) r : NoDup p1 -> p1 ≡ₚ p2 -> 0 < length p1 ->
  let b := N.to_nat (r 0 mod N.of_nat (length p1)) in let e := b + N.to_nat (r 1 mod N.of_nat (length p1 + 1 - b)) in
  exists r', ordered p1 p2 r = Ok ((order_child p1 p2 b e, order_child p2 p1 b e), r').
Proof.
  intros Hnd Hp Hne b e. destruct (segment_draws (length p1) r Hne) as (Hb & He & Hbn & Hen). fold b in Hb, He, Hbn, Hen. fold e in He, Hen. clearbody b e.
  unfold ordered. assert (Hlen : length p1 = length p2) by (rewrite Hp; reflexivity).
  rewrite bool_decide_eq_true_2 by auto. cbn [rassert mbind outcome_bind]. rewrite Hb. cbn [mbind outcome_bind]. rewrite He. cbn [mbind outcome_bind].
  destruct (ordered_child_spec p1 p2 b e) as (H1 & H1p & H1k); auto; try lia.
  destruct (ordered_child_spec p2 p1 b e) as (H2 & H2p & H2k); auto; try lia.
  { rewrite <- Hp; auto. } { symmetry; auto. }
  rewrite H1. cbn [mbind outcome_bind]. rewrite H2. cbn [mbind outcome_bind]. eauto.
Qed.
Lemma pmx_draws {G} `{EqDecision G} fuel (p1 p2 : list G) r : NoDup p1 -> p1 ≡ₚ p2 -> 0 < length p1 -> length p1 <= fuel ->
  let b := N.to_nat (r 0 mod N.of_nat (length p1)) in let e := b + N.to_nat (r 1 mod N.of_nat (length p1 + 1 - b)) in
  exists c1 c2 r', pmx fuel p1 p2 r = Ok ((c1, c2), r') /\ partially_mapped_child p1 p2 b e c1 /\ partially_mapped_child p2 p1 b e c2.
Proof.
  intros Hnd Hp Hne Hf b e. destruct (segment_draws (length p1) r Hne) as (Hb & He & Hbn & Hen). fold b in Hb, He, Hbn, Hen. fold e in He, Hen. clearbody b e.
  unfold pmx. assert (Hlen : length p1 = length p2) by (rewrite Hp; reflexivity). assert (Hnd2 : NoDup p2) by (rewrite <- Hp; auto).
  rewrite bool_decide_eq_true_2 by auto. cbn [rassert mbind outcome_bind]. rewrite Hb. cbn [mbind outcome_bind]. rewrite He. cbn [mbind outcome_bind].
  destruct (pmx_child_full p1 p2 b e Hnd Hnd2 Hp ltac:(lia) ltac:(lia) fuel ltac:(lia)) as (c1 & H1 & H1p & _ & _ & H1m).
  destruct (pmx_child_full p2 p1 b e Hnd2 Hnd ltac:(symmetry; auto) ltac:(lia) ltac:(lia) fuel ltac:(lia)) as (c2 & H2 & H2p & _ & _ & H2m).
  rewrite H1. cbn [mbind outcome_bind]. rewrite H2. cbn [mbind outcome_bind]. exists c1, c2, (rng_tail (rng_tail r)). auto.
Qed.
