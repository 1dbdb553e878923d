(** * Proofs about the crossover operators *)
From Verif Require Export CrossoverModel CrossoverSpec.
Open Scope nat_scope.

Local Arguments push_locus : simpl never.
Local Arguments copy_loci : simpl never.
Local Arguments gen_range : simpl never.
Local Arguments shuffle : simpl never.
Local Arguments apply_mask : simpl never.

Section Pointwise.
Context {G : Type}.
Implicit Types (p q : list G) (c : list G * list G).

(** Children under construction: the first [n] loci follow the mask [f]. *)
Definition built (f : nat -> bool) p1 p2 (n : nat) (c : list G * list G) : Prop :=
  length c.1 = n /\ length c.2 = n /\
  forall l, l < n -> c.1 !! l = (if f l then p1 else p2) !! l /\ c.2 !! l = (if f l then p2 else p1) !! l.

Lemma built_nil f p1 p2 : built f p1 p2 0 ([], []).
Proof. repeat split; auto; lia. Qed.

Lemma built_ext f g p1 p2 n c : (forall l, f l = g l) -> built f p1 p2 n c -> built g p1 p2 n c.
Proof. intros E (H1 & H2 & H). split; [auto|split; [auto|]]. intros l. rewrite <- E. apply H. Qed.

Lemma push_built f p1 p2 n c b :
  built f p1 p2 n c -> n < length p1 -> n < length p2 -> f n = b ->
  exists c', push_locus (if b then p1 else p2) (if b then p2 else p1) c n = Ok c' /\ built f p1 p2 (S n) c'.
Proof.
  intros (H1 & H2 & H) Hn1 Hn2 Hb. unfold push_locus.
  destruct (lookup_lt_is_Some_2 p1 n Hn1) as [a Ha].
  destruct (lookup_lt_is_Some_2 p2 n Hn2) as [d Hd].
  set (x := if b then p1 else p2). set (y := if b then p2 else p1).
  assert (exists g1, x !! n = Some g1) as [g1 Hg1] by (subst x; destruct b; eauto).
  assert (exists g2, y !! n = Some g2) as [g2 Hg2] by (subst y; destruct b; eauto).
  unfold index. rewrite Hg1, Hg2. cbn. eexists; split; [reflexivity|].
  repeat split; cbn; [rewrite app_length; cbn; lia..| |].
  - destruct (decide (l = n)) as [->|].
    + rewrite lookup_app_r, H1, Nat.sub_diag by lia. rewrite Hb. fold x. rewrite Hg1. reflexivity.
    + rewrite lookup_app_l by lia. apply H; lia.
  - destruct (decide (l = n)) as [->|].
    + rewrite lookup_app_r, H2, Nat.sub_diag by lia. rewrite Hb. fold y. rewrite Hg2. reflexivity.
    + rewrite lookup_app_l by lia. apply H; lia.
Qed.

Lemma copy_built f p1 p2 lo hi c b :
  built f p1 p2 lo c -> lo <= hi -> hi <= length p1 -> hi <= length p2 ->
  (forall l, lo <= l < hi -> f l = b) ->
  exists c', copy_loci (if b then p1 else p2) (if b then p2 else p1) lo hi c = Ok c' /\ built f p1 p2 hi c'.
Proof.
  intros Hb Hle H1 H2 Hf. unfold copy_loci.
  remember (hi - lo) as n eqn:Hn. revert lo c Hb Hle Hf Hn.
  induction n as [|n IH]; intros lo c Hb Hle Hf Hn; cbn.
  - replace hi with lo by lia. eauto.
  - destruct (push_built f p1 p2 lo c b) as (c1 & Hc1 & Hb1); auto; try lia.
    { apply Hf; lia. }
    rewrite Hc1. cbn. apply IH; auto; try lia. intros; apply Hf; lia.
Qed.

Lemma built_full f p1 p2 c : length p1 = length p2 -> built f p1 p2 (length p1) c ->
  forall l, c.1 !! l = (if f l then p1 else p2) !! l /\ c.2 !! l = (if f l then p2 else p1) !! l.
Proof.
  intros Hlen (H1 & H2 & H) l. destruct (decide (l < length p1)); [auto|].
  rewrite !lookup_ge_None_2; auto; destruct (f l); lia.
Qed.

Lemma built_recombination f p1 p2 c : length p1 = length p2 -> built f p1 p2 (length p1) c ->
  recombination p1 p2 c.1 c.2.
Proof.
  intros Hlen Hb. pose proof (built_full f p1 p2 c Hlen Hb) as H.
  destruct Hb as (H1 & H2 & _). split; [auto|split; [auto|]].
  intros l a b Ha Hb. destruct (H l) as [-> ->]. rewrite <- Ha, <- Hb. destruct (f l); auto.
Qed.

Lemma cut_once_lookup cut p q l : length p = length q ->
  cut_once cut p q !! l = (if bool_decide (l < cut) then p else q) !! l.
Proof.
  intros Hlen. unfold cut_once. case_bool_decide.
  - destruct (decide (l < length p)).
    + rewrite lookup_app_l by (rewrite take_length; lia). apply lookup_take; lia.
    + rewrite !lookup_ge_None_2; auto; rewrite ?app_length, ?take_length, ?drop_length; lia.
  - destruct (decide (l < length p)).
    + rewrite lookup_app_r by (rewrite take_length; lia). rewrite take_length, lookup_drop. f_equal; lia.
    + rewrite !lookup_ge_None_2; auto; rewrite ?app_length, ?take_length, ?drop_length; lia.
Qed.

Lemma cut_twice_lookup a b p q l : length p = length q -> a <= b -> 
  cut_twice a b p q !! l = (if bool_decide (l < a) || bool_decide (b <= l) then p else q) !! l.
Proof.
  intros Hlen Hab. unfold cut_twice.
  destruct (decide (l < length p)); cycle 1.
  { rewrite (lookup_ge_None_2 _ l); [|rewrite !app_length, !take_length, !drop_length; lia].
    symmetry; apply lookup_ge_None_2; destruct (_ || _); lia. }
  repeat case_bool_decide; cbn.
  - rewrite lookup_app_l by (rewrite take_length; lia). apply lookup_take; lia.
  - rewrite lookup_app_l by (rewrite take_length; lia). apply lookup_take; lia.
  - rewrite lookup_app_r by (rewrite take_length; lia).
    rewrite lookup_app_r by (rewrite !take_length, drop_length; lia).
    rewrite !take_length, drop_length, lookup_drop. f_equal; lia.
  - rewrite lookup_app_r by (rewrite take_length; lia).
    rewrite take_length.
    rewrite lookup_app_l by (rewrite take_length, drop_length; lia).
    rewrite lookup_take by lia. rewrite lookup_drop. f_equal; lia.
Qed.

(** *** SinglePoint *)
Lemma single_point_built p1 p2 r : length p1 = length p2 -> 0 < length p1 ->
  exists cut c r', single_point p1 p2 r = Ok (c, r') /\ cut < length p1 /\
    gen_range 0 (length p1) r = Ok (cut, r') /\
    built (fun l => bool_decide (l < cut)) p1 p2 (length p1) c.
Proof.
  intros Hlen Hne. unfold single_point.
  destruct (gen_range_is_Ok 0 (length p1) r Hne) as (cut & Hg & Hc). rewrite Hg. cbn -[copy_loci].
  set (f := fun l => bool_decide (l < cut)).
  destruct (copy_built f p1 p2 0 cut ([], []) true) as (c1 & Hc1 & Hb1); try lia.
  { apply built_nil. } { intros; apply bool_decide_eq_true_2; lia. }
  cbn -[copy_loci] in Hc1. rewrite Hc1. cbn -[copy_loci].
  destruct (copy_built f p1 p2 cut (length p1) c1 false) as (c2 & Hc2 & Hb2); try lia; auto.
  { intros; apply bool_decide_eq_false_2; lia. }
  cbn -[copy_loci] in Hc2. rewrite Hc2. cbn.
  exists cut, c2, (rng_tail r). split_and!; auto; try lia.
Qed.

(** *** TwoPoint *)
Lemma two_point_built p1 p2 r : length p1 = length p2 -> 0 < length p1 ->
  exists a b c r', two_point p1 p2 r = Ok (c, r') /\ a <= b /\ b < length p1 /\
    built (fun l => bool_decide (l < a) || bool_decide (b <= l)) p1 p2 (length p1) c.
Proof.
  intros Hlen Hne. unfold two_point. rewrite bool_decide_eq_true_2 by auto. cbn -[copy_loci].
  destruct (gen_range_is_Ok 0 (length p1) r Hne) as (x & -> & Hx). cbn -[copy_loci].
  destruct (gen_range_is_Ok 0 (length p1) (rng_tail r) Hne) as (y & -> & Hy). cbn -[copy_loci].
  assert (exists a b, (if decide (x <= y) then (x, y) else (y, x)) = (a, b) /\ a <= b < length p1)
    as (a & b & -> & Hab).
  { case_decide; [exists x, y|exists y, x]; split; auto; lia. }
  set (f := fun l => bool_decide (l < a) || bool_decide (b <= l)).
  destruct (copy_built f p1 p2 0 a ([], []) true) as (c1 & Hc1 & Hb1); try lia.
  { apply built_nil. } { intros; unfold f; rewrite bool_decide_eq_true_2 by lia; auto. }
  cbn -[copy_loci] in Hc1. rewrite Hc1. cbn -[copy_loci].
  destruct (copy_built f p1 p2 a b c1 false) as (c2 & Hc2 & Hb2); try lia; auto.
  { intros; unfold f; rewrite !bool_decide_eq_false_2 by lia; auto. }
  cbn -[copy_loci] in Hc2. rewrite Hc2. cbn -[copy_loci].
  destruct (copy_built f p1 p2 b (length p1) c2 true) as (c3 & Hc3 & Hb3); try lia; auto.
  { intros; unfold f; rewrite (bool_decide_eq_true_2 (b <= l)) by lia. apply orb_true_r. }
  cbn -[copy_loci] in Hc3. rewrite Hc3. cbn.
  exists a, b, c3, (rng_tail (rng_tail r)). split_and!; auto; try lia.
Qed.

(** *** FixedPoint *)
Lemma fixed_point_spec cut p1 p2 : length p1 = length p2 ->
  exists c, fixed_point cut p1 p2 = Ok c /\
    c.1 = cut_once cut p1 p2 /\ c.2 = cut_once cut p2 p1.
Proof.
  intros Hlen. unfold fixed_point.
  assert (H : forall n lo c, lo + n = length p1 ->
    length c.1 = length p1 -> length c.2 = length p1 ->
    exists c', ofold (fixed_step p1 p2) c (seq lo n) = Ok c' /\
      (length c'.1 = length p1 /\ length c'.2 = length p1) /\
      forall l, c'.1 !! l = (if bool_decide (l < lo) then c.1 else p2) !! l /\
                c'.2 !! l = (if bool_decide (l < lo) then c.2 else p1) !! l).
  { induction n as [|n IH]; intros lo c Hlo H1 H2; cbn.
    - exists c. repeat split; auto; case_bool_decide; auto;
        rewrite !lookup_ge_None_2; auto; lia.
    - destruct (lookup_lt_is_Some_2 p1 lo) as [a Ha]; [lia|].
      destruct (lookup_lt_is_Some_2 p2 lo) as [d Hd]; [lia|].
      unfold fixed_step, index, assign at 1. rewrite Ha, Hd. cbn.
      unfold assign. rewrite !decide_True by lia. cbn.
      destruct (IH (S lo) (<[lo:=d]> c.1, <[lo:=a]> c.2)) as (c' & Hc' & Hl & Hl');
        [lia|cbn; rewrite insert_length; lia..|].
      exists c'. split; [exact Hc'|]. split; [exact Hl|].
      intros l. destruct (Hl' l) as [-> ->]. cbn.
      destruct (decide (l = lo)) as [->|].
      + rewrite (bool_decide_eq_true_2 (lo < S lo)), (bool_decide_eq_false_2 (lo < lo)) by lia.
        rewrite !list_lookup_insert by lia. auto.
      + destruct (decide (l < lo)).
        * rewrite !bool_decide_eq_true_2 by lia; rewrite !list_lookup_insert_ne by auto; auto.
        * rewrite !bool_decide_eq_false_2 by lia; auto. }
  destruct (decide (cut <= length p1)) as [Hc|Hc].
  - destruct (H (length p1 - cut) cut (p1, p2)) as (c' & Hc' & _ & Hl); cbn; auto; [lia|].
    exists c'. split; [exact Hc'|]. split; apply list_eq; intros l; rewrite cut_once_lookup by auto; apply Hl.
  - replace (length p1 - cut) with 0 by lia. exists (p1, p2). split; [reflexivity|].
    unfold cut_once. cbn. rewrite !take_ge, !drop_ge, !app_nil_r by lia. auto.
Qed.

(** *** MultiPoint *)
(** The mask the code realises. *)
Definition multi_mask (c0 : nat) (cuts : list nat) (l : nat) : bool :=
  bool_decide (l < c0) || Nat.even (c0 + (cuts_before cuts l - 1)).

Lemma cuts_before_at cuts idx lo l :
  StronglySorted (≤) cuts -> cuts !! idx = Some lo -> lo <= l ->
  (forall hi, cuts !! S idx = Some hi -> l < hi) ->
  cuts_before cuts l = S idx.
Proof.
  intros Hs Hlo Hle Hhi. unfold cuts_before.
  rewrite <- (take_drop (S idx) cuts), filter_app, app_length.
  assert (Hidx : idx < length cuts) by (eapply lookup_lt_Some; eauto).
  rewrite filter_all, filter_none.
  - rewrite take_length; cbn [length]; lia.
  - apply Forall_lookup. intros i x Hx. rewrite lookup_drop in Hx.
    destruct (lookup_lt_is_Some_2 cuts (S idx)) as [hi Hh].
    { apply lookup_lt_Some in Hx. lia. }
    specialize (Hhi hi Hh). assert (hi <= x); [|lia].
    destruct i as [|i]; [replace (S idx + 0) with (S idx) in Hx by lia; assert (x = hi) by congruence; lia|].
    eapply (StronglySorted_lookup (≤) cuts (S idx) (S idx + S i)); eauto; lia.
  - apply Forall_lookup. intros i x Hx.
    apply lookup_take_Some in Hx as [Hx Hi].
    destruct (decide (i = idx)) as [->|]; [assert (x = lo) by congruence; lia|].
    assert (x <= lo); [|lia].
    eapply (StronglySorted_lookup (≤) cuts i idx); eauto; lia.
Qed.

Lemma cuts_before_0 cuts l (c0 : nat) :
  StronglySorted (≤) cuts -> cuts !! 0 = Some c0 -> l < c0 -> cuts_before cuts l = 0.
Proof.
  intros Hs H0 Hl. unfold cuts_before. rewrite filter_none; [reflexivity|].
  apply Forall_lookup. intros i x Hx.
  destruct i as [|i]; [assert (x = c0) by congruence; lia|].
  pose proof (StronglySorted_lookup (≤) cuts 0 (S i) c0 x Hs ltac:(lia) H0 Hx). lia.
Qed.

Lemma multi_prefix f p1 p2 n c :
  n <= length p1 -> n <= length p2 -> (forall l, l < n -> f l = true) ->
  forall lo, lo <= n -> built f p1 p2 lo c -> forall a b,
  exists c', ofold (multi_prefix_step p1 p2) (c, (a, b)) (seq lo (n - lo)) =
     Ok (c', if Nat.even (n - lo) then (a, b) else (b, a)) /\ built f p1 p2 n c'.
Proof.
  intros H1 H2 Hf lo Hlo Hb.
  remember (n - lo) as m eqn:Hm. revert lo c Hlo Hb Hm.
  induction m as [|m IH]; intros lo c Hlo Hb Hm a b; cbn.
  - replace n with lo by lia. eauto.
  - destruct (push_built f p1 p2 lo c true Hb) as (c1 & Hc1 & Hb1); try lia; [apply Hf; lia|].
    assert (E : multi_prefix_step p1 p2 (c, (a, b)) lo = Ok (c1, (b, a)))
      by (unfold multi_prefix_step; cbn; rewrite Hc1; reflexivity).
    rewrite E. cbn.
    destruct (IH (S lo) c1 ltac:(lia) Hb1 ltac:(lia) b a) as (c' & Hc' & Hb').
    exists c'. rewrite Hc'. split; [|exact Hb'].
    f_equal. f_equal. change (match m with 0 => false | S n' => Nat.even n' end) with (Nat.even (S m)).
    rewrite Nat.even_succ, <- Nat.negb_even. destruct (Nat.even m); reflexivity.
Qed.

Lemma multi_segments f p1 p2 cuts :
  StronglySorted (≤) cuts -> Forall (fun x => x < length p1) cuts ->
  length p1 = length p2 ->
  forall c0 : nat, cuts !! 0 = Some c0 ->
  (forall idx lo l, cuts !! idx = Some lo -> lo <= l -> (forall hi, cuts !! S idx = Some hi -> l < hi) ->
     f l = Nat.even (c0 + idx)) ->
  forall n idx lo c, idx + n < length cuts -> cuts !! idx = Some lo ->
  built f p1 p2 lo c ->
  exists c' lo',
   ofold (multi_segment_step cuts) (c, if Nat.even (c0 + idx) then (p1, p2) else (p2, p1)) (seq idx n)
   = Ok (c', if Nat.even (c0 + idx + n) then (p1, p2) else (p2, p1)) /\
   cuts !! (idx + n) = Some lo' /\ built f p1 p2 lo' c'.
Proof.
  intros Hs Hall Hlen c0 Hc0 Hf n. induction n as [|n IH]; intros idx lo c Hn Hlo Hb.
  - exists c, lo. rewrite !Nat.add_0_r. cbn. auto.
  - destruct (lookup_lt_is_Some_2 cuts (S idx)) as [hi Hhi]; [lia|].
    pose proof (StronglySorted_lookup (≤) cuts idx (S idx) lo hi Hs ltac:(lia) Hlo Hhi) as Hle.
    assert (Hhl : hi < length p1) by (rewrite Forall_lookup in Hall; eauto).
    destruct (copy_built f p1 p2 lo hi c (Nat.even (c0 + idx))) as (c1 & Hc1 & Hb1); try lia; auto.
    { intros l Hl. eapply Hf; eauto; [lia|]. intros hi' Hhi'. assert (hi' = hi) by congruence. lia. }
    set (ps := if Nat.even (c0 + idx) then (p1, p2) else (p2, p1)).
    assert (E : copy_loci ps.1 ps.2 lo hi c = Ok c1)
      by (rewrite <- Hc1; subst ps; destruct (Nat.even (c0 + idx)); reflexivity).
    assert (E' : multi_segment_step cuts (c, ps) idx = Ok (c1, (ps.2, ps.1))).
    { unfold multi_segment_step, index. rewrite Nat.add_1_r, Hlo, Hhi. cbn. rewrite E. reflexivity. }
    cbn [seq ofold]. rewrite E'. cbn [mbind outcome_bind].
    destruct (IH (S idx) hi c1) as (c' & lo' & Hc' & Hlo' & Hb'); auto; [lia|].
    exists c', lo'. split; [|split; [rewrite <- Hlo'; f_equal; lia|exact Hb']].
    rewrite Nat.add_succ_r in Hc'.
    replace (c0 + idx + S n) with (S (c0 + idx) + n) by lia.
    rewrite <- Hc'. f_equal. f_equal. subst ps. rewrite Nat.even_succ, <- Nat.negb_even.
    destruct (Nat.even (c0 + idx)); reflexivity.
Qed.

Lemma multi_point_with_built k cuts p1 p2 (c0 : nat) :
  length p1 = length p2 -> StronglySorted (≤) cuts -> length cuts = k -> cuts !! 0 = Some c0 ->
  Forall (fun x => x < length p1) cuts ->
  exists c, multi_point_with k cuts p1 p2 = Ok c /\ built (multi_mask c0 cuts) p1 p2 (length p1) c.
Proof.
  intros Hlen Hs Hk Hc0 Hall. unfold multi_point_with, index. rewrite Hc0. cbn -[copy_loci].
  assert (Hc0l : c0 < length p1) by (rewrite Forall_lookup in Hall; eauto).
  assert (Hk0 : 0 < length cuts) by (eapply lookup_lt_Some; eauto).
  set (f := multi_mask c0 cuts).
  destruct (multi_prefix f p1 p2 c0 ([], [])) with (lo := 0) (a := p1) (b := p2) as (c1 & Hc1 & Hb1);
    try lia.
  { intros l Hl. unfold f, multi_mask. rewrite bool_decide_eq_true_2 by lia. reflexivity. }
  { apply built_nil. }
  rewrite Nat.sub_0_r in Hc1. rewrite Hc1. cbn -[copy_loci].
  assert (Hf : forall idx lo l, cuts !! idx = Some lo -> lo <= l ->
     (forall hi, cuts !! S idx = Some hi -> l < hi) -> f l = Nat.even (c0 + idx)).
  { intros idx lo l Hlo Hle Hhi. unfold f, multi_mask.
    rewrite (cuts_before_at cuts idx lo l) by auto.
    assert (c0 <= lo).
    { destruct idx as [|idx]; [assert (c0 = lo) by congruence; lia|].
      apply (StronglySorted_lookup (≤) cuts 0 (S idx) c0 lo Hs); auto; lia. }
    rewrite bool_decide_eq_false_2 by lia. cbn. f_equal; lia. }
  destruct (multi_segments f p1 p2 cuts Hs Hall Hlen c0 Hc0 Hf (k - 1) 0 c0 c1) as (c2 & lo' & Hc2 & Hlo' & Hb2);
    auto; [lia|].
  rewrite Nat.add_0_r in Hc2. rewrite Hc2. cbn [mbind outcome_bind].
  cbn in Hlo'. rewrite Hlo'. cbn [unwrap]. cbn [mbind outcome_bind].
  assert (Hl' : lo' < length p1) by (rewrite Forall_lookup in Hall; eauto).
  destruct (copy_built f p1 p2 lo' (length p1) c2 (Nat.even (c0 + (k - 1)))) as (c3 & Hc3 & Hb3); auto; try lia.
  { intros l Hl. eapply Hf; eauto; [lia|]. intros hi Hhi. apply lookup_lt_Some in Hhi. lia. }
  exists c3. split; [|exact Hb3]. rewrite <- Hc3. cbn [fst snd].
  destruct (Nat.even (c0 + (k - 1))); reflexivity.
Qed.

Lemma multi_point_built k p1 p2 r :
  length p1 = length p2 -> 1 <= k <= length p1 ->
  exists cuts (c0 : nat) c r', multi_point k p1 p2 r = Ok (c, r') /\
    StronglySorted (≤) cuts /\ NoDup cuts /\ length cuts = k /\
    Forall (fun x => x < length p1) cuts /\ cuts !! 0 = Some c0 /\
    (exists s r1, sample_indices (length p1) k r = Ok (s, r1) /\ cuts ≡ₚ s) /\
    built (multi_mask c0 cuts) p1 p2 (length p1) c.
Proof.
  intros Hlen Hk. unfold multi_point. rewrite !bool_decide_eq_true_2 by lia.
  cbn -[multi_point_with sample_indices].
  destruct (sample_indices_ok (length p1) k r) as (s & r1 & Hs); [lia|].
  rewrite Hs. cbn -[multi_point_with].
  pose proof (sample_indices_Ok _ _ _ _ _ Hs) as (_ & Hl & Hnd & Hall).
  set (cuts := merge_sort (≤) s).
  assert (Hp : cuts ≡ₚ s) by apply merge_sort_Permutation.
  assert (Hss : StronglySorted (≤) cuts) by (apply StronglySorted_merge_sort; apply _).
  assert (Hlc : length cuts = k) by (rewrite Hp; exact Hl).
  destruct (lookup_lt_is_Some_2 cuts 0) as [c0 Hc0]; [lia|].
  assert (Hall' : Forall (fun x => x < length p1) cuts) by (rewrite Hp; exact Hall).
  destruct (multi_point_with_built k cuts p1 p2 c0) as (c & Hc & Hb); auto.
  fold cuts. rewrite Hc. cbn.
  exists cuts, c0, c, r1. split_and!; auto.
  - rewrite Hp; auto.
  - exists s, r1; auto.
Qed.

(** *** Mask-driven operators *)
Lemma apply_mask_built mask p1 p2 :
  length mask = length p1 -> length p1 = length p2 ->
  exists c, apply_mask mask p1 p2 = Ok c /\
    built (fun l => default true (mask !! l)) p1 p2 (length p1) c.
Proof.
  intros Hm Hlen. unfold apply_mask.
  set (f := fun l => default true (mask !! l)).
  assert (H : forall m lo c, drop lo mask = m -> lo + length m = length mask -> built f p1 p2 lo c ->
    exists c', ofold (mask_step p1 p2) c (imap (fun i b => (lo + i, b)) m) = Ok c' /\
       built f p1 p2 (length p1) c').
  { induction m as [|b m IH]; intros lo c Hd Hl Hb; cbn.
    - exists c. cbn in Hl. replace (length p1) with lo by lia. auto.
    - assert (Hlo : mask !! lo = Some b).
      { rewrite <- (Nat.add_0_r lo), <- lookup_drop, Hd. reflexivity. }
      cbn in Hl. destruct (push_built f p1 p2 lo c b Hb) as (c1 & Hc1 & Hb1); try lia.
      { unfold f. rewrite Hlo. reflexivity. }
      assert (E : mask_step p1 p2 c (lo, b) = Ok c1) by (rewrite <- Hc1; destruct b; reflexivity).
      rewrite Nat.add_0_r, E. cbn.
      assert (Hd' : drop (S lo) mask = m).
      { change (S lo) with (1 + lo). rewrite Nat.add_comm, <- drop_drop, Hd. reflexivity. }
      destruct (IH (S lo) c1 Hd' ltac:(lia) Hb1) as (c' & Hc' & Hb').
      exists c'. split; [|exact Hb']. rewrite <- Hc'. f_equal. apply imap_ext. intros; cbn; f_equal; lia. }
  destruct (H mask 0 ([], [])) as (c' & Hc' & Hb'); [reflexivity|lia|apply built_nil|].
  exists c'. split; [exact Hc'|exact Hb'].
Qed.

Lemma uniform_built kind p1 p2 r : length p1 = length p2 ->
  exists c vals r1, uniform kind p1 p2 r = Ok (c, after_clone kind r r1) /\
    repeatM (length p1) uni_f64 r = (vals, r1) /\
    built (fun l => default true ((fun v => fge v fhalf) <$> vals !! l)) p1 p2 (length p1) c.
Proof.
  intros Hlen. unfold uniform. rewrite bool_decide_eq_true_2 by auto. cbn -[apply_mask].
  destruct (repeatM (length p1) uni_f64 r) as [vals r1] eqn:E.
  pose proof (repeatM_length _ _ _ _ _ E) as Hl.
  destruct (apply_mask_built ((fun v => fge v fhalf) <$> vals) p1 p2) as (c & -> & Hb); auto.
  { rewrite fmap_length; exact Hl. }
  exists c, vals, r1. split_and!; auto.
  eapply built_ext; [|exact Hb]. intros l. cbn. rewrite list_lookup_fmap. reflexivity.
Qed.

Lemma uniform_parameterized_built kind bias p1 p2 r : length p1 = length p2 ->
  exists c vals r1, uniform_parameterized kind bias p1 p2 r = Ok (c, after_clone kind r r1) /\
    repeatM (length p1) uni_f64 r = (vals, r1) /\
    built (fun l => default true ((fun v => fle v bias) <$> vals !! l)) p1 p2 (length p1) c.
Proof.
  intros Hlen. unfold uniform_parameterized. rewrite bool_decide_eq_true_2 by auto. cbn -[apply_mask].
  destruct (repeatM (length p1) uni_f64 r) as [vals r1] eqn:E.
  pose proof (repeatM_length _ _ _ _ _ E) as Hl.
  destruct (apply_mask_built ((fun v => fle v bias) <$> vals) p1 p2) as (c & -> & Hb); auto.
  { rewrite fmap_length; exact Hl. }
  exists c, vals, r1. split_and!; auto.
  eapply built_ext; [|exact Hb]. intros l. cbn. rewrite list_lookup_fmap. reflexivity.
Qed.

Lemma shuffle_xo_built p1 p2 r : length p1 = length p2 -> 0 < length p1 ->
  exists c cut sh r', shuffle_xo p1 p2 r = Ok (c, r') /\ cut < length p1 /\ sh ≡ₚ seq 0 (length p1) /\
    built (fun l => default true ((fun x => bool_decide (x < cut)) <$> sh !! l)) p1 p2 (length p1) c.
Proof.
  intros Hlen Hne. unfold shuffle_xo.
  destruct (gen_range_is_Ok 0 (length p1) r Hne) as (cut & -> & Hc). cbn -[apply_mask shuffle].
  destruct (shuffle_ok (seq 0 (length p1)) (rng_tail r)) as (sh & r2 & Hsh).
  rewrite Hsh. cbn -[apply_mask]. apply shuffle_perm in Hsh.
  destruct (apply_mask_built ((fun x => bool_decide (x < cut)) <$> sh) p1 p2) as (c & -> & Hb); auto.
  { rewrite fmap_length, Hsh, seq_length. reflexivity. }
  exists c, cut, sh, r2. split_and!; auto; try lia.
  eapply built_ext; [|exact Hb]. intros l. cbn. rewrite list_lookup_fmap. reflexivity.
Qed.

End Pointwise.

(** ** Consequences in the vocabulary of CrossoverSpec *)
Section Results.
Context {G : Type}.
Implicit Types (p q : list G).

Lemma built_follows f p1 p2 c : length p1 = length p2 -> built f p1 p2 (length p1) c ->
  follows f p1 p2 c.1 c.2.
Proof. intros Hlen Hb l. apply (built_full f p1 p2 c Hlen Hb l). Qed.

Lemma follows_ext_eq f p1 p2 c : length p1 = length p2 -> built f p1 p2 (length p1) c ->
  forall d1 d2, (forall l, d1 !! l = (if f l then p1 else p2) !! l) ->
   (forall l, d2 !! l = (if f l then p2 else p1) !! l) -> c = (d1, d2).
Proof.
  intros Hlen Hb d1 d2 H1 H2. destruct c as [x y]. f_equal; apply list_eq; intros l;
  destruct (built_full f p1 p2 (x, y) Hlen Hb l) as [E1 E2]; cbn in *; rewrite ?E1, ?E2, ?H1, ?H2; reflexivity.
Qed.

Lemma single_point_recomb p1 p2 r : length p1 = length p2 -> 0 < length p1 ->
  exists c1 c2 r', single_point p1 p2 r = Ok ((c1, c2), r') /\ recombination p1 p2 c1 c2.
Proof.
  intros Hl Hn. destruct (single_point_built p1 p2 r Hl Hn) as (cut & [c1 c2] & r' & E & _ & _ & Hb).
  exists c1, c2, r'. split; [exact E|]. exact (built_recombination _ _ _ (c1, c2) Hl Hb).
Qed.
Lemma two_point_recomb p1 p2 r : length p1 = length p2 -> 0 < length p1 ->
  exists c1 c2 r', two_point p1 p2 r = Ok ((c1, c2), r') /\ recombination p1 p2 c1 c2.
Proof.
  intros Hl Hn. destruct (two_point_built p1 p2 r Hl Hn) as (a & b & [c1 c2] & r' & E & _ & _ & Hb).
  exists c1, c2, r'. split; [exact E|]. exact (built_recombination _ _ _ (c1, c2) Hl Hb).
Qed.
Lemma fixed_point_recomb cut p1 p2 : length p1 = length p2 ->
  exists c1 c2, fixed_point cut p1 p2 = Ok (c1, c2) /\ recombination p1 p2 c1 c2.
Proof.
  intros Hl. destruct (fixed_point_spec cut p1 p2 Hl) as ([c1 c2] & E & H1 & H2). cbn in *.
  exists c1, c2. split; [exact E|]. subst. unfold recombination.
  split; [unfold cut_once; rewrite app_length, take_length, drop_length; lia|].
  split; [unfold cut_once; rewrite app_length, take_length, drop_length; lia|].
  intros l a b Ha Hb. rewrite !cut_once_lookup by auto. case_bool_decide; auto.
Qed.
Lemma multi_point_recomb k p1 p2 r : length p1 = length p2 -> 1 <= k <= length p1 ->
  exists c1 c2 r', multi_point k p1 p2 r = Ok ((c1, c2), r') /\ recombination p1 p2 c1 c2.
Proof.
  intros Hl Hn. destruct (multi_point_built k p1 p2 r Hl Hn) as (cuts & c0 & [c1 c2] & r' & E & H).
  exists c1, c2, r'. split; [exact E|]. apply (built_recombination (multi_mask c0 cuts) _ _ (c1, c2) Hl). apply H.
Qed.
Lemma uniform_recomb kind p1 p2 r : length p1 = length p2 ->
  exists c1 c2 r', uniform kind p1 p2 r = Ok ((c1, c2), r') /\ recombination p1 p2 c1 c2.
Proof.
  intros Hl. destruct (uniform_built kind p1 p2 r Hl) as ([c1 c2] & vals & r1 & E & _ & Hb).
  exists c1, c2, (after_clone kind r r1). split; [exact E|]. exact (built_recombination _ _ _ (c1, c2) Hl Hb).
Qed.
Lemma uniform_parameterized_recomb kind bias p1 p2 r : length p1 = length p2 ->
  exists c1 c2 r', uniform_parameterized kind bias p1 p2 r = Ok ((c1, c2), r') /\ recombination p1 p2 c1 c2.
Proof.
  intros Hl. destruct (uniform_parameterized_built kind bias p1 p2 r Hl) as ([c1 c2] & vals & r1 & E & _ & Hb).
  exists c1, c2, (after_clone kind r r1). split; [exact E|]. exact (built_recombination _ _ _ (c1, c2) Hl Hb).
Qed.
Lemma shuffle_recomb p1 p2 r : length p1 = length p2 -> 0 < length p1 ->
  exists c1 c2 r', shuffle_xo p1 p2 r = Ok ((c1, c2), r') /\ recombination p1 p2 c1 c2.
Proof.
  intros Hl Hn. destruct (shuffle_xo_built p1 p2 r Hl Hn) as ([c1 c2] & cut & sh & r' & E & _ & _ & Hb).
  exists c1, c2, r'. split; [exact E|]. exact (built_recombination _ _ _ (c1, c2) Hl Hb).
Qed.

Lemma single_point_structure p1 p2 r : length p1 = length p2 -> 0 < length p1 ->
  exists cut r', gen_range 0 (length p1) r = Ok (cut, r') /\ cut < length p1 /\
    single_point p1 p2 r = Ok ((cut_once cut p1 p2, cut_once cut p2 p1), r').
Proof.
  intros Hl Hn. destruct (single_point_built p1 p2 r Hl Hn) as (cut & c & r' & E & Hc & Hg & Hb).
  exists cut, r'. split; [exact Hg|]. split; [exact Hc|]. rewrite E. repeat f_equal.
  apply (follows_ext_eq _ p1 p2 c Hl Hb); intros l; rewrite cut_once_lookup by auto; reflexivity.
Qed.
Lemma two_point_structure p1 p2 r : length p1 = length p2 -> 0 < length p1 ->
  exists a b r', a <= b < length p1 /\
    two_point p1 p2 r = Ok ((cut_twice a b p1 p2, cut_twice a b p2 p1), r').
Proof.
  intros Hl Hn. destruct (two_point_built p1 p2 r Hl Hn) as (a & b & c & r' & E & Hab & Hbl & Hb).
  exists a, b, r'. split; [lia|]. rewrite E. repeat f_equal.
  apply (follows_ext_eq _ p1 p2 c Hl Hb); intros l; rewrite cut_twice_lookup by auto; reflexivity.
Qed.
(** Every pair of cut points is possible. *)
Lemma two_point_all_cuts p1 p2 a b : length p1 = length p2 -> a <= b < length p1 ->
  exists r r', two_point p1 p2 r = Ok ((cut_twice a b p1 p2, cut_twice a b p2 p1), r').
Proof.
  intros Hl Hab.
  set (r := fun n => match n with 0 => N.of_nat a | _ => N.of_nat b end : N).
  exists r. unfold two_point. rewrite bool_decide_eq_true_2 by auto. cbn [mbind outcome_bind rassert].
  assert (E1 : gen_range 0 (length p1) r = Ok (a, rng_tail r)).
  { unfold gen_range. rewrite decide_True by lia. subst r; cbn. rewrite N.mod_small by lia.
    rewrite Nat2N.id. reflexivity. }
  assert (E2 : gen_range 0 (length p1) (rng_tail r) = Ok (b, rng_tail (rng_tail r))).
  { unfold gen_range. rewrite decide_True by lia. subst r; cbn. rewrite N.mod_small by lia.
    rewrite Nat2N.id. reflexivity. }
  rewrite E1. cbn [mbind outcome_bind]. rewrite E2. cbn [mbind outcome_bind].
  rewrite decide_True by lia.
  set (f := fun l => bool_decide (l < a) || bool_decide (b <= l)).
  destruct (copy_built f p1 p2 0 a ([], []) true) as (c1 & Hc1 & Hb1); try lia.
  { apply built_nil. } { intros; unfold f; rewrite bool_decide_eq_true_2 by lia; auto. }
  rewrite Hc1. cbn [mbind outcome_bind].
  destruct (copy_built f p1 p2 a b c1 false) as (c2 & Hc2 & Hb2); try lia; auto.
  { intros; unfold f; rewrite !bool_decide_eq_false_2 by lia; auto. }
  rewrite Hc2. cbn [mbind outcome_bind].
  destruct (copy_built f p1 p2 b (length p1) c2 true) as (c3 & Hc3 & Hb3); try lia; auto.
  { intros; unfold f; rewrite (bool_decide_eq_true_2 (b <= l)) by lia. apply orb_true_r. }
  rewrite Hc3. cbn [mbind outcome_bind]. eexists. repeat f_equal.
  apply (follows_ext_eq _ p1 p2 c3 Hl Hb3); intros l; rewrite cut_twice_lookup by (auto; lia); reflexivity.
Qed.

(** MultiPoint: what the code does, locus by locus. *)
Lemma multi_point_structure k p1 p2 r : length p1 = length p2 -> 1 <= k <= length p1 ->
  exists cuts c0 c1 c2 r', multi_point k p1 p2 r = Ok ((c1, c2), r') /\
    StronglySorted (≤) cuts /\ NoDup cuts /\ length cuts = k /\ Forall (fun x => x < length p1) cuts /\
    head cuts = Some c0 /\
    (exists s r1, sample_indices (length p1) k r = Ok (s, r1) /\ cuts ≡ₚ s) /\
    follows (fun l => bool_decide (l < c0) || Nat.even (c0 + cuts_before cuts l - 1)) p1 p2 c1 c2.
Proof.
  intros Hl Hk. destruct (multi_point_built k p1 p2 r Hl Hk) as (cuts & c0 & [c1 c2] & r' & E & Hs & Hnd & Hlc & Hall & Hc0 & Hsm & Hb).
  exists cuts, c0, c1, c2, r'. split_and!; auto.
  { destruct cuts; cbn in *; [discriminate|auto]. }
  apply (built_follows _ p1 p2 (c1, c2) Hl). eapply built_ext; [|exact Hb].
  intros l. unfold multi_mask. case_bool_decide; cbn; [auto|]. f_equal.
  assert (1 <= cuts_before cuts l); [|lia].
  unfold cuts_before. destruct cuts as [|x cuts]; [discriminate|]. cbn in Hc0. injection Hc0 as ->.
  rewrite filter_cons_True by lia. cbn. lia.
Qed.

(** The documented structure is realised iff the first cut is odd (or nothing distinguishes the parents). *)
Lemma multi_point_alternates k p1 p2 r : length p1 = length p2 -> 1 <= k <= length p1 ->
  exists cuts c0 c1 c2 r', multi_point k p1 p2 r = Ok ((c1, c2), r') /\
    NoDup cuts /\ length cuts = k /\ Forall (fun x => x < length p1) cuts /\ head cuts = Some c0 /\
    StronglySorted (≤) cuts /\
    (Nat.odd c0 = true -> alternates cuts p1 p2 c1 /\ alternates cuts p2 p1 c2).
Proof.
  intros Hl Hk. destruct (multi_point_structure k p1 p2 r Hl Hk)
    as (cuts & c0 & c1 & c2 & r' & E & Hs & Hnd & Hlc & Hall & Hc0 & Hsm & Hf).
  exists cuts, c0, c1, c2, r'. split_and!; auto. intros Hodd.
  assert (Hc0' : cuts !! 0 = Some c0) by (destruct cuts; cbn in *; [discriminate|auto]).
  assert (Em : forall l, bool_decide (l < c0) || Nat.even (c0 + cuts_before cuts l - 1) = Nat.even (cuts_before cuts l)).
  { intros l. case_bool_decide as Hlt; cbn.
    - rewrite (cuts_before_0 cuts l c0); auto.
    - assert (1 <= cuts_before cuts l).
      { unfold cuts_before. destruct cuts as [|x cuts]; [discriminate|]. cbn in Hc0'. injection Hc0' as ->.
        rewrite filter_cons_True by lia. cbn. lia. }
      destruct (cuts_before cuts l) as [|m]; [lia|]. replace (c0 + S m - 1) with (c0 + m) by lia.
      rewrite Nat.even_add, Nat.even_succ. rewrite <- Nat.negb_odd, Hodd. cbn.
      rewrite <- Nat.negb_odd. destruct (Nat.odd m); reflexivity. }
  split; intros l; destruct (Hf l) as [H1 H2].
  - rewrite H1, Em. clear. destruct (Nat.even (cuts_before cuts l)); reflexivity.
  - rewrite H2, Em. clear. destruct (Nat.even (cuts_before cuts l)); reflexivity.
Qed.

(** With a value-type RNG the operator state does not change, and the mask depends on it only. *)
Definition uniform_mask (r : rng) (l : nat) : bool :=
  fge (f_unit 52 (r l mod 2 ^ 52)) fhalf.
Definition uniform_p_mask (bias : f64) (r : rng) (l : nat) : bool :=
  fle (f_unit 52 (r l mod 2 ^ 52)) bias.

Lemma repeatM_uni n r : exists r', repeatM n uni_f64 r = ((fun l => f_unit 52 (r l mod 2 ^ 52)) <$> seq 0 n, r').
Proof.
  revert r; induction n as [|n IH]; intros r; cbn -[f_unit N.pow]; [eauto|].
  destruct (IH (rng_tail r)) as [r' ->]. eexists. f_equal. f_equal.
  rewrite <- fmap_S_seq. rewrite <- list_fmap_compose. reflexivity.
Qed.

Lemma built_mask_swap f g p1 p2 n c : (forall l, l < n -> f l = g l) -> built f p1 p2 n c -> built g p1 p2 n c.
Proof. intros E (H1 & H2 & H). split; [auto|split; [auto|]]. intros l Hl. rewrite <- E by auto. apply H; auto. Qed.

Lemma uniform_value p1 p2 r : length p1 = length p2 ->
  exists c1 c2, uniform ValueRng p1 p2 r = Ok ((c1, c2), r) /\ follows (uniform_mask r) p1 p2 c1 c2.
Proof.
  intros Hl. destruct (uniform_built ValueRng p1 p2 r Hl) as ([c1 c2] & vals & r1 & E & Hv & Hb).
  exists c1, c2. split; [exact E|]. apply (built_follows _ p1 p2 (c1, c2) Hl).
  eapply built_mask_swap; [|exact Hb]. intros l Hll. cbn.
  destruct (repeatM_uni (length p1) r) as [r' Hr']. rewrite Hr' in Hv. injection Hv as <- _.
  rewrite list_lookup_fmap, lookup_seq_lt by auto. reflexivity.
Qed.
Lemma uniform_p_value bias p1 p2 r : length p1 = length p2 ->
  exists c1 c2, uniform_parameterized ValueRng bias p1 p2 r = Ok ((c1, c2), r) /\
    follows (uniform_p_mask bias r) p1 p2 c1 c2.
Proof.
  intros Hl. destruct (uniform_parameterized_built ValueRng bias p1 p2 r Hl) as ([c1 c2] & vals & r1 & E & Hv & Hb).
  exists c1, c2. split; [exact E|]. apply (built_follows _ p1 p2 (c1, c2) Hl).
  eapply built_mask_swap; [|exact Hb]. intros l Hll. cbn.
  destruct (repeatM_uni (length p1) r) as [r' Hr']. rewrite Hr' in Hv. injection Hv as <- _.
  rewrite list_lookup_fmap, lookup_seq_lt by auto. reflexivity.
Qed.

(** A bias of at least 1 makes every mask bit 1: the children are copies of the parents. *)
Lemma uniform_p_bias1 kind bias p1 p2 r : length p1 = length p2 -> fle f1 bias = true ->
  exists r', uniform_parameterized kind bias p1 p2 r = Ok ((p1, p2), r').
Proof.
  intros Hl Hb1. destruct (uniform_parameterized_built kind bias p1 p2 r Hl) as (c & vals & r1 & E & Hv & Hb).
  exists (after_clone kind r r1). rewrite E. repeat f_equal.
  assert (Hb' : built (fun _ => true) p1 p2 (length p1) c).
  { eapply built_mask_swap; [|exact Hb]. intros l Hll. cbn.
    destruct (repeatM_uni (length p1) r) as [r' Hr']. rewrite Hr' in Hv. injection Hv as <- _.
    rewrite list_lookup_fmap, lookup_seq_lt by auto. cbn [fmap option_fmap option_map default from_option].
    pose proof (f_unit_range 52 (r l mod 2 ^ 52)) as [_ Hu]; [apply N.mod_lt; discriminate|].
    apply (fle_trans _ f1); [apply flt_le; exact Hu|exact Hb1]. }
  apply (follows_ext_eq _ p1 p2 c Hl Hb'); reflexivity.
Qed.
End Results.

(** ** [apply] over a pool *)
Section Pool.
Context {I S : Type} (single : I -> I -> S -> outcome ((I * I) * S)).

Lemma list_pair_ind (P : list I -> Prop) :
  P [] -> (forall a, P [a]) -> (forall a b l, P l -> P (a :: b :: l)) -> forall l, P l.
Proof using Type.
  intros H0 H1 H2. assert (H : forall n l, length l <= n -> P l).
  { induction n as [|n IH]; intros [|a [|b l]] Hl; cbn in Hl; auto; try lia. apply H2, IH. lia. }
  intros l. apply (H (length l)). lia.
Qed.

Lemma apply_chunks_pairs pool s out s' : apply_chunks single pool s = Ok (out, s') ->
  Nat.even (length pool) = true /\ pairwise_results single Ok pool s out s'.
Proof using Type.
  revert s out; induction pool as [|a|a b l IH] using list_pair_ind; intros s out H; cbn in H.
  - injection H as <- <-. split; [reflexivity|]. split; [reflexivity|].
    exists (fun _ => s). split_and!; auto. intros i Hi. cbn in Hi. lia.
  - discriminate.
  - apply obind_Ok in H as ([[c d] s1] & H1 & H). apply obind_Ok in H as ([out1 s2] & H2 & H).
    injection H as <- <-. destruct (IH _ _ H2) as (Hev & Hlen & st & St0 & StE & Hst).
    split; [exact Hev|]. split; [cbn; lia|].
    exists (fun n => match n with 0 => s | Datatypes.S n => st n end). split; [reflexivity|].
    split; [exact StE|]. intros i Hi. destruct i as [|i].
    + exists a, b, c, d. cbn. rewrite St0. auto.
    + destruct (Hst i) as (a' & b' & c' & d' & Ha & Hb & Hc & Hd & E).
      { cbn in Hi. lia. }
      exists a', b', c', d'.
      replace (2 * Datatypes.S i) with (Datatypes.S (Datatypes.S (2 * i))) by lia.
      replace (Datatypes.S (Datatypes.S (2 * i)) + 1) with (Datatypes.S (Datatypes.S (2 * i + 1))) by lia.
      cbn [lookup list_lookup]. auto.
Qed.

Lemma crossover_apply_pairs pool s out s' : crossover_apply single pool s = Ok (out, s') ->
  pairwise_results single Ok pool s out s'.
Proof using Type.
  unfold crossover_apply. intros H. apply obind_Ok in H as (? & _ & H).
  apply apply_chunks_pairs in H. apply H.
Qed.
Lemma crossover_apply_odd pool s : Nat.odd (length pool) = true -> crossover_apply single pool s = Panic.
Proof using Type. intros H. unfold crossover_apply. rewrite <- Nat.negb_odd, H. reflexivity. Qed.

Lemma apply_chunks_ok (P : I -> Prop) pool s : Forall P pool -> Nat.even (length pool) = true ->
  (forall a b s, P a -> P b -> exists c d s', single a b s = Ok ((c, d), s')) ->
  exists out s', apply_chunks single pool s = Ok (out, s').
Proof using Type.
  intros Hall Hev Hs. revert s Hall Hev.
  induction pool as [|a|a b l IH] using list_pair_ind; intros s Hall Hev; cbn in *.
  - eauto.
  - discriminate.
  - apply Forall_cons in Hall as [Ha Hall]. apply Forall_cons in Hall as [Hb Hall].
    destruct (Hs a b s Ha Hb) as (c & d & s1 & ->). cbn.
    destruct (IH s1 Hall Hev) as (out & s2 & ->). cbn. eauto.
Qed.
Lemma crossover_apply_ok (P : I -> Prop) pool s : Forall P pool -> Nat.even (length pool) = true ->
  (forall a b s, P a -> P b -> exists c d s', single a b s = Ok ((c, d), s')) ->
  exists out s', crossover_apply single pool s = Ok (out, s').
Proof using Type.
  intros Hall Hev Hs. unfold crossover_apply. rewrite Hev. cbn. eapply apply_chunks_ok; eauto.
Qed.
(** Same, with a property of the children. *)
Lemma apply_chunks_post (P Q : I -> Prop) pool s out s' : Forall P pool ->
  (forall a b s c d s', P a -> P b -> single a b s = Ok ((c, d), s') -> Q c /\ Q d) ->
  apply_chunks single pool s = Ok (out, s') -> Forall Q out.
Proof using Type.
  intros Hall Hs. revert s out Hall.
  induction pool as [|a|a b l IH] using list_pair_ind; intros s out Hall H; cbn in H.
  - injection H as <- <-. constructor.
  - discriminate.
  - apply obind_Ok in H as ([[c d] s1] & H1 & H). apply obind_Ok in H as ([out1 s2] & H2 & H).
    injection H as <- <-.
    apply Forall_cons in Hall as [Ha Hall]. apply Forall_cons in Hall as [Hb Hall].
    destruct (Hs _ _ _ _ _ _ Ha Hb H1). constructor; [auto|]. constructor; [auto|]. eauto.
Qed.
Lemma crossover_apply_post (P Q : I -> Prop) pool s out s' : Forall P pool ->
  (forall a b s c d s', P a -> P b -> single a b s = Ok ((c, d), s') -> Q c /\ Q d) ->
  crossover_apply single pool s = Ok (out, s') -> Forall Q out.
Proof using Type.
  intros Hall Hs H. unfold crossover_apply in H. apply obind_Ok in H as (? & _ & H).
  eapply apply_chunks_post; eauto.
Qed.
End Pool.

(** One mask for the whole pool, whatever its size: value-type RNG. *)
Lemma uniform_pool_one_mask {G} n (pool : list (individual G)) r :
  Nat.even (length pool) = true -> Forall (fun i => length (chromosome i) = n) pool ->
  exists out, crossover_apply (lift_single (uniform ValueRng)) pool r = Ok (out, r) /\
   forall i a b c d, pool !! (2 * i) = Some a -> pool !! (2 * i + 1) = Some b ->
     out !! (2 * i) = Some c -> out !! (2 * i + 1) = Some d ->
     follows (uniform_mask r) (chromosome a) (chromosome b) (chromosome c) (chromosome d).
Proof.
  intros Hev Hall. unfold crossover_apply. rewrite Hev. cbn [rassert mbind outcome_bind].
  revert Hev Hall. induction pool as [|a|a b l IH] using list_pair_ind; intros Hev Hall; cbn [apply_chunks].
  - exists []. split; [reflexivity|]. intros i a b c d H; rewrite lookup_nil in H; discriminate.
  - discriminate.
  - apply Forall_cons in Hall as [Ha Hall]. apply Forall_cons in Hall as [Hb Hall].
    destruct (uniform_value (chromosome a) (chromosome b) r) as (c1 & c2 & E & Hf); [congruence|].
    assert (E' : lift_single (uniform ValueRng) a b r = Ok ((ind_from c1, ind_from c2), r))
      by (unfold lift_single; rewrite E; reflexivity).
    rewrite E'. cbn [mbind outcome_bind].
    destruct (IH Hev Hall) as (out & -> & Hout). cbn [mbind outcome_bind].
    eexists. split; [reflexivity|]. intros [|i] a' b' c' d' H1 H2 H3 H4.
    + cbn in *. injection H1 as <-. injection H2 as <-. injection H3 as <-. injection H4 as <-. exact Hf.
    + replace (2 * Datatypes.S i) with (Datatypes.S (Datatypes.S (2 * i))) in * by lia.
      replace (Datatypes.S (Datatypes.S (2 * i)) + 1) with (Datatypes.S (Datatypes.S (2 * i + 1))) in * by lia.
      exact (Hout i a' b' c' d' H1 H2 H3 H4).
Qed.

Lemma uniform_one_mask_forever (G : Type) (r : rng) : exists mask : nat -> bool,
  forall n (pool : list (individual G)),
  Nat.even (length pool) = true -> Forall (fun i => length (chromosome i) = n) pool ->
  exists out, crossover_apply (lift_single (uniform ValueRng)) pool r = Ok (out, r) /\
   forall i a b c d, pool !! (2 * i) = Some a -> pool !! (2 * i + 1) = Some b ->
     out !! (2 * i) = Some c -> out !! (2 * i + 1) = Some d ->
     follows mask (chromosome a) (chromosome b) (chromosome c) (chromosome d).
Proof. exists (uniform_mask r). intros n pool. apply uniform_pool_one_mask. Qed.
Lemma uniform_p_one_mask_forever (G : Type) (bias : f64) (r : rng) : exists mask : nat -> bool,
  forall (p1 p2 : list G), length p1 = length p2 ->
  exists c1 c2, uniform_parameterized ValueRng bias p1 p2 r = Ok ((c1, c2), r) /\ follows mask p1 p2 c1 c2.
Proof. exists (uniform_p_mask bias r). intros p1 p2. apply uniform_p_value. Qed.

Lemma lift_children_fitness {G} (op : list G -> list G -> rng -> outcome ((list G * list G) * rng)) (pool out : list (individual G)) (r r' : rng) :
  crossover_apply (lift_single op) pool r = Ok (out, r') -> Forall (fun c => fitness c = fmin) out.
Proof.
  unfold crossover_apply. intros H. apply obind_Ok in H as (_ & _ & H). revert r out r' H.
  induction pool as [|a|a b pool IH] using list_pair_ind; intros r out r' H; cbn [apply_chunks] in H.
  - injection H as <- <-. constructor.
  - discriminate.
  - apply obind_Ok in H as ([[c1 c2] r1] & E & H). apply obind_Ok in H as ([out' r2] & E' & H). injection H as <- <-.
    unfold lift_single in E. apply obind_Ok in E as ([[d1 d2] r3] & _ & E). injection E as <- <- <-.
    constructor; [reflexivity|]. constructor; [reflexivity|]. eapply IH, E'.
Qed.
Lemma fixed_children_fitness {G} (cut : nat) (pool out : list (individual G)) :
  crossover_apply (fixed_single cut) pool tt = Ok (out, tt) -> map fitness out = map fitness pool.
Proof.
  unfold crossover_apply. intros H. apply obind_Ok in H as (_ & _ & H). revert out H.
  generalize tt at 1. generalize tt. 
  induction pool as [|a|a b pool IH] using list_pair_ind; intros u u' out H; cbn [apply_chunks] in H.
  - injection H as <- <-. reflexivity.
  - discriminate.
  - apply obind_Ok in H as ([[c1 c2] r1] & E & H). apply obind_Ok in H as ([out' r2] & E' & H). injection H as <- <-.
    unfold fixed_single in E. apply obind_Ok in E as ([d1 d2] & _ & E). injection E as <- <- <-.
    cbn [map fitness]. f_equal. f_equal. eapply IH, E'.
Qed.
