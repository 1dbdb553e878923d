(** * Proofs: how often each member wins a rank comparison or a tournament *)
From Verif Require Export ChanceSpec.
From Verif Require Import SelectionSpec SelectionModel SelectionProofs F64.
From Coq Require Import Lia.
Open Scope nat_scope.

(** The positions of the members with a property *)
Definition positions {A} (P : A -> bool) (l : list A) : list nat :=
  List.filter (fun j => match l !! j with Some p => P p | None => false end) (seq 0 (length l)).
Lemma filter_map_S (f : nat -> bool) l : List.filter f (map S l) = map S (List.filter (fun j => f (S j)) l).
Proof. induction l as [|x l IH]; [reflexivity|]. cbn [map List.filter]. destruct (f (S x)); cbn [map]; rewrite IH; reflexivity. Qed.
Lemma positions_length {A} (P : A -> bool) (l : list A) : length (positions P l) = length (List.filter P l).
Proof.
  unfold positions. induction l as [|x l IH]; [reflexivity|]. cbn [length seq]. rewrite <- seq_shift. cbn [List.filter].
  rewrite filter_map_S. change ((x :: l) !! 0) with (Some x). destruct (P x); cbn [length]; rewrite map_length; [f_equal|]; exact IH.
Qed.
Lemma positions_in {A} (P : A -> bool) (l : list A) j : j ∈ positions P l <-> exists p, l !! j = Some p /\ P p = true.
Proof.
  unfold positions. rewrite elem_of_list_In, filter_In, in_seq. split.
  - intros [_ H]. destruct (l !! j) as [p|]; [eauto|discriminate].
  - intros (p & Hp & H). rewrite Hp. split; [|exact H]. apply lookup_lt_Some in Hp. lia.
Qed.
Lemma positions_NoDup {A} (P : A -> bool) (l : list A) : NoDup (positions P l).
Proof. apply NoDup_ListNoDup; unfold positions; apply List.NoDup_filter, List.seq_NoDup. Qed.

Section Rank.
Context {G : Type}.
Implicit Types pop : list (individual G).

(** The k-th selection of Rank is decided by draws 2k and 2k+1. *)
Lemma rank_spin_draw pop r : pop <> [] -> exists s,
  rank_spin pop r = Ok (s, rng_tail (rng_tail r)) /\
  rank_winner pop (N.to_nat (r 0%nat mod N.of_nat (length pop)), N.to_nat (r 1%nat mod N.of_nat (length pop))) s.
Proof.
  intros Hne. assert (0 < length pop) as H0 by (destruct pop; [done|cbn; lia]).
  assert (forall x, N.to_nat (x mod N.of_nat (length pop)) < length pop) as HM. { intros x. assert (x mod N.of_nat (length pop) < N.of_nat (length pop))%N; [apply N.mod_lt; lia|lia]. }
  unfold rank_spin, gen_range. rewrite decide_True by exact H0. cbn [mbind outcome_bind]. rewrite Nat.sub_0_r, !Nat.add_0_l.
  destruct (lookup_lt_is_Some_2 pop (N.to_nat (r 0%nat mod N.of_nat (length pop)))) as [a Ha]; [apply HM|].
  rewrite (proj2 (index_Ok _ _ _) Ha). cbn [mbind outcome_bind]. rewrite ?Nat.sub_0_r, ?Nat.add_0_l.
  change (rng_tail r 0) with (r 1). destruct (lookup_lt_is_Some_2 pop (N.to_nat (r 1%nat mod N.of_nat (length pop)))) as [b Hb]; [apply HM|].
  rewrite decide_True by exact H0. cbn [mbind outcome_bind]. rewrite (proj2 (index_Ok _ _ _) Hb). cbn [mbind outcome_bind]. eexists. split; [reflexivity|]. exists a, b. auto.
Qed.
Lemma rank_draws count pop r : pop <> [] -> exists sel r', rank count pop r = Ok (sel, r') /\ length sel = count /\
  forall k s, sel !! k = Some s ->
    rank_winner pop (N.to_nat (r (2 * k)%nat mod N.of_nat (length pop)), N.to_nat (r (2 * k + 1)%nat mod N.of_nat (length pop))) s.
Proof.
  intros Hne. unfold rank. revert r. induction count as [|count IH]; intros r; cbn [repeatO].
  { exists [], r. split; [reflexivity|]. split; [reflexivity|]. intros k s [=]. }
  destruct (rank_spin_draw pop r Hne) as (s & E & W). rewrite E. cbn [mbind outcome_bind].
  destruct (IH (rng_tail (rng_tail r))) as (sel & r' & E' & L & H). rewrite E'. cbn [mbind outcome_bind].
  exists (s :: sel), r'. split; [reflexivity|]. split; [cbn; lia|]. intros [|k] s' Hs.
  - injection Hs as <-. exact W.
  - specialize (H k s' Hs). replace (2 * S k) with (S (S (2 * k))) by lia. exact H.
Qed.

Lemma rank_wins pop s a : pop !! s = Some a -> comparable pop ->
  exists wins : list (nat * nat), NoDup wins /\ (forall ij, ij ∈ wins <-> rank_winner pop ij s) /\
    length wins = length (List.filter (fun p => fle (fitness p) (fitness a)) pop) + length (List.filter (fun p => flt (fitness p) (fitness a)) pop).
Proof.
  intros Ha Hc. pose proof (fun i p (H : pop !! i = Some p) => Forall_lookup_1 _ _ _ _ Hc H) as HN. cbn beta in HN.
  exists (map (fun j => (s, j)) (positions (fun p => fle (fitness p) (fitness a)) pop) ++ map (fun i => (i, s)) (positions (fun p => flt (fitness p) (fitness a)) pop)).
  split; [|split].
  - apply NoDup_app. split_and!.
    + apply (NoDup_fmap_2 (fun j => (s, j))), positions_NoDup.
    + intros [i j] H1 H2. apply elem_of_list_In, in_map_iff in H1 as (j' & E1 & _), H2 as (i' & E2 & H2). injection E1 as <- <-. injection E2 as -> ->.
      apply elem_of_list_In, positions_in in H2 as (p & Hp & H2). rewrite Ha in Hp. injection Hp as <-. rewrite flt_irrefl in H2. discriminate.
    + apply (NoDup_fmap_2 (fun i => (i, s))), positions_NoDup.
  - intros [i j]. rewrite elem_of_app, !elem_of_list_In, !in_map_iff. setoid_rewrite <- elem_of_list_In. setoid_rewrite positions_in. unfold rank_winner. cbn [fst snd]. split.
    + intros [(j' & E & b & Hb & H)|(i' & E & b & Hb & H)]; injection E as <- <-.
      * exists a, b. rewrite H. auto.
      * exists b, a. split; [exact Hb|]. split; [exact Ha|]. destruct (fle (fitness a) (fitness b)) eqn:E; [|reflexivity]. rewrite flt_fle_neg in H by eauto. rewrite E in H. discriminate H.
    + intros (x & y & Hx & Hy & E). destruct (fle (fitness y) (fitness x)) eqn:L; subst s.
      * left. exists j. split; [reflexivity|]. exists y. split; [exact Hy|]. congruence.
      * right. exists i. split; [reflexivity|]. exists x. split; [exact Hx|]. assert (y = a) as -> by congruence.
        apply not_fle_flt; [exact (HN _ _ Hy)|exact (HN _ _ Hx)|exact L].
  - rewrite app_length, !map_length, !positions_length. reflexivity.
Qed.
End Rank.

(** ** Groups *)
Lemma choose_0 n : choose n 0 = 1. Proof. destruct n; reflexivity. Qed.
Lemma groups_in k : forall l g, g ∈ groups k l <-> length g = k /\ sublist g l.
Proof.
  intros l. revert k. induction l as [|x l IH]; intros [|k] g; cbn [groups].
  - rewrite elem_of_list_singleton. split; [intros ->; split; [reflexivity|constructor]|]. intros [H _]. destruct g; [reflexivity|discriminate].
  - split; [intros H; inversion H|]. intros [H S]. apply sublist_nil_r in S. subst. discriminate.
  - rewrite elem_of_list_singleton. split; [intros ->; split; [reflexivity|apply sublist_nil_l]|]. intros [H _]. destruct g; [reflexivity|discriminate].
  - rewrite elem_of_app, elem_of_list_fmap. setoid_rewrite IH. split.
    + intros [(g' & -> & L & S)|[L S]]; (split; [cbn; lia|]); [apply sublist_skip; exact S|apply sublist_cons; exact S].
    + intros [L S]. apply sublist_cons_r in S as [S|(g' & -> & S)]; [right; auto|]. left. exists g'. split; [reflexivity|]. split; [cbn in L; lia|exact S].
Qed.
Lemma groups_length k : forall l, length (groups k l) = choose (length l) k.
Proof.
  intros l. revert k. induction l as [|x l IH]; intros [|k]; cbn [groups length choose]; try reflexivity.
  rewrite app_length, fmap_length, !IH. reflexivity.
Qed.
Lemma sublist_elem {A} (g l : list A) x : sublist g l -> x ∈ g -> x ∈ l.
Proof. intros S H. induction S; [inversion H| |right; auto]. apply elem_of_cons in H as [-> |H]; [left|right; auto]. Qed.
Lemma groups_NoDup k : forall l, NoDup l -> NoDup (groups k l).
Proof.
  intros l. revert k. induction l as [|x l IH]; intros [|k] Hl; cbn [groups]; try (apply NoDup_singleton || constructor); try constructor.
  apply NoDup_cons in Hl as [Hx Hl]. apply NoDup_app. split_and!.
  - apply NoDup_fmap_2; [intros ? ? [=]; auto|]. apply IH, Hl.
  - intros g H1 H2. apply elem_of_list_fmap in H1 as (g' & -> & _). apply groups_in in H2 as [_ S]. apply Hx. eapply sublist_elem; [exact S|left].
  - apply IH, Hl.
Qed.
Lemma sublist_of_seq (n : nat) : forall b g, NoDup g -> Forall (fun i => b <= i < b + n) g -> exists c, c ≡ₚ g /\ sublist c (seq b n).
Proof.
  induction n as [|n IH]; intros b g Hg HF.
  { destruct g as [|x g]; [exists []; split; [reflexivity|constructor]|]. inversion_clear HF. lia. }
  destruct (decide (b ∈ g)) as [Hb|Hb].
  - apply elem_of_Permutation in Hb as (g' & Hp). rewrite Hp in Hg, HF. apply NoDup_cons in Hg as [Hn Hg]. inversion_clear HF as [|? ? _ HF'].
    destruct (IH (S b) g' Hg) as (c & Hc & Sc). { apply Forall_forall. intros i Hi. rewrite Forall_forall in HF'. specialize (HF' i Hi). assert (i <> b) by (intros ->; auto). lia. }
    exists (b :: c). split; [rewrite Hp, Hc; reflexivity|]. cbn [seq]. apply sublist_skip. exact Sc.
  - destruct (IH (S b) g Hg) as (c & Hc & Sc). { apply Forall_forall. intros i Hi. rewrite Forall_forall in HF. specialize (HF i Hi). assert (i <> b) by (intros ->; auto). lia. }
    exists c. split; [exact Hc|]. cbn [seq]. apply sublist_cons. exact Sc.
Qed.
Lemma sublist_seq_unique (n : nat) : forall b c d, sublist c (seq b n) -> sublist d (seq b n) -> c ≡ₚ d -> c = d.
Proof.
  induction n as [|n IH]; intros b c d Sc Sd P; cbn [seq] in *.
  { apply sublist_nil_r in Sc, Sd. congruence. }
  assert (forall g, sublist g (seq (S b) n) -> b ∉ g) as Hnb. { intros g S H. apply (sublist_elem _ _ _ S) in H. apply elem_of_seq in H. lia. }
  apply sublist_cons_r in Sc as [Sc|(c' & -> & Sc)], Sd as [Sd|(d' & -> & Sd)].
  - eapply IH; eauto.
  - exfalso. apply (Hnb c Sc). rewrite P. left.
  - exfalso. apply (Hnb d Sd). rewrite <- P. left.
  - f_equal. apply (IH (S b)); auto. eapply Permutation.Permutation_cons_inv. exact P.
Qed.

Section Count.
Variable good : nat -> bool.
Variable s : nat.
Lemma all_good_count k : forall l, length (List.filter (forallb good) (groups k l)) = choose (length (List.filter good l)) k.
Proof.
  intros l. revert k. induction l as [|x l IH]; intros [|k]; cbn [groups]; try reflexivity.
  - rewrite choose_0. reflexivity.
  - rewrite List.filter_app, app_length, IH.
    assert (length (List.filter (forallb good) (cons x <$> groups k l)) = if good x then choose (length (List.filter good l)) k else 0) as ->.
    { rewrite <- IH. induction (groups k l) as [|g gs IHg]; [cbn; destruct (good x); reflexivity|]. cbn [fmap list_fmap List.filter forallb]. unfold fmap in IHg. destruct (good x); cbn [andb]; [|exact IHg]. destruct (forallb good g); cbn [length]; [f_equal|]; exact IHg. }
    cbn [List.filter]. destruct (good x); cbn [length choose]; reflexivity.
Qed.
Definition wins_group (g : list nat) : bool := bool_decide (s ∈ g) && forallb (fun j => (j =? s) || good j) g.
Hypothesis Hs : good s = false.
Lemma wins_count k : forall l, NoDup l -> s ∈ l -> length (List.filter wins_group (groups (S k) l)) = choose (length (List.filter good l)) k.
Proof using Hs.
  intros l. revert k. induction l as [|x l IH]; intros k Hl Hin; [inversion Hin|]. apply NoDup_cons in Hl as [Hx Hl]. cbn [groups].
  rewrite List.filter_app, app_length. destruct (decide (x = s)) as [-> |Hne].
  - assert (List.filter wins_group (groups (S k) l) = []) as E2.
    { destruct (List.filter wins_group (groups (S k) l)) as [|g gs] eqn:E; [reflexivity|]. exfalso. assert (In g (List.filter wins_group (groups (S k) l))) as H by (rewrite E; left; reflexivity).
      apply filter_In in H as [H1 H2]. apply elem_of_list_In, groups_in in H1 as [_ S]. unfold wins_group in H2. apply andb_prop in H2 as [H2 _]. apply bool_decide_eq_true in H2. apply Hx. eapply sublist_elem; eauto. }
    rewrite E2. cbn [length]. rewrite Nat.add_0_r. cbn [List.filter]. rewrite Hs. rewrite <- all_good_count.
    assert (forall gs, Forall (fun g => s ∉ g) gs -> length (List.filter wins_group (cons s <$> gs)) = length (List.filter (forallb good) gs)) as H.
    { induction 1 as [|g gs Hg _ IHg]; [reflexivity|]. cbn [fmap list_fmap List.filter].
      assert (wins_group (s :: g) = forallb good g) as ->.
      { unfold wins_group. rewrite bool_decide_eq_true_2 by left. cbn [forallb andb]. rewrite Nat.eqb_refl. cbn [orb andb]. 
        clear IHg. induction g as [|j g IHj]; [reflexivity|]. cbn [forallb]. apply not_elem_of_cons in Hg as [Hj Hg]. rewrite IHj by exact Hg. rewrite (proj2 (Nat.eqb_neq j s)) by auto. reflexivity. }
      unfold fmap in IHg. destruct (forallb good g); cbn [length]; [f_equal|]; exact IHg. }
    apply H. apply Forall_forall. intros g Hg. apply groups_in in Hg as [_ S]. intros X. apply Hx. eapply sublist_elem; eauto.
  - assert (s ∈ l) as Hin' by (apply elem_of_cons in Hin as [->|H]; [done|exact H]). rewrite (IH k Hl Hin').
    assert (forall gs, length (List.filter wins_group (cons x <$> gs)) = if good x then length (List.filter wins_group gs) else 0) as H.
    { induction gs as [|g gs IHg]; [cbn; destruct (good x); reflexivity|]. cbn [fmap list_fmap List.filter].
      assert (wins_group (x :: g) = good x && wins_group g) as ->.
      { unfold wins_group. cbn [forallb]. rewrite (proj2 (Nat.eqb_neq x s)) by exact Hne. cbn [orb].
        destruct (decide (s ∈ g)) as [D|D]; [rewrite !bool_decide_eq_true_2 by (auto; right; exact D); cbn [andb]; reflexivity|].
        rewrite (bool_decide_eq_false_2 (s ∈ g)) by exact D. rewrite (bool_decide_eq_false_2 (s ∈ x :: g)) by (intros [->|X]%elem_of_cons; auto). cbn [andb]. rewrite andb_false_r. reflexivity. }
      unfold fmap in IHg. destruct (good x); cbn [andb]; [|exact IHg]. destruct (wins_group g); cbn [length]; [f_equal|]; exact IHg. }
    rewrite H. cbn [List.filter]. destruct (good x); [|reflexivity].
    destruct k as [|k].
    + rewrite !choose_0. assert (List.filter wins_group (groups 0 l) = []) as ->; [|reflexivity]. assert (groups 0 l = [[]]) as -> by (destruct l; reflexivity). cbn [List.filter]. unfold wins_group. rewrite bool_decide_eq_false_2 by (intros X; inversion X). reflexivity.
    + rewrite (IH k Hl Hin'). cbn [length choose]. reflexivity.
Qed.
End Count.

Lemma tournament_wins {G} (pop : list (individual G)) s a k : pop !! s = Some a -> comparable pop ->
  (forall j p, pop !! j = Some p -> j <> s -> feq (fitness p) (fitness a) = false) ->
  exists wins : list (list nat), NoDup wins /\
    (forall g, g ∈ wins <-> g ∈ groups (S k) (seq 0 (length pop)) /\ tournament_winner pop g s) /\
    length wins = choose (length (List.filter (fun p => flt (fitness p) (fitness a)) pop)) k.
Proof.
  intros Ha Hc Hd. set (good := fun j => match pop !! j with Some p => flt (fitness p) (fitness a) | None => false end).
  exists (List.filter (wins_group good s) (groups (S k) (seq 0 (length pop)))).
  assert (good s = false) as Hgs by (unfold good; rewrite Ha; apply flt_irrefl).
  split; [|split].
  - apply NoDup_ListNoDup; apply List.NoDup_filter; apply NoDup_ListNoDup, groups_NoDup, NoDup_ListNoDup, List.seq_NoDup.
  - intros g. rewrite elem_of_list_In, filter_In, <- elem_of_list_In. split; intros [Hg H]; (split; [exact Hg|]).
    + unfold wins_group in H. apply andb_prop in H as [H1 H2]. apply bool_decide_eq_true in H1. split; [exact H1|].
      intros j x y Hj Hx Hy. rewrite Ha in Hy. injection Hy as <-. rewrite forallb_forall in H2. specialize (H2 j (proj1 (elem_of_list_In _ _) Hj)). apply orb_prop in H2 as [H2|H2].
      * apply Nat.eqb_eq in H2. subst j. rewrite Ha in Hx. injection Hx as <-. apply fle_refl. exact (Forall_lookup_1 _ _ _ _ Hc Ha).
      * unfold good in H2. rewrite Hx in H2. apply flt_le. exact H2.
    + destruct H as [H1 H2]. unfold wins_group. rewrite bool_decide_eq_true_2 by exact H1. cbn [andb]. apply forallb_forall. intros j Hj%elem_of_list_In.
      destruct (Nat.eqb_spec j s) as [->|Hne]; [reflexivity|]. cbn [orb]. apply groups_in in Hg as [_ Sg]. pose proof (sublist_elem _ _ _ Sg Hj) as Hj'. apply elem_of_seq in Hj'.
      destruct (lookup_lt_is_Some_2 pop j) as [p Hp]; [lia|]. unfold good. rewrite Hp. specialize (H2 j p a Hj Hp Ha). specialize (Hd j p Hp Hne).
      destruct (flt (fitness p) (fitness a)) eqn:E; [reflexivity|]. exfalso.
      assert (feq (fitness p) (fitness a) = true) as X; [|congruence]. revert H2 E. clear. unfold flt, fle, feq, SFltb, SFleb, SFeqb. destruct (SFcompare (fitness p) (fitness a)) as [[]|]; congruence.
  - rewrite (wins_count good s Hgs k).
    + f_equal. apply (positions_length (fun p => flt (fitness p) (fitness a)) pop).
    + apply NoDup_ListNoDup, List.seq_NoDup.
    + apply elem_of_seq. apply lookup_lt_Some in Ha. lia.
Qed.

Lemma groups_spec n k : length (groups k (seq 0 n)) = choose n k /\ NoDup (groups k (seq 0 n)) /\
  forall g, NoDup g -> length g = k -> Forall (fun i => i < n) g ->
    exists c, c ∈ groups k (seq 0 n) /\ c ≡ₚ g /\ forall d, d ∈ groups k (seq 0 n) -> d ≡ₚ g -> d = c.
Proof.
  split; [rewrite groups_length, seq_length; reflexivity|]. split; [apply groups_NoDup, NoDup_ListNoDup, List.seq_NoDup|].
  intros g Hg L HF. destruct (sublist_of_seq n 0 g Hg) as (c & Hc & Sc). { eapply Forall_impl; [exact HF|]. intros i Hi. cbn in Hi. lia. }
  exists c. split; [apply groups_in; split; [rewrite Hc; exact L|exact Sc]|]. split; [exact Hc|].
  intros d Hd P. apply groups_in in Hd as [_ Sd]. apply (sublist_seq_unique n 0 d c Sd Sc). rewrite P, Hc. reflexivity.
Qed.
