(** * Proofs: what a crossover can make of two parents *)
From Verif Require Import CrossoverSpec CrossoverModel CrossoverProofs CrossoverMultiProofs CrossoverPermProofs SelectionProofs EvenProofs XoverReachSpec MutReachSpec MutReachProofs PopulationProofs.
Open Scope nat_scope.
Local Arguments gen_range : simpl never.

Definition stream2 (a b : nat) : rng := fun i => match i with 0 => N.of_nat a | 1 => N.of_nat b | _ => 0%N end.
Lemma draw_of (a n : nat) : a < n -> N.to_nat (N.of_nat a mod N.of_nat n) = a.
Proof. intros H. rewrite N.mod_small by lia. apply Nat2N.id. Qed.
Lemma fle_largest (r : rng) i : fle (f_unit 52 (r i mod 2 ^ 52)) largest_draw = true.
Proof. exact (draw_le r i). Qed.
Lemma fle_zero_draw (r : rng) i : fle f0 (f_unit 52 (r i mod 2 ^ 52)) = true.
Proof. apply (f_unit_range 52 (r i mod 2 ^ 52)). apply N.mod_lt. discriminate. Qed.
(** An arrangement of the places that starts with the given ones *)
Lemma start_with (s : list nat) n : NoDup s -> Forall (fun x => x < n) s -> exists q, q ≡ₚ seq 0 n /\ take (length s) q = s.
Proof.
  intros Nd HF. exists (s ++ filter (fun x => x ∉ s) (seq 0 n)). split; [|rewrite take_app; reflexivity].
  apply NoDup_Permutation; [apply NoDup_app; split; [exact Nd|]; split; [intros x Hx Hf; apply elem_of_list_filter in Hf; tauto|apply NoDup_filter, NoDup_seq]|apply NoDup_seq|].
  intros x. rewrite elem_of_app, elem_of_list_filter, elem_of_seq. rewrite Forall_forall in HF. specialize (HF x). destruct (decide (x ∈ s)); [intuition lia|intuition].
Qed.
Lemma sample_surj n (s : list nat) : NoDup s -> Forall (fun x => x < n) s -> exists r r', sample_indices n (length s) r = Ok (s, r').
Proof.
  intros Nd HF. destruct (start_with s n Nd HF) as (q & P & T). destruct (shuffle_surj (seq 0 n) q (rng_of []) P) as (r & E). exists r. eexists.
  unfold sample_indices. rewrite decide_True; [rewrite E; cbn [mbind outcome_bind]; rewrite T; reflexivity|].
  assert (S : s ⊆+ seq 0 n) by (apply NoDup_submseteq; [exact Nd|]; intros x Hx; apply elem_of_seq; rewrite Forall_forall in HF; specialize (HF x Hx); lia).
  apply submseteq_length in S. rewrite seq_length in S. exact S.
Qed.
(** Numbering the marked places first *)
Fixpoint numbered (ms : list bool) (t f : nat) : list nat :=
  match ms with [] => [] | true :: ms => t :: numbered ms (S t) f | false :: ms => f :: numbered ms t (S f) end.
Fixpoint marks (ms : list bool) : nat := match ms with [] => 0 | b :: ms => (if b then 1 else 0) + marks ms end.
Lemma marks_le ms : marks ms <= length ms.
Proof. induction ms as [|[] ms IH]; cbn; lia. Qed.
Lemma marks_lt ms l : ms !! l = Some false -> marks ms < length ms.
Proof.
  revert l. induction ms as [|b ms IH]; intros l H; [discriminate|]. pose proof (marks_le ms). destruct l as [|l]; [injection H as ->; cbn; lia|].
  specialize (IH _ H). destruct b; cbn; lia.
Qed.
Lemma numbered_length ms : forall t f, length (numbered ms t f) = length ms.
Proof. induction ms as [|[] ms IH]; intros t f; cbn; [reflexivity|rewrite IH; reflexivity|rewrite IH; reflexivity]. Qed.
Lemma numbered_perm ms : forall t f, numbered ms t f ≡ₚ seq t (marks ms) ++ seq f (length ms - marks ms).
Proof.
  induction ms as [|[] ms IH]; intros t f; cbn [numbered marks length].
  - reflexivity.
  - cbn [seq app Nat.add Nat.sub]. rewrite IH. reflexivity.
  - pose proof (marks_le ms). cbn [Nat.add]. replace (S (length ms) - marks ms) with (S (length ms - marks ms)) by lia.
    cbn [seq]. rewrite IH. apply Permutation_middle.
Qed.
Lemma numbered_lookup (ms : list bool) : forall t f l (a : nat) (b : bool), numbered ms t f !! l = Some a -> ms !! l = Some b -> t + marks ms <= f -> if b then a < t + marks ms else f <= a.
Proof.
  induction ms as [|c ms IH]; intros t f l a b Ha Hb Hf; [discriminate|].
  destruct c; cbn [numbered marks Nat.add] in *; (destruct l as [|l]; [injection Ha as <-; injection Hb as <-; lia|]); specialize (IH _ _ _ _ _ Ha Hb ltac:(lia)); destruct b; lia.
Qed.

Section Reach.
Context {G : Type}.
Implicit Types x y c d : list G.

Lemma single_point_reach x y c d : length x = length y -> 0 < length x ->
  can_breed single_point x y c d <-> exists cut, cut < length x /\ c = cut_once cut x y /\ d = cut_once cut y x.
Proof.
  intros Hl Hn. split.
  - intros (r & r' & E). destruct (single_point_structure x y r Hl Hn) as (cut & r1 & _ & Hc & E1). rewrite E in E1. injection E1 as -> -> _. eauto.
  - intros (cut & Hc & -> & ->). destruct (single_point_draws x y (stream2 cut 0) Hl Hn) as (r' & E). cbn [stream2] in E. rewrite (draw_of cut (length x) Hc) in E. eexists _, _. exact E.
Qed.
Lemma two_point_reach x y c d : length x = length y -> 0 < length x ->
  can_breed two_point x y c d <-> exists a b, a <= b < length x /\ c = cut_twice a b x y /\ d = cut_twice a b y x.
Proof.
  intros Hl Hn. split.
  - intros (r & r' & E). destruct (two_point_draws x y r Hl Hn) as (r1 & E1). rewrite E in E1. injection E1 as -> -> _.
    eexists _, _. split; [|split; reflexivity]. pose proof (draw_below (length x) (r 0) Hn). pose proof (draw_below (length x) (r 1) Hn). lia.
  - intros (a & b & Hab & -> & ->). destruct (two_point_draws x y (stream2 a b) Hl Hn) as (r' & E). cbn [stream2] in E.
    rewrite (draw_of a (length x)), (draw_of b (length x)), Nat.min_l, Nat.max_r in E by lia. eexists _, _. exact E.
Qed.
Lemma follows_eq m x y c d c' d' : follows m x y c d -> follows m x y c' d' -> c = c' /\ d = d'.
Proof. intros H H'. split; apply list_eq; intros l; destruct (H l) as [A B], (H' l) as [C D]; congruence. Qed.
Lemma cuts_sorted (cuts s : list nat) : StronglySorted (≤) cuts -> cuts ≡ₚ s -> cuts = merge_sort (≤) s.
Proof.
  intros Hs P. apply (StronglySorted_unique (≤)); [exact Hs|apply StronglySorted_merge_sort; apply _|]. rewrite P. symmetry. apply merge_sort_Permutation.
Qed.
Lemma multi_point_reach k x y c d : length x = length y -> 1 <= k <= length x ->
  can_breed (multi_point k) x y c d <->
  exists (c0 : nat) (cuts : list nat), StronglySorted (≤) (c0 :: cuts) /\ NoDup (c0 :: cuts) /\ length (c0 :: cuts) = k /\ Forall (fun a => a < length x) (c0 :: cuts) /\
    follows (fun l => bool_decide (l < c0) || Nat.even (c0 + cuts_before (c0 :: cuts) l - 1)) x y c d.
Proof.
  intros Hl Hk. split.
  - intros (r & r' & E). destruct (multi_point_structure k x y r Hl Hk) as (cs & c0 & c1 & d1 & r1 & E1 & H1 & H2 & H3 & H4 & H5 & _ & H6). rewrite E in E1. injection E1 as -> -> _.
    destruct cs as [|a cuts]; [discriminate|]. injection H5 as ->. exists c0, cuts. auto.
  - intros (c0 & cuts & H1 & H2 & H3 & H4 & H5). destruct (sample_surj (length x) (c0 :: cuts) H2 H4) as (r & r' & ES). rewrite H3 in ES.
    destruct (multi_point_structure k x y r Hl Hk) as (cs & c0' & c' & d' & r1 & E1 & G1 & G2 & G3 & G4 & G5 & (s & rs & ES' & P) & G6). rewrite ES in ES'. injection ES' as <- <-.
    assert (cs = c0 :: cuts) as -> by (rewrite (cuts_sorted _ _ G1 P), <- (cuts_sorted _ _ H1 (reflexivity _)); reflexivity). injection G5 as <-.
    destruct (follows_eq _ _ _ _ _ _ _ H5 G6) as [-> ->]. exists r, r1. exact E1.
Qed.

(** Masks *)
Lemma mask_children mask x y c d : length mask = length x -> length x = length y ->
  apply_mask mask x y = Ok (c, d) <-> follows (fun l => default true (mask !! l)) x y c d.
Proof.
  intros Hm Hl. destruct (apply_mask_built mask x y Hm Hl) as ([c' d'] & E & Hb). pose proof (built_follows _ _ _ _ Hl Hb) as HF. cbn [fst snd] in HF. split.
  - intros E1. rewrite E in E1. injection E1 as <- <-. exact HF.
  - intros HF1. destruct (follows_eq _ _ _ _ _ _ _ HF HF1) as [-> ->]. exact E.
Qed.
Lemma follows_ext m m' x y c d : length x = length y -> (forall l, l < length x -> m l = m' l) -> follows m x y c d -> follows m' x y c d.
Proof.
  intros Hl Hm HF l. destruct (decide (l < length x)) as [H|H]; [rewrite <- (Hm l H); exact (HF l)|].
  pose proof (lookup_ge_None_2 x l ltac:(lia)) as Ex. pose proof (lookup_ge_None_2 y l ltac:(lia)) as Ey. specialize (HF l). destruct (m l), (m' l); rewrite ?Ex, ?Ey in HF |- *; exact HF.
Qed.
Lemma uniform_reach kind x y c d : length x = length y -> can_breed (uniform kind) x y c d <-> exists m, follows m x y c d.
Proof.
  intros Hl. split.
  - intros (r & r' & E). destruct (uniform_built kind x y r Hl) as ([c' d'] & vals & r1 & E1 & _ & Hb). rewrite E in E1. injection E1 as -> -> _. eexists. exact (built_follows _ _ _ _ Hl Hb).
  - intros (m & HF). pose (r := fun i => if m i then (2 ^ 52 - 1)%N else 0%N). destruct (uniform_built kind x y r Hl) as ([c' d'] & vals & r1 & E1 & EV & Hb).
    pose proof (built_follows _ _ _ _ Hl Hb) as HF'. cbn [fst snd] in HF'. exists r, (after_clone kind r r1). rewrite E1. do 2 f_equal.
    assert (HM : follows m x y c' d'); [|destruct (follows_eq _ _ _ _ _ _ _ HF HM) as [-> ->]; reflexivity]. eapply follows_ext; [exact Hl| |exact HF']. intros l Hlt. cbn beta.
    destruct (repeatM_uni (length x) r) as [r2 ER]. rewrite EV in ER. injection ER as -> _. rewrite list_lookup_fmap, lookup_seq_lt by exact Hlt. cbn [fmap option_fmap option_map default from_option Nat.add].
    unfold r. destruct (m l); reflexivity.
Qed.
Lemma uniform_parameterized_reach kind bias x y c d : length x = length y ->
  can_breed (uniform_parameterized kind bias) x y c d <->
  exists m, follows m x y c d /\ (fle f0 bias = false -> forall l, m l = false) /\ (fle largest_draw bias = true -> forall l, m l = true).
Proof.
  intros Hl. split.
  - intros (r & r' & E). destruct (uniform_parameterized_built kind bias x y r Hl) as ([c' d'] & vals & r1 & E1 & EV & Hb). rewrite E in E1. injection E1 as -> -> _.
    exists (fun l => fle (f_unit 52 (r l mod 2 ^ 52)) bias). split.
    + pose proof (built_follows _ _ _ _ Hl Hb) as HF. cbn [fst snd] in HF. eapply follows_ext; [exact Hl| |exact HF]. intros l Hlt. cbn beta.
      destruct (repeatM_uni (length x) r) as [r2 ER]. rewrite EV in ER. injection ER as -> _. rewrite list_lookup_fmap, lookup_seq_lt by exact Hlt. reflexivity.
    + split.
      * intros H l. apply Bool.not_true_iff_false. intros X. pose proof (fle_trans _ _ _ (fle_zero_draw r l) X). congruence.
      * intros H l. exact (fle_trans _ _ _ (fle_largest r l) H).
  - intros (m & HF & Hlo & Hhi). pose (r := fun i => if m i then 0%N else (2 ^ 52 - 1)%N). destruct (uniform_parameterized_built kind bias x y r Hl) as ([c' d'] & vals & r1 & E1 & EV & Hb).
    pose proof (built_follows _ _ _ _ Hl Hb) as HF'. cbn [fst snd] in HF'. exists r, (after_clone kind r r1). rewrite E1. do 2 f_equal.
    assert (HM : follows m x y c' d'); [|destruct (follows_eq _ _ _ _ _ _ _ HF HM) as [-> ->]; reflexivity]. eapply follows_ext; [exact Hl| |exact HF']. intros l Hlt. cbn beta.
    destruct (repeatM_uni (length x) r) as [r2 ER]. rewrite EV in ER. injection ER as -> _. rewrite list_lookup_fmap, lookup_seq_lt by exact Hlt. cbn [fmap option_fmap option_map default from_option Nat.add].
    unfold r. destruct (m l) eqn:Em.
    + destruct (fle f0 bias) eqn:E0; [exact E0|]. specialize (Hlo eq_refl l). congruence.
    + destruct (fle largest_draw bias) eqn:E0; [|exact E0]. specialize (Hhi eq_refl l). congruence.
Qed.
Lemma shuffle_xo_reach x y c d : length x = length y -> 0 < length x ->
  can_breed shuffle_xo x y c d <-> exists m, follows m x y c d /\ exists l, l < length x /\ m l = false.
Proof.
  intros Hl Hn. split.
  - intros (r & r' & E). destruct (shuffle_xo_built x y r Hl Hn) as ([c' d'] & cut & sh & r1 & E1 & Hc & P & Hb). rewrite E in E1. injection E1 as -> -> _.
    pose proof (built_follows _ _ _ _ Hl Hb) as HF. cbn [fst snd] in HF. eexists. split; [exact HF|].
    assert (Hin : cut ∈ sh) by (rewrite P; apply elem_of_seq; lia). apply elem_of_list_lookup in Hin as (l & Hx). exists l. split.
    + apply lookup_lt_Some in Hx. rewrite P, seq_length in Hx. exact Hx.
    + cbn beta. rewrite Hx. cbn. apply bool_decide_eq_false_2. lia.
  - intros (m & HF & l0 & Hl0 & Hm0). pose (ms := m <$> seq 0 (length x)). assert (Lms : length ms = length x) by (unfold ms; rewrite fmap_length; apply seq_length).
    assert (Hms : forall l, l < length x -> ms !! l = Some (m l)) by (intros l H; unfold ms; rewrite list_lookup_fmap, lookup_seq_lt by exact H; reflexivity).
    assert (Hcut : marks ms < length x).
    { rewrite <- Lms. apply (marks_lt ms l0). rewrite Hms by exact Hl0. congruence. }
    pose (q := numbered ms 0 (marks ms)).
    assert (P : q ≡ₚ seq 0 (length x)).
    { unfold q. rewrite numbered_perm, Lms. replace (length x) with (marks ms + (length x - marks ms)) at 2 by (clear - Hcut; lia). rewrite seq_app. reflexivity. }
    destruct (shuffle_surj (seq 0 (length x)) q (rng_of []) P) as (r1 & E1).
    destruct (gen_range_surj 0 (length x) (marks ms) r1 ltac:(lia)) as (r & E0). exists r. eexists. unfold shuffle_xo. rewrite E0. cbn [mbind outcome_bind]. rewrite E1. cbn [mbind outcome_bind].
    rewrite (proj2 (mask_children ((fun a => bool_decide (a < marks ms)) <$> q) x y c d ltac:(rewrite fmap_length, P; apply seq_length) Hl)); [reflexivity|].
    eapply follows_ext; [exact Hl| |exact HF]. intros l Hlt. cbn beta. rewrite list_lookup_fmap.
    destruct (lookup_lt_is_Some_2 q l) as [a Ha]; [rewrite P, seq_length; exact Hlt|]. rewrite Ha. cbn [fmap option_fmap option_map default from_option].
    pose proof (numbered_lookup ms 0 (marks ms) l a (m l) Ha (Hms l Hlt) ltac:(lia)) as X. destruct (m l); symmetry; [apply bool_decide_eq_true_2|apply bool_decide_eq_false_2]; lia.
Qed.

Context `{EqDecision G}.
Lemma ordered_reach x y c d : NoDup x -> x ≡ₚ y -> 0 < length x ->
  can_breed ordered x y c d <-> exists b e, b < length x /\ b <= e <= length x /\ c = order_child x y b e /\ d = order_child y x b e.
Proof.
  intros Nd P Hn. split.
  - intros (r & r' & E). destruct (ordered_spec x y r Nd P Hn) as (b & e & r1 & E1 & Hb & He & _). rewrite E in E1. injection E1 as -> -> _. exists b, e. auto.
  - intros (b & e & Hb & He & -> & ->). destruct (ordered_draws x y (stream2 b (e - b)) Nd P Hn) as (r' & E). cbn [stream2] in E.
    rewrite (draw_of b) in E by lia. rewrite (draw_of (e - b)) in E by lia. replace (b + (e - b)) with e in E by lia. eexists _, _. exact E.
Qed.
Lemma mapped_unique x y b e g h : NoDup x -> e <= length x -> mapped x y b e g h -> forall h', mapped x y b e g h' -> h = h'.
Proof.
  intros Nd He. assert (In : forall i v, b <= i < e -> x !! i = Some v -> v ∈ take (e - b) (drop b x)) by (intros i v Hi Hv; apply elem_of_seg; eauto).
  induction 1 as [g Hg|i g g' h Hi Hg Hg' _ IH]; intros h' H'.
  - inversion H' as [|i ? g' ? Hi Hv]; subst; [reflexivity|]. destruct (Hg (In i _ Hi Hv)).
  - inversion H' as [? Hf|i' ? g'' ? Hi' Hv Hv' Hm]; subst; [destruct (Hf (In i _ Hi Hg))|]. apply IH. assert (i' = i) as -> by (eapply NoDup_lookup; eauto). congruence.
Qed.
Lemma partially_mapped_unique x y b e c c' : NoDup x -> length x = length y -> e <= length x -> partially_mapped_child x y b e c -> partially_mapped_child x y b e c' -> c = c'.
Proof.
  intros Nd Hl He (L1 & K1 & M1) (L2 & K2 & M2). apply list_eq_same_length with (length x); auto. intros l a a' Hlt Ha Ha'.
  destruct (decide (b <= l < e)) as [Hs|Hs]; [rewrite K1 in Ha by exact Hs; rewrite K2 in Ha' by exact Hs; congruence|].
  destruct (lookup_lt_is_Some_2 y l) as [g Hg]; [lia|]. destruct (M1 l g Hs Hg) as (h & Hm & E1), (M2 l g Hs Hg) as (h' & Hm' & E2).
  pose proof (mapped_unique _ _ _ _ _ _ Nd He Hm _ Hm'). congruence.
Qed.
Lemma pmx_reach fuel x y c d : NoDup x -> x ≡ₚ y -> 0 < length x -> length x <= fuel ->
  can_breed (pmx fuel) x y c d <-> exists b e, b < length x /\ b <= e <= length x /\ partially_mapped_child x y b e c /\ partially_mapped_child y x b e d.
Proof.
  intros Nd P Hn Hf. assert (Hl : length x = length y) by (rewrite P; reflexivity). assert (Ny : NoDup y) by (rewrite <- P; exact Nd). split.
  - intros (r & r' & E). destruct (pmx_spec fuel x y r Nd P Hn Hf) as (b & e & c' & d' & r1 & E1 & Hb & He & _ & _ & _ & _ & _ & _ & M1 & M2). rewrite E in E1. injection E1 as -> -> _. exists b, e. auto.
  - intros (b & e & Hb & He & M1 & M2). destruct (pmx_draws fuel x y (stream2 b (e - b)) Nd P Hn Hf) as (c' & d' & r' & E & M1' & M2'). cbn [stream2] in M1', M2'.
    rewrite (draw_of b) in M1', M2' by lia. rewrite (draw_of (e - b)) in M1', M2' by lia. replace (b + (e - b)) with e in M1', M2' by lia. eexists _, _. rewrite E.
    rewrite (partially_mapped_unique _ _ _ _ _ _ Nd Hl (proj2 He) M1 M1'), (partially_mapped_unique _ _ _ _ _ _ Ny (eq_sym Hl) (eq_ind _ (fun n => e <= n) (proj2 He) _ Hl) M2 M2'). reflexivity.
Qed.
Lemma ppx_reach x y c d : NoDup x -> x ≡ₚ y ->
  can_breed ppx x y c d <-> exists mask, length mask = length x /\ c = taking_turns mask x y /\ d = taking_turns mask y x.
Proof.
  intros Nd P. split.
  - intros (r & r' & E). destruct (ppx_spec x y r Nd P) as (c' & d' & mask & r1 & E1 & _ & _ & _ & EM & Ec & Ed). rewrite E in E1. injection E1 as -> -> _. apply repeatM_length in EM. eauto.
  - intros (mask & Hm & -> & ->). destruct (bits_surj mask (rng_of [])) as (r & ER). destruct (ppx_spec x y r Nd P) as (c' & d' & mask' & r1 & E1 & _ & _ & _ & EM & Ec & Ed).
    rewrite <- Hm, ER in EM. injection EM as <- <-. subst. eexists _, _. exact E1.
Qed.
End Reach.
