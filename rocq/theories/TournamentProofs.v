(** * Tournament selection on any population, also with NaN fitness *)
From Verif Require Export SelectionProofs SelectionRProofs.
From Verif Require Import SelectionModel SelectionSpec.
From Coq Require Import Lia.
Open Scope nat_scope.

Section T.
Context {G : Type}.
Notation population := (list (individual G)).
Implicit Types pop : population.

Lemma iter_max_from_numbers {A} (key : A -> f64) l : forall acc m, iter_max_from key acc l = Ok m -> l <> [] ->
  is_nan (key acc) = false /\ Forall (fun x => is_nan (key x) = false) l.
Proof.
  induction l as [|x xs IH]; intros acc m H Hl; [congruence|]. cbn [iter_max_from] in H. apply obind_Ok in H as (c & Hc & H). apply key_cmp_Ok in Hc.
  destruct (fcmp_not_nan _ _ _ Hc) as [Ha Hx]. split; [exact Ha|]. constructor; [exact Hx|].
  destruct xs as [|y ys]; [constructor|]. exact (proj2 (IH _ _ H ltac:(discriminate))).
Qed.
Lemma iter_max_from_in {A} (key : A -> f64) l : forall acc m, iter_max_from key acc l = Ok m -> m ∈ acc :: l.
Proof.
  induction l as [|x xs IH]; intros acc m H; cbn [iter_max_from] in H; [injection H as <-; constructor|].
  apply obind_Ok in H as (c & Hc & H). apply IH in H. rewrite !elem_of_cons in *. destruct c; tauto.
Qed.
Lemma iter_max_from_live {A} (key : A -> f64) l : forall acc, iter_max_from key acc l <> Diverge.
Proof.
  induction l as [|x xs IH]; intros acc; cbn [iter_max_from]; [discriminate|]. unfold key_cmp. destruct (fcmp (key acc) (key x)); cbn; [apply IH|discriminate].
Qed.

(** What a spin that returns has done *)
Definition fair (pop : population) (size : nat) (grp : list nat) (s : nat) : Prop :=
  length grp = size /\ NoDup grp /\ Forall (fun i => i < length pop) grp /\ s ∈ grp /\
  (2 <= length grp -> (forall j a, j ∈ grp -> pop !! j = Some a -> is_nan (fitness a) = false) /\ tournament_winner pop grp s).

Lemma spin_any pop size r s r' : tournament_spin size pop r = Ok (s, r') -> exists grp, fair pop size grp s.
Proof.
  unfold tournament_spin. intros H. apply obind_Ok in H as ([idx r1] & E & H). destruct (sample_indices_Ok _ _ _ _ _ E) as (_ & Hl & Hnd & Hall).
  apply obind_Ok in H as (grp & Eg & H). destruct (omapM_pairs_ok pop idx Hall) as (grp' & Eg' & Hg & Hp). rewrite Eg in Eg'. injection Eg' as <-.
  apply obind_Ok in H as (best & Eb & H). apply obind_Ok in H as (b & Ebb & H). injection H as <- <-.
  destruct best as [b'|]; [|discriminate]. injection Ebb as ->.
  destruct grp as [|x xs]; [discriminate|]. cbn [iter_max] in Eb. apply obind_Ok in Eb as (m & Em & [= ->]).
  pose proof (iter_max_from_in _ _ _ _ Em) as Hin.
  exists idx. split; [exact Hl|]. split; [exact Hnd|]. split; [exact Hall|]. split; [rewrite <- Hg; apply elem_of_list_fmap; eauto|].
  intros H2. assert (Hxs : xs <> []) by (intros ->; rewrite <- Hg in H2; cbn in H2; lia).
  destruct (iter_max_from_numbers _ _ _ _ Em Hxs) as [Hx Hn]. destruct (iter_max_from_spec _ _ _ _ Em Hx) as (_ & H1 & H3).
  rewrite Forall_forall in Hp. rewrite Forall_forall in Hn. rewrite Forall_forall in H3.
  split.
  - intros j a Hj Ha. rewrite <- Hg in Hj. apply elem_of_list_fmap in Hj as ([j' q] & -> & Hq). pose proof (Hp _ Hq) as Hq'. cbn in Ha, Hq'.
    assert (q = a) as -> by congruence. apply elem_of_cons in Hq as [<-|Hq]; [exact Hx|]. exact (Hn _ Hq).
  - split; [rewrite <- Hg; apply elem_of_list_fmap; eauto|].
    intros j a p Hj Ha Hpp. rewrite <- Hg in Hj. apply elem_of_list_fmap in Hj as ([j' q] & -> & Hq). pose proof (Hp _ Hq) as Hq'. pose proof (Hp _ Hin) as Hb'. cbn in Ha, Hq', Hb'.
    assert (q = a) as -> by congruence. assert (p = b.2) as -> by congruence. apply elem_of_cons in Hq as [<-|Hq]; [exact H1|]. exact (H3 _ Hq).
Qed.
Lemma spin_live pop size r : tournament_spin size pop r <> Diverge.
Proof.
  unfold tournament_spin. destruct (le_lt_dec size (length pop)) as [Hle|Hlt]; [|rewrite sample_indices_panic by exact Hlt; discriminate].
  destruct (sample_indices_ok (length pop) size r Hle) as (idx & r1 & E). rewrite E. cbn [mbind outcome_bind].
  destruct (sample_indices_Ok _ _ _ _ _ E) as (_ & _ & _ & Hall). destruct (omapM_pairs_ok pop idx Hall) as (grp & Eg & _ & _). rewrite Eg. cbn [mbind outcome_bind].
  destruct grp as [|x xs]; [discriminate|]. cbn [iter_max]. destruct (iter_max_from _ x xs) eqn:Em; [discriminate|discriminate|destruct (iter_max_from_live _ _ _ Em)].
Qed.
Lemma tournament_any factor count pop r sel r' : tournament factor count pop r = Ok (sel, r') ->
  unit_factor factor /\ length sel = count /\ exists groups, Forall2 (fair pop (tournament_size factor (length pop))) groups sel.
Proof.
  unfold tournament. intros H. apply obind_Ok in H as ([] & Hu & H). assert (U : unit_factor factor).
  { unfold rassert in Hu. destruct (fle f0 factor) eqn:E0; [|discriminate]. destruct (fle factor f1) eqn:E1; [|discriminate]. split; assumption. }
  split; [exact U|]. clear Hu U. revert r sel r' H. induction count as [|count IH]; intros r sel r' H; cbn [repeatO] in H.
  - injection H as <- <-. split; [reflexivity|]. exists []. constructor.
  - apply obind_Ok in H as ([s r1] & H1 & H). apply obind_Ok in H as ([ss r2] & H2 & H). injection H as <- <-.
    destruct (IH _ _ _ H2) as (Hl & groups & Hf). destruct (spin_any _ _ _ _ _ H1) as (grp & Hg). split; [cbn; lia|]. exists (grp :: groups). constructor; assumption.
Qed.
Lemma tournament_live factor count pop r : tournament factor count pop r <> Diverge.
Proof.
  unfold tournament. destruct (rassert _) as [[]| |] eqn:E; cbn [mbind outcome_bind]; [|discriminate|unfold rassert in E; destruct (_ && _); discriminate].
  revert r. induction count as [|count IH]; intros r; cbn [repeatO]; [discriminate|].
  destruct (tournament_spin _ pop r) as [[s r1]| |] eqn:Es; cbn [mbind outcome_bind]; [|discriminate|destruct (spin_live _ _ _ Es)].
  destruct (repeatO count _ r1) as [[? ?]| |] eqn:Er; cbn; [discriminate|discriminate|destruct (IH _ Er)].
Qed.
(** A group of everybody with a NaN among them *)
Lemma tournament_full_nan count pop r : 0 < count -> 2 <= length pop -> (Z.of_nat (length pop) <= 2 ^ 53)%Z ->
  Exists (fun a => is_nan (fitness a) = true) pop -> tournament f1 count pop r = Panic.
Proof.
  intros Hc Hl Hb Hx. destruct (tournament f1 count pop r) as [[sel r']| |] eqn:E; [|reflexivity|destruct (tournament_live _ _ _ _ E)].
  exfalso. apply tournament_any in E as (_ & Hs & groups & Hf). rewrite tournament_size_full in Hf by (auto; lia).
  destruct sel as [|s sel]; [cbn in Hs; lia|]. inversion Hf as [|grp ? ? ? (Hg & Hnd & Hr & _ & H2) _]; subst.
  destruct (H2 ltac:(lia)) as [Hn _]. apply Exists_exists in Hx as (a & Ha & Hx). apply elem_of_list_lookup in Ha as [j Hj].
  enough (j ∈ grp) by (rewrite (Hn j a) in Hx by assumption; discriminate).
  assert (Hp : seq 0 (length pop) ≡ₚ grp).
  { symmetry. apply submseteq_Permutation_length_le; [rewrite seq_length; lia|]. apply NoDup_submseteq; [exact Hnd|].
    intros i Hi. rewrite Forall_forall in Hr. apply elem_of_seq. specialize (Hr _ Hi). lia. }
  rewrite <- Hp. apply elem_of_seq. apply lookup_lt_Some in Hj. lia.
Qed.
End T.
