(** * Proofs: crossover operators on unsuitable or identical parents *)
From Verif Require Export CrossoverPermProofs.
Open Scope nat_scope.
Local Arguments gen_range : simpl never.

(** ** Folds that must panic *)
Lemma ofold_must_panic {A S} (f : S -> A -> outcome S) x (l : list A) : forall s, (forall s y, f s y <> Diverge) -> x ∈ l -> (forall s, f s x = Panic) -> ofold f s l = Panic.
Proof.
  induction l as [|y l IH]; intros s Hd Hx HP; [inversion Hx|]. cbn [ofold]. apply elem_of_cons in Hx as [<-|Hx]; [rewrite HP; reflexivity|].
  destruct (f s y) as [s1| |] eqn:E; cbn; [apply IH; assumption|reflexivity|destruct (Hd _ _ E)].
Qed.
Lemma ofold_ext_in {A S} (f g : S -> A -> outcome S) (l : list A) : forall s, (forall s y, y ∈ l -> f s y = g s y) -> ofold f s l = ofold g s l.
Proof.
  induction l as [|y l IH]; intros s H; [reflexivity|]. cbn [ofold]. rewrite (H s y ltac:(left)). destruct (g s y); cbn; [|reflexivity..]. apply IH. intros s' y' Hy. apply H. right. exact Hy.
Qed.
Section Edge.
Context {G : Type}.
Implicit Types (p q : list G).

Lemma index_ge p i : length p <= i -> index p i = Panic.
Proof. intros H. unfold index. rewrite lookup_ge_None_2 by exact H. reflexivity. Qed.
Lemma index_nd p i : index p i <> Diverge.
Proof. unfold index. destruct (p !! i); discriminate. Qed.
Lemma index_take p n i : i < n -> index (take n p) i = index p i.
Proof. intros H. unfold index. rewrite lookup_take by exact H. reflexivity. Qed.
Lemma push_nd (x y : list G) c i : push_locus x y c i <> Diverge.
Proof.
  unfold push_locus. pose proof (index_nd x i). pose proof (index_nd y i). destruct (index x i); cbn; [|discriminate|congruence]. destruct (index y i); cbn; congruence.
Qed.
Lemma push_l (x y : list G) c i : length x <= i -> push_locus x y c i = Panic.
Proof. intros H. unfold push_locus. rewrite (index_ge x) by exact H. reflexivity. Qed.
Lemma push_r (x y : list G) c i : length y <= i -> push_locus x y c i = Panic.
Proof. intros H. unfold push_locus. rewrite (index_ge y) by exact H. pose proof (index_nd x i). destruct (index x i); cbn; congruence. Qed.
Lemma elem_seq lo n i : i ∈ seq lo n <-> lo <= i < lo + n.
Proof. apply elem_of_seq. Qed.
Lemma copy_nd (x y : list G) lo hi c : copy_loci x y lo hi c <> Diverge.
Proof.
  unfold copy_loci. revert c. induction (seq lo (hi - lo)) as [|i l IH]; intros c; [discriminate|]. cbn [ofold].
  pose proof (push_nd x y c i). destruct (push_locus x y c i); cbn; [apply IH|discriminate|congruence].
Qed.
Lemma copy_short_l (x y : list G) lo hi c : lo <= length x < hi -> copy_loci x y lo hi c = Panic.
Proof.
  intros H. apply (ofold_must_panic _ (length x)); [intros; apply push_nd|apply elem_seq; lia|]. intros s. apply push_l. lia.
Qed.
Lemma copy_short_r (x y : list G) lo hi c : lo <= length y < hi -> copy_loci x y lo hi c = Panic.
Proof.
  intros H. apply (ofold_must_panic _ (length y)); [intros; apply push_nd|apply elem_seq; lia|]. intros s. apply push_r. lia.
Qed.
Lemma push_take (x y : list G) n c i : i < n -> push_locus x (take n y) c i = push_locus x y c i /\ push_locus (take n y) x c i = push_locus y x c i.
Proof. intros H. unfold push_locus. rewrite index_take by exact H. auto. Qed.
Lemma copy_take (x y : list G) n lo hi c : hi <= n -> copy_loci x (take n y) lo hi c = copy_loci x y lo hi c /\ copy_loci (take n y) x lo hi c = copy_loci y x lo hi c.
Proof.
  intros H. unfold copy_loci. split; apply ofold_ext_in; intros s i Hi; apply elem_seq in Hi; apply push_take; lia.
Qed.

(** ** SinglePoint *)
Lemma single_short p1 p2 r : length p2 < length p1 -> single_point p1 p2 r = Panic.
Proof.
  intros H. unfold single_point. destruct (gen_range 0 (length p1) r) as [[cut r1]| |] eqn:E; cbn [mbind outcome_bind]; [|reflexivity|unfold gen_range in E; destruct (decide _); discriminate].
  destruct (decide (length p2 < cut)) as [L|L].
  - rewrite copy_short_r by lia. reflexivity.
  - pose proof (copy_nd p1 p2 0 cut ([], [])). destruct (copy_loci p1 p2 0 cut ([], [])) as [c| |]; cbn [mbind outcome_bind]; [|reflexivity|congruence].
    rewrite copy_short_l by lia. reflexivity.
Qed.
Lemma gen_range_lt n r cut r1 : gen_range 0 n r = Ok (cut, r1) -> cut < n.
Proof. unfold gen_range. destruct (decide _) as [L|]; [|discriminate]. intros H. injection H as <- _. pose proof (N.mod_lt (r 0) (N.of_nat (n - 0))). lia. Qed.
Lemma single_long p1 p2 r : single_point p1 (take (length p1) p2) r = single_point p1 p2 r.
Proof.
  unfold single_point. destruct (gen_range 0 (length p1) r) as [[cut r1]| |] eqn:E; cbn [mbind outcome_bind]; [|reflexivity..]. apply gen_range_lt in E.
  rewrite (proj1 (copy_take p1 p2 (length p1) 0 cut _ ltac:(lia))). destruct (copy_loci p1 p2 0 cut ([], [])) as [c| |]; cbn [mbind outcome_bind]; [|reflexivity..].
  rewrite (proj2 (copy_take p1 p2 (length p1) cut (length p1) c ltac:(lia))). reflexivity.
Qed.
(** ** Shuffle *)
Lemma mask_nd p1 p2 c ib : mask_step p1 p2 c ib <> Diverge.
Proof. unfold mask_step. destruct ib.2; apply push_nd. Qed.
Lemma mask_short mask p1 p2 : length p2 < length mask -> apply_mask mask p1 p2 = Panic.
Proof.
  intros H. destruct (lookup_lt_is_Some_2 mask (length p2) H) as [b Hb]. apply (ofold_must_panic _ (length p2, b)); [intros; apply mask_nd| |].
  - apply elem_of_list_lookup. exists (length p2). rewrite list_lookup_imap, Hb. reflexivity.
  - intros s. unfold mask_step. cbn [fst snd]. destruct b; [apply push_r|apply push_l]; lia.
Qed.
Lemma mask_long mask p1 p2 n : length mask <= n -> apply_mask mask p1 (take n p2) = apply_mask mask p1 p2.
Proof.
  intros H. apply ofold_ext_in. intros s [i b] Hi. apply elem_of_list_lookup in Hi as [k Hk]. rewrite list_lookup_imap in Hk.
  destruct (mask !! k) as [b'|] eqn:E; [|discriminate]. injection Hk as <- <-. apply lookup_lt_Some in E. unfold mask_step. cbn [fst snd].
  destruct b'; apply push_take; lia.
Qed.
Lemma shuffle_short p1 p2 r : length p2 < length p1 -> shuffle_xo p1 p2 r = Panic.
Proof.
  intros H. unfold shuffle_xo. destruct (gen_range 0 (length p1) r) as [[cut r1]| |] eqn:E; cbn [mbind outcome_bind]; [|reflexivity|unfold gen_range in E; destruct (decide _); discriminate].
  destruct (shuffle_ok (seq 0 (length p1)) r1) as (sh & r2 & HS). rewrite HS. pose proof (shuffle_perm _ _ _ _ HS) as HP. cbn [mbind outcome_bind]. rewrite mask_short; [reflexivity|].
  rewrite fmap_length, HP, seq_length. exact H.
Qed.
Lemma shuffle_long p1 p2 r : shuffle_xo p1 (take (length p1) p2) r = shuffle_xo p1 p2 r.
Proof.
  unfold shuffle_xo. destruct (gen_range 0 (length p1) r) as [[cut r1]| |] eqn:E; cbn [mbind outcome_bind]; [|reflexivity..].
  destruct (shuffle_ok (seq 0 (length p1)) r1) as (sh & r2 & HS). rewrite HS. pose proof (shuffle_perm _ _ _ _ HS) as HP. cbn [mbind outcome_bind]. rewrite mask_long; [reflexivity|].
  rewrite fmap_length, HP, seq_length. lia.
Qed.
(** ** FixedPoint *)
Lemma assign_ge p i g : length p <= i -> assign p i g = Panic.
Proof. intros H. unfold assign. rewrite decide_False by lia. reflexivity. Qed.
Lemma assign_nd p i g : assign p i g <> Diverge.
Proof. unfold assign. destruct (decide _); discriminate. Qed.
Lemma fixed_nd p1 p2 c i : fixed_step p1 p2 c i <> Diverge.
Proof.
  unfold fixed_step. pose proof (index_nd p2 i). destruct (index p2 i) as [g2| |]; cbn; [|discriminate|congruence].
  pose proof (assign_nd c.1 i g2). destruct (assign c.1 i g2) as [c1| |]; cbn; [|discriminate|congruence].
  pose proof (index_nd p1 i). destruct (index p1 i) as [g1| |]; cbn; [|discriminate|congruence].
  pose proof (assign_nd c.2 i g1). destruct (assign c.2 i g1) as [c2| |]; cbn; congruence.
Qed.
Lemma fixed_short cut p1 p2 : length p2 < length p1 -> cut < length p1 -> fixed_point cut p1 p2 = Panic.
Proof.
  intros H Hc. apply (ofold_must_panic _ (Nat.max cut (length p2))); [intros; apply fixed_nd|apply elem_seq; lia|]. intros s. unfold fixed_step. rewrite (index_ge p2) by lia. reflexivity.
Qed.
Lemma fixed_no_cut cut p1 p2 : length p1 <= cut -> fixed_point cut p1 p2 = Ok (p1, p2).
Proof. intros H. unfold fixed_point. replace (length p1 - cut) with 0 by lia. reflexivity. Qed.
Lemma fixed_append cut p1 q t : length p1 = length q -> fixed_point cut p1 (q ++ t) = Ok (cut_once cut p1 q, cut_once cut q p1 ++ t).
Proof.
  intros EL. destruct (fixed_point_spec cut p1 q EL) as ([d1 d2] & E & E1 & E2). cbn in E1, E2. subst d1 d2.
  unfold fixed_point in *.
  assert (forall l c1 c2 d, Forall (fun i => i < length p1) l -> length c2 = length p1 -> ofold (fixed_step p1 q) (c1, c2) l = Ok d -> ofold (fixed_step p1 (q ++ t)) (c1, c2 ++ t) l = Ok (d.1, d.2 ++ t)) as K.
  { induction l as [|i l IH]; intros c1 c2 d Hl H2 Hd; cbn [ofold] in *; [injection Hd as <-; reflexivity|]. inversion_clear Hl as [|? ? Hi Hl'].
    apply obind_Ok in Hd as ([x y] & Hx & Hd). unfold fixed_step in Hx |- *. cbn [fst snd] in *.
    apply obind_Ok in Hx as (g2 & Hg2 & Hx). apply obind_Ok in Hx as (a & Ha & Hx). apply obind_Ok in Hx as (g1 & Hg1 & Hx). apply obind_Ok in Hx as (b & Hb & Hx). injection Hx as -> ->.
    assert (index (q ++ t) i = Ok g2) as -> by (apply index_Ok in Hg2; apply index_Ok; apply lookup_app_l_Some, Hg2). cbn [mbind outcome_bind]. rewrite Ha. cbn [mbind outcome_bind]. rewrite Hg1. cbn [mbind outcome_bind].
    unfold assign in Hb |- *. destruct (decide (i < length c2)) as [L|]; [|discriminate]. injection Hb as <-.
    rewrite (decide_True (P := i < length (c2 ++ t))) by (rewrite app_length; lia). cbn [mbind outcome_bind]. rewrite insert_app_l by exact L. apply IH; [exact Hl'|rewrite insert_length; exact H2|exact Hd]. }
  assert (Forall (fun i => i < length p1) (seq cut (length p1 - cut))) as HF by (apply Forall_forall; intros i Hi; apply elem_seq in Hi; lia).
  rewrite (K _ _ _ _ HF (eq_sym EL) E). reflexivity.
Qed.

Context `{EqDecision G}.
(** ** Ordered: any parents of the same length *)
(** The number of genes of [q] that are not in the substring [b, e) of [p] *)
Definition others (p q : list G) (b e : nat) : nat := length (filter (fun g => g ∉ take (e - b) (drop b p)) q).
Lemma ordered_fill_short begin (sub child rest : list G) : length child + length (filter (fun g => g ∉ sub) rest) < begin -> ordered_fill begin sub child rest = Panic.
Proof using Type.
  revert child; induction rest as [|g rest IH]; intros child Hlt; cbn [ordered_fill].
  - cbn in Hlt. rewrite decide_True by lia. reflexivity.
  - rewrite decide_True by lia. rewrite filter_cons in Hlt. destruct (decide (g ∈ sub)) as [Hin|Hnin].
    + rewrite (decide_False (P := g ∉ sub)) in Hlt by tauto. rewrite bool_decide_eq_true_2 by auto. apply IH, Hlt.
    + rewrite (decide_True (P := g ∉ sub)) in Hlt by tauto. rewrite bool_decide_eq_false_2 by auto. apply IH. rewrite app_length. cbn [length] in *. lia.
Qed.
Lemma ordered_child_any p q b e : b <= e <= length p ->
  ordered_child p q b e = (if decide (b <= others p q b e) then Ok (order_child p q b e) else Panic).
Proof using Type.
  intros Hbe. unfold ordered_child. rewrite read_range_ok by lia. cbn [mbind outcome_bind]. destruct (decide _) as [L|L].
  - destruct (ordered_fill_spec b (take (e - b) (drop b p)) [] q) as (rest & -> & HR); [exact L|]. cbn [mbind outcome_bind app length] in *. rewrite ordered_rest_spec, HR.
    rewrite Nat.sub_0_r. unfold order_child. rewrite <- app_assoc. reflexivity.
  - rewrite ordered_fill_short; [reflexivity|]. unfold others in L. cbn [length]. lia.
Qed.
Lemma order_child_length p q b e : b <= e <= length p -> b <= others p q b e -> length (order_child p q b e) = others p q b e + (e - b).
Proof using Type.
  intros Hbe Hb. unfold order_child. rewrite !app_length, !take_length, !drop_length. fold (others p q b e). lia.
Qed.
Lemma ordered_any p1 p2 r : length p1 = length p2 -> 0 < length p1 -> exists b e r', b < length p1 /\ b <= e <= length p1 /\
  ordered p1 p2 r = (if decide (b <= others p1 p2 b e /\ b <= others p2 p1 b e) then Ok ((order_child p1 p2 b e, order_child p2 p1 b e), r') else Panic).
Proof using Type.
  intros EL Hne. unfold ordered. rewrite bool_decide_eq_true_2 by exact EL. cbn [rassert mbind outcome_bind].
  destruct (begin_end_draws (length p1) r Hne) as (b & e & -> & He & Hbn & Hen). cbn [mbind outcome_bind]. rewrite He. cbn [mbind outcome_bind].
  exists b, e, (rng_tail (rng_tail r)). split; [exact Hbn|]. split; [exact Hen|]. rewrite (ordered_child_any p1 p2) by lia. rewrite (ordered_child_any p2 p1) by lia.
  destruct (decide (b <= others p1 p2 b e)) as [L1|L1]; cbn [mbind outcome_bind].
  - destruct (decide (b <= others p2 p1 b e)) as [L2|L2]; cbn [mbind outcome_bind].
    + rewrite decide_True by auto. reflexivity.
    + rewrite decide_False by tauto. reflexivity.
  - rewrite decide_False by tauto. reflexivity.
Qed.
(** ** Ppx: any parents of the same length *)
Lemma ppx_next_inv (taken rest : list G) g rest' : ppx_next taken rest = Ok (g, rest') -> g ∉ taken /\ exists skipped, rest = skipped ++ g :: rest' /\ Forall (fun x => x ∈ taken) skipped.
Proof using Type.
  induction rest as [|x rest IH]; cbn; [discriminate|]. case_bool_decide as Hx; intros H.
  - destruct (IH H) as (Hn & sk & -> & HF). split; [exact Hn|]. exists (x :: sk). split; [reflexivity|]. constructor; assumption.
  - injection H as <- <-. split; [exact Hx|]. exists []. auto.
Qed.
Lemma ppx_loop_inv mask : forall (child r1 r2 c : list G), NoDup child -> ppx_loop mask child r1 r2 = Ok c ->
  NoDup c /\ length c = length child + length mask /\ forall g, g ∈ c -> g ∈ child \/ g ∈ r1 \/ g ∈ r2.
Proof using Type.
  induction mask as [|m mask IH]; intros child r1 r2 c Hc Hl; cbn [ppx_loop] in Hl.
  - injection Hl as <-. cbn. split; [exact Hc|]. split; [lia|]. auto.
  - assert (forall g, g ∉ child -> NoDup (child ++ [g])) as ND.
    { intros g Hg. apply NoDup_app. split; [exact Hc|]. split; [|apply NoDup_singleton]. intros x Hx Hx'. apply elem_of_list_singleton in Hx' as ->. auto. }
    destruct m; apply obind_Ok in Hl as ([g r'] & Hg & Hl); apply ppx_next_inv in Hg as (Hn & sk & -> & _); destruct (IH _ _ _ _ (ND _ Hn) Hl) as (A & B & C);
      (split; [exact A|]; split; [rewrite app_length in B; cbn in *; lia|]; intros x Hx; destruct (C x Hx) as [Hx'|[Hx'|Hx']]).
    all: rewrite ?elem_of_app, ?elem_of_cons; try (apply elem_of_app in Hx' as [Hx'|Hx'%elem_of_list_singleton]); tauto.
Qed.
Lemma ppx_nodup p1 p2 r c1 c2 r' : ppx p1 p2 r = Ok ((c1, c2), r') ->
  NoDup c1 /\ NoDup c2 /\ length c1 = length p1 /\ length c2 = length p1 /\ forall g, g ∈ c1 \/ g ∈ c2 -> g ∈ p1 \/ g ∈ p2.
Proof using Type.
  unfold ppx. intros Hx. apply obind_Ok in Hx as ([] & HL & Hx). destruct (repeatM (length p1) gen_bool r) as [mask r1] eqn:EM.
  assert (length mask = length p1) as LM by exact (repeatM_length (length p1) gen_bool r _ _ EM).
  apply obind_Ok in Hx as (d1 & H1 & Hx). apply obind_Ok in Hx as (d2 & H2 & Hx). injection Hx as -> -> _.
  apply ppx_loop_inv in H1 as (A1 & B1 & C1); [|constructor]. apply ppx_loop_inv in H2 as (A2 & B2 & C2); [|constructor]. cbn [length] in *.
  split; [exact A1|]. split; [exact A2|]. split; [lia|]. split; [lia|].
  intros g [Hg|Hg]; [destruct (C1 g Hg) as [Hg'|[?|?]]|destruct (C2 g Hg) as [Hg'|[?|?]]]; auto; inversion Hg'.
Qed.
Lemma ppx_next_some (taken p pre rest : list G) : NoDup p -> p = pre ++ rest -> (forall x, x ∈ pre -> x ∈ taken) -> length taken < length p ->
  exists g rest', ppx_next taken rest = Ok (g, rest') /\ exists pre', p = pre' ++ rest' /\ forall x, x ∈ pre' -> x ∈ taken ++ [g].
Proof using Type.
  intros ND E HP HL. destruct (ppx_next_ok taken rest) as (g & sk & rest' & E1 & E2 & Hn & Hsk).
  - destruct (decide (Exists (fun g => g ∉ taken) rest)) as [Hex|Hno]; [apply Exists_exists in Hex as (g & ? & ?); eauto|]. exfalso.
    assert (p ⊆+ taken) as Hs.
    { apply NoDup_submseteq; [exact ND|]. intros g Hg. rewrite E in Hg. apply elem_of_app in Hg as [Hg|Hg]; [auto|]. destruct (decide (g ∈ taken)); [auto|]. exfalso. apply Hno, Exists_exists. eauto. }
    apply submseteq_length in Hs. lia.
  - exists g, rest'. split; [exact E1|]. exists (pre ++ sk ++ [g]). split; [rewrite E, E2; rewrite <- !app_assoc; reflexivity|].
    intros x Hx. rewrite !elem_of_app in *. destruct Hx as [Hx|[Hx|Hx]]; auto.
Qed.
Lemma ppx_loop_returns mask : forall (p1 p2 child pre1 pre2 r1 r2 : list G), NoDup p1 -> NoDup p2 -> length p1 = length p2 -> p1 = pre1 ++ r1 -> p2 = pre2 ++ r2 ->
  (forall x, x ∈ pre1 -> x ∈ child) -> (forall x, x ∈ pre2 -> x ∈ child) -> length child + length mask <= length p1 -> exists c, ppx_loop mask child r1 r2 = Ok c.
Proof using Type.
  induction mask as [|m mask IH]; intros p1 p2 child pre1 pre2 r1 r2 N1 N2 EL E1 E2 H1 H2 HL; cbn [ppx_loop]; [eauto|]. cbn [length] in HL. destruct m.
  - destruct (ppx_next_some child p1 pre1 r1 N1 E1 H1) as (g & r1' & -> & pre1' & E1' & H1'); [lia|]. cbn [mbind outcome_bind].
    apply (IH p1 p2 (child ++ [g]) pre1' pre2 r1' r2); auto; [intros x Hx; apply elem_of_app; auto|]. rewrite app_length. cbn. lia.
  - destruct (ppx_next_some child p2 pre2 r2 N2 E2 H2) as (g & r2' & -> & pre2' & E2' & H2'); [lia|]. cbn [mbind outcome_bind].
    apply (IH p1 p2 (child ++ [g]) pre1 pre2' r1 r2'); auto; [intros x Hx; apply elem_of_app; auto|]. rewrite app_length. cbn. lia.
Qed.
Lemma ppx_returns p1 p2 r : NoDup p1 -> NoDup p2 -> length p1 = length p2 -> exists c1 c2 r', ppx p1 p2 r = Ok ((c1, c2), r').
Proof using Type.
  intros N1 N2 EL. unfold ppx. rewrite bool_decide_eq_true_2 by exact EL. cbn [rassert mbind outcome_bind]. destruct (repeatM (length p1) gen_bool r) as [mask r1] eqn:EM.
  assert (length mask = length p1) as LM by exact (repeatM_length (length p1) gen_bool r _ _ EM).
  destruct (ppx_loop_returns mask p1 p2 [] [] [] p1 p2) as [c1 H1]; auto; [intros x Hx; inversion Hx..|cbn; lia|].
  destruct (ppx_loop_returns mask p2 p1 [] [] [] p2 p1) as [c2 H2]; auto; [intros x Hx; inversion Hx..|cbn; lia|].
  unfold ppx_child. rewrite H1. cbn [mbind outcome_bind]. rewrite H2. cbn [mbind outcome_bind]. eauto.
Qed.

(** A repeated gene: taking everything from that parent runs off its end. *)
Lemma ppx_loop_all n : forall (child r1 r2 c : list G), ppx_loop (replicate n true) child r1 r2 = Ok c -> forall g, g ∈ c -> g ∈ child \/ g ∈ r1.
Proof using Type.
  induction n as [|n IH]; intros child r1 r2 c Hl g Hg; cbn [replicate ppx_loop] in Hl; [injection Hl as <-; auto|].
  apply obind_Ok in Hl as ([x r'] & Hx & Hl). apply ppx_next_inv in Hx as (_ & sk & -> & _). destruct (IH _ _ _ _ Hl g Hg) as [Hc|Hc].
  - apply elem_of_app in Hc as [Hc|Hc%elem_of_list_singleton]; [auto|]. right. rewrite elem_of_app, elem_of_cons. auto.
  - right. rewrite elem_of_app, elem_of_cons. auto.
Qed.
Lemma ppx_loop_nd mask : forall (child r1 r2 : list G), ppx_loop mask child r1 r2 <> Diverge.
Proof using Type.
  assert (forall taken rest : list G, ppx_next taken rest <> Diverge) as K. { intros taken rest. induction rest as [|x rest IH]; cbn; [discriminate|]. case_bool_decide; [exact IH|discriminate]. }
  induction mask as [|m mask IH]; intros child r1 r2; cbn [ppx_loop]; [discriminate|].
  pose proof (K child r1). pose proof (K child r2). destruct m; [destruct (ppx_next child r1) as [[g r']| |]|destruct (ppx_next child r2) as [[g r']| |]]; cbn [mbind outcome_bind]; try congruence; apply IH.
Qed.
Lemma repeatM_true n : forall r, (forall i, r i = 1%N) -> exists r', repeatM n gen_bool r = (replicate n true, r') /\ forall i, r' i = 1%N.
Proof using Type.
  induction n as [|n IH]; intros r Hr; cbn [repeatM]; [eauto|]. unfold gen_bool at 1. rewrite Hr. destruct (IH (rng_tail r)) as (r' & -> & Hr'); [intros i; apply Hr|]. exists r'. split; [reflexivity|exact Hr'].
Qed.
Lemma ppx_all_dup (p q : list G) : ~ NoDup p -> ppx_child p q (replicate (length p) true) = Panic.
Proof using Type.
  intros HD. unfold ppx_child. destruct (ppx_loop (replicate (length p) true) [] p q) as [c| |] eqn:E; [exfalso|reflexivity|destruct (ppx_loop_nd _ _ _ _ E)].
  apply HD. pose proof (ppx_loop_all _ _ _ _ _ E) as HI. apply ppx_loop_inv in E as (ND & HL & _); [|constructor]. rewrite replicate_length in HL. cbn [length] in HL.
  assert (c ≡ₚ p) as <-; [|exact ND]. apply submseteq_Permutation_length_le; [lia|]. apply NoDup_submseteq; [exact ND|]. intros g Hg. destruct (HI g Hg) as [Hg'|Hg']; [inversion Hg'|exact Hg'].
Qed.
Lemma ppx_dup p1 p2 : length p1 = length p2 -> ~ NoDup p1 \/ ~ NoDup p2 -> ppx p1 p2 (fun _ => 1%N) = Panic.
Proof using Type.
  intros EL HD. unfold ppx. rewrite bool_decide_eq_true_2 by exact EL. cbn [rassert mbind outcome_bind]. destruct (repeatM_true (length p1) (fun _ => 1%N)) as (r' & -> & _); [reflexivity|].
  destruct (decide (NoDup p1)) as [N1|N1]; [|rewrite ppx_all_dup by exact N1; reflexivity]. destruct HD as [HD|HD]; [tauto|].
  pose proof (ppx_loop_nd (replicate (length p1) true) [] p1 p2) as D. fold (ppx_child p1 p2 (replicate (length p1) true)) in D. destruct (ppx_child p1 p2 (replicate (length p1) true)); cbn [mbind outcome_bind]; [|reflexivity|congruence].
  rewrite EL. rewrite ppx_all_dup by exact HD. reflexivity.
Qed.

(** ** Identical parents *)
Lemma recombination_same p c1 c2 : recombination p p c1 c2 -> c1 = p /\ c2 = p.
Proof using Type.
  intros (L1 & L2 & Hl). split; apply list_eq_same_length with (length p); auto; intros i x y Hi Hx Hy.
  - destruct (Hl i y y Hy Hy) as [[A B]|[A B]]; congruence.
  - destruct (Hl i y y Hy Hy) as [[A B]|[A B]]; congruence.
Qed.
Lemma others_same p b e : NoDup p -> b <= e <= length p -> filter (fun g => g ∉ take (e - b) (drop b p)) p = take b p ++ drop e p.
Proof using Type.
  intros ND Hbe. assert (forall l m : list G, (forall g, g ∈ l -> g ∉ m) -> filter (fun g => g ∉ m) l = l) as KL.
  { induction l as [|x l IH]; intros m Hm; [reflexivity|]. rewrite filter_cons, decide_True by (apply Hm; left). f_equal. apply IH. intros g Hg. apply Hm. right. exact Hg. }
  assert (forall l m : list G, (forall g, g ∈ l -> g ∈ m) -> filter (fun g => g ∉ m) l = []) as KN.
  { induction l as [|x l IH]; intros m Hm; [reflexivity|]. rewrite filter_cons, decide_False by (intros Hn; apply Hn, Hm; left). apply IH. intros g Hg. apply Hm. right. exact Hg. }
  set (s := take (e - b) (drop b p)). pose proof (seg_split p b e ltac:(lia)) as E. fold s in E. rewrite E in ND. apply NoDup_app in ND as (N1 & D1 & ND). apply NoDup_app in ND as (N2 & D2 & N3).
  rewrite E at 1. rewrite !filter_app. rewrite (KL (take b p)), (KN s), (KL (drop e p)); [reflexivity| |auto|].
  - intros g Hg Hs. exact (D2 g Hs Hg).
  - intros g Hg Hs. apply (D1 g Hg). apply elem_of_app. auto.
Qed.
Lemma order_child_same p b e : NoDup p -> b <= e <= length p -> order_child p p b e = p.
Proof using Type.
  intros ND Hbe. unfold order_child. rewrite others_same by auto. rewrite take_app_le by (rewrite take_length; lia). rewrite take_take, Nat.min_id.
  rewrite drop_app_ge by (rewrite take_length; lia). rewrite take_length. replace (b - b `min` length p) with 0 by lia. rewrite drop_0. symmetry. apply seg_split. lia.
Qed.
Lemma ordered_same p r : NoDup p -> 0 < length p -> exists r', ordered p p r = Ok ((p, p), r').
Proof using Type.
  intros ND Hne. destruct (ordered_spec p p r ND ltac:(reflexivity) Hne) as (b & e & r' & E & _ & Hbe & _). exists r'. rewrite E. rewrite (order_child_same p b e ND Hbe). reflexivity.
Qed.
Lemma pmx_same fuel p r : NoDup p -> 0 < length p <= fuel -> exists r', pmx fuel p p r = Ok ((p, p), r').
Proof using Type.
  intros ND Hne. destruct (pmx_spec fuel p p r ND ltac:(reflexivity) ltac:(lia) ltac:(lia)) as (b & e & c1 & c2 & r' & E & _ & Hbe & P1 & P2 & K1 & K2 & S1 & S2 & _). exists r'. rewrite E.
  assert (forall c, c ≡ₚ p -> keeps_segment p c b e -> (forall l g, ~ b <= l < e -> p !! l = Some g -> g ∉ take (e - b) (drop b p) -> c !! l = Some g) -> c = p) as K.
  { intros c HP HK HS. apply list_eq_same_length with (length p); [reflexivity|rewrite HP; reflexivity|]. intros i x y Hi Hx Hy.
    destruct (decide (b <= i < e)) as [I|I]; [rewrite HK in Hx by exact I; congruence|].
    rewrite (HS i y I Hy) in Hx; [congruence|]. intros Hs. apply elem_of_seg in Hs as (j & Hj & Hj'). assert (i = j) by (eapply NoDup_lookup; eauto). lia. }
  rewrite (K c1 P1 K1 S1), (K c2 P2 K2 S2). reflexivity.
Qed.
Lemma before_eq p : forall c, NoDup p -> c ≡ₚ p -> (forall x y, before p x y -> before c x y) -> c = p.
Proof using EqDecision0.
  induction p as [|x p IH]; intros c ND HP HB; [apply Permutation_nil_r in HP; exact HP|]. destruct c as [|y c]; [apply Permutation_nil_l in HP; discriminate|].
  assert (NoDup (y :: c)) as NC by (rewrite HP; exact ND).
  assert (y = x) as ->.
  { destruct (decide (y = x)) as [|Hn]; [assumption|exfalso]. assert (y ∈ x :: p) as Hy by (rewrite <- HP; left). apply elem_of_cons in Hy as [Hy|Hy]; [auto|].
    apply elem_of_list_lookup in Hy as [k Hk]. destruct (HB x y) as (i & j & Hij & Hi & Hj). { exists 0, (S k). split; [lia|]. auto. }
    assert (j = 0) by (eapply NoDup_lookup; [exact NC|exact Hj|reflexivity]). lia. }
  f_equal. apply NoDup_cons in ND as [Hx ND]. apply Permutation_cons_inv in HP. apply IH; [exact ND|exact HP|].
  intros a b (i & j & Hij & Hi & Hj). destruct (HB a b) as (i' & j' & Hij' & Hi' & Hj'). { exists (S i), (S j). split; [lia|]. auto. }
  destruct i' as [|i']. { cbn in Hi'. injection Hi' as <-. exfalso. apply Hx, elem_of_list_lookup. eauto. }
  destruct j' as [|j']; [lia|]. exists i', j'. split; [lia|]. auto.
Qed.
End Edge.
Lemma ppx_same {G} `{EqDecision G} (p : list G) r : NoDup p -> exists r', ppx p p r = Ok ((p, p), r').
Proof.
  intros ND. destruct (ppx_spec p p r ND ltac:(reflexivity)) as (c1 & c2 & mask & r' & E & P1 & P2 & HB & _). exists r'. rewrite E.
  assert (c1 = p) as -> by (apply before_eq; [exact ND|exact P1|intros x y Hxy; apply (HB x y Hxy Hxy)]).
  assert (c2 = p) as -> by (apply before_eq; [exact ND|exact P2|intros x y Hxy; apply (HB x y Hxy Hxy)]). reflexivity.
Qed.
