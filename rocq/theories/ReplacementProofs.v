(** * Proofs about the replacement operators *)
From Verif Require Export ReplacementModel ReplacementSpec.
Open Scope nat_scope.

Section Repl.
Context {G : Type}.
Notation ind := (individual G).
Implicit Types pop ch : list ind.

(** What the body computes on one family. *)
Definition family (a b c d : ind) : ind * ind * ind * ind :=
  let '(a, b) := if ind_lt a b then (b, a) else (a, b) in
  let '(c, d) := if ind_lt c d then (d, c) else (c, d) in
  if ind_gt c a then if ind_gt d a then (c, d, b, a) else (c, a, b, d)
  else if ind_gt c b then (a, c, b, d) else (a, b, c, d).

Lemma weak_parent_step_family pre ch_pre a b c d post ch_post i :
  length pre = i -> length ch_pre = i ->
  let '(x, y, z, w) := family a b c d in
  weak_parent_step (pre ++ a :: b :: post, ch_pre ++ c :: d :: ch_post) i = Ok (pre ++ x :: y :: post, ch_pre ++ z :: w :: ch_post).
Proof.
  intros H1 H2.
  assert (L0 : forall (l : list ind) x y q, length l = i -> (l ++ x :: y :: q) !! i = Some x) by (intros; apply lookup_mid; lia).
  assert (L1 : forall (l : list ind) x y q, length l = i -> (l ++ x :: y :: q) !! (i + 1) = Some y).
  { intros l x y q Hl. replace (l ++ x :: y :: q) with ((l ++ [x]) ++ y :: q) by (rewrite <- app_assoc; reflexivity).
    apply lookup_mid. rewrite app_length; cbn; lia. }
  assert (I0 : forall (l : list ind) x y q z, length l = i -> <[i := z]> (l ++ x :: y :: q) = l ++ z :: y :: q) by (intros; apply insert_mid; lia).
  assert (I1 : forall (l : list ind) x y q z, length l = i -> <[i + 1 := z]> (l ++ x :: y :: q) = l ++ x :: z :: q).
  { intros l x y q z Hl. replace (l ++ x :: y :: q) with ((l ++ [x]) ++ y :: q) by (rewrite <- app_assoc; reflexivity).
    rewrite insert_mid by (rewrite app_length; cbn; lia). rewrite <- app_assoc. reflexivity. }
  assert (Sw : forall (l : list ind) x y q, length l = i -> swap i (i + 1) (l ++ x :: y :: q) = Ok (l ++ y :: x :: q)).
  { intros l x y q Hl. unfold swap. rewrite L0, L1 by exact Hl. rewrite I0, I1 by exact Hl. reflexivity. }
  unfold weak_parent_step, mem_swap, index, family.
  rewrite (L0 pre), (L1 pre) by exact H1. cbn [unwrap mbind outcome_bind].
  destruct (ind_lt a b); rewrite ?Sw by exact H1; cbn [mbind outcome_bind];
    rewrite ?(L0 ch_pre), ?(L1 ch_pre) by exact H2; cbn [unwrap mbind outcome_bind];
    destruct (ind_lt c d); rewrite ?Sw by exact H2; cbn [mbind outcome_bind];
    rewrite ?(L0 ch_pre), ?(L0 pre) by assumption; cbn [unwrap mbind outcome_bind];
    repeat match goal with |- context [ind_gt ?x ?y] => destruct (ind_gt x y) eqn:? end;
    repeat (rewrite ?Sw by assumption; rewrite ?L0, ?L1, ?I0, ?I1 by assumption; cbn [unwrap mbind outcome_bind];
      repeat match goal with E : ind_gt ?x ?y = _ |- context [ind_gt ?x ?y] => rewrite E end); reflexivity.
Qed.

Lemma family_spec a b c d : Forall (fun p : ind => is_nan (fitness p) = false) [a; b; c; d] ->
  let '(x, y, z, w) := family a b c d in two_largest [a; b; c; d] x y [z; w].
Proof.
  intros H. rewrite !Forall_cons in H. destruct H as (Ha & Hb & Hc & Hd & _).
  assert (T : forall p q : ind, is_nan (fitness p) = false -> is_nan (fitness q) = false ->
     (ind_lt p q = true /\ fle (fitness p) (fitness q) = true) \/ (ind_lt p q = false /\ fle (fitness q) (fitness p) = true)).
  { intros p q Hp Hq. unfold ind_lt. rewrite flt_fle_neg by assumption.
    destruct (fle (fitness q) (fitness p)) eqn:E; [right; auto|left]. split; [reflexivity|].
    destruct (fle_total (fitness p) (fitness q) Hp Hq); congruence. }
  unfold family, two_largest, ind_gt.
  destruct (T a b Ha Hb) as [[-> H1]|[-> H1]]; destruct (T c d Hc Hd) as [[-> H2]|[-> H2]]; cbn [fst snd];
  match goal with |- context [if ind_lt ?x ?y then _ else _] => destruct (T x y ltac:(assumption) ltac:(assumption)) as [[-> H3]|[-> H3]] end;
  match goal with |- context [if ind_lt ?x ?y then _ else _] => destruct (T x y ltac:(assumption) ltac:(assumption)) as [[-> H4]|[-> H4]] end;
  (split; [solve_Permutation|split; [try assumption; eapply fle_trans; eassumption|repeat constructor; try assumption; eauto using fle_trans]]).
Qed.

Lemma weak_parent_loop n : forall k0 (pre cpre post cpost : list ind),
  length pre = 2 * k0 -> length cpre = 2 * k0 -> 2 * n <= length post -> 2 * n <= length cpost ->
  comparable_all post -> comparable_all cpost ->
  exists post' cpost', ofold weak_parent_step (pre ++ post, cpre ++ cpost) ((fun k => 2 * k) <$> seq k0 n) = Ok (pre ++ post', cpre ++ cpost') /\
    length post' = length post /\ drop (2 * n) post' = drop (2 * n) post /\
    forall k, k < n -> exists a b c d x y rest,
      post !! (2 * k) = Some a /\ post !! (2 * k + 1) = Some b /\ cpost !! (2 * k) = Some c /\ cpost !! (2 * k + 1) = Some d /\
      post' !! (2 * k) = Some x /\ post' !! (2 * k + 1) = Some y /\ two_largest [a; b; c; d] x y rest.
Proof.
  induction n as [|n IH]; intros k0 pre cpre post cpost Hp Hc Hl Hcl Np Nc.
  - exists post, cpost. split_and!; auto. intros; lia.
  - destruct post as [|a [|b post]]; [cbn in Hl; lia..|]. destruct cpost as [|c [|d cpost]]; [cbn in Hcl; lia..|].
    cbn [length] in Hl, Hcl. apply Forall_cons in Np as [Na Np]. apply Forall_cons in Np as [Nb Np].
    apply Forall_cons in Nc as [Nc1 Nc]. apply Forall_cons in Nc as [Nd Nc].
    cbn [seq fmap list_fmap]. pose proof (weak_parent_step_family pre cpre a b c d post cpost (2 * k0) Hp Hc) as Hs.
    pose proof (family_spec a b c d ltac:(repeat constructor; assumption)) as Hf.
    destruct (family a b c d) as [[[x y] z] w].
    destruct (IH (S k0) (pre ++ [x; y]) (cpre ++ [z; w]) post cpost) as (post' & cpost' & E & El & Ed & Hk);
      rewrite ?app_length; cbn [length]; auto; try lia.
    exists (x :: y :: post'), (z :: w :: cpost'). split; [|split; [|split]].
    + rewrite (ofold_cons_Ok _ _ _ _ _ Hs). rewrite <- !app_assoc in E. cbn [app] in E. exact E.
    + cbn [length]. lia.
    + replace (2 * S n) with (S (S (2 * n))) by lia. cbn [drop]. exact Ed.
    + intros [|k] Hkn.
      * exists a, b, c, d, x, y, [z; w]. cbn. split_and!; auto; apply Hf.
      * replace (2 * S k) with (S (S (2 * k))) by lia. cbn [lookup list_lookup Nat.add]. apply Hk. lia.
Qed.

Lemma weak_parent_spec debug pop ch : pop <> [] -> length ch = length pop -> (debug = true -> length pop mod 2 = 0) ->
  comparable_all pop -> comparable_all ch ->
  exists pop', weak_parent debug pop ch = Ok pop' /\ length pop' = length pop /\
    (forall i, length pop - length pop mod 2 <= i -> pop' !! i = pop !! i) /\
    forall k, 2 * k + 1 < length pop -> exists a b c d x y rest,
      pop !! (2 * k) = Some a /\ pop !! (2 * k + 1) = Some b /\ ch !! (2 * k) = Some c /\ ch !! (2 * k + 1) = Some d /\
      pop' !! (2 * k) = Some x /\ pop' !! (2 * k + 1) = Some y /\ two_largest [a; b; c; d] x y rest.
Proof.
  intros Hne%length_pos_ne Hl Hd Np Nc. unfold weak_parent, step_by_2.
  assert (E1 : negb debug || bool_decide (length pop = length ch) = true).
  { apply orb_true_iff. right. apply bool_decide_eq_true. lia. }
  assert (E2 : negb debug || bool_decide (length pop mod 2 = 0) = true).
  { destruct debug; [|reflexivity]. apply bool_decide_eq_true. auto. }
  rewrite E1, E2. rewrite bool_decide_eq_true_2 by (apply length_pos_ne; exact Hne). cbn [rassert mbind outcome_bind].
  replace (length pop - 1 + 1) with (length pop) by lia.
  pose proof (Nat.div_mod (length pop) 2 ltac:(lia)) as Hdm. pose proof (Nat.mod_upper_bound (length pop) 2 ltac:(lia)) as Hmb.
  destruct (weak_parent_loop (length pop / 2) 0 [] [] pop ch eq_refl eq_refl) as (pop' & ch' & E & El & Ed & Hk); auto; try lia.
  cbn [app] in E. rewrite E. cbn [mbind outcome_bind]. exists pop'. split; [reflexivity|]. split; [exact El|]. split.
  - intros i Hi. replace i with (2 * (length pop / 2) + (i - 2 * (length pop / 2))) by lia.
    rewrite <- !lookup_drop, Ed. reflexivity.
  - intros k Hkl. apply Hk. lia.
Qed.

Lemma weak_parent_panics debug pop ch : pop = [] \/ (debug = true /\ (length pop <> length ch \/ length pop mod 2 <> 0)) ->
  weak_parent debug pop ch = Panic.
Proof.
  intros H. unfold weak_parent. destruct (negb debug || bool_decide (length pop = length ch)) eqn:E1; [|reflexivity].
  destruct (negb debug || bool_decide (length pop mod 2 = 0)) eqn:E2; [|reflexivity]. cbn [rassert mbind outcome_bind].
  destruct H as [->|[-> H]]; [reflexivity|]. cbn in E1, E2. apply bool_decide_eq_true in E1, E2. tauto.
Qed.

(** The smallest of four different fitness values is always thrown away. *)
Lemma two_largest_drops_min (a b c d x y : ind) rest m : two_largest [a; b; c; d] x y rest ->
  m ∈ [a; b; c; d] -> (forall z, z ∈ [a; b; c; d] -> z = m \/ flt (fitness m) (fitness z) = true) ->
  NoDup [a; b; c; d] -> m <> x /\ m <> y.
Proof.
  intros (Hp & Hxy & Hr) Hm Hmin Hnd.
  assert (Hlen : length rest = 2) by (apply Permutation_length in Hp; cbn in Hp; lia).
  destruct rest as [|z [|w [|]]]; try discriminate. rewrite !Forall_cons in Hr. destruct Hr as (Hz & Hw & _).
  rewrite Hp in Hnd. rewrite Hp in Hm.
  assert (Hmin' : forall u, u ∈ [x; y; z; w] -> u = m \/ flt (fitness m) (fitness u) = true) by (intros u Hu; apply Hmin; rewrite Hp; exact Hu).
  apply NoDup_cons in Hnd as [Hx Hnd]. apply NoDup_cons in Hnd as [Hy Hnd].
  assert (Hcontra : forall u v : ind, u <> v -> fle (fitness v) (fitness u) = true -> v ∈ [x; y; z; w] -> m = u -> False).
  { intros u v Huv Hle Hv ->. destruct (Hmin' v Hv) as [->|Hlt]; [congruence|].
    pose proof (flt_le_trans _ _ _ Hlt Hle) as Hb. rewrite flt_irrefl in Hb. discriminate. }
  split.
  - intros E. apply (Hcontra x y); auto; [intros ->; apply Hx; left|right; left].
  - intros E. apply (Hcontra y z); auto; [intros ->; apply Hy; left|right; right; left].
Qed.

Lemma weak_parent_forgets_min : exists (pop ch pop' : list (individual bool)) b,
  weak_parent true pop ch = Ok pop' /\ b ∈ pop /\ (forall z, z ∈ pop ++ ch -> z = b \/ flt (fitness b) (fitness z) = true) /\ ~ b ∈ pop'.
Proof.
  exists [Ind [true] f0; Ind [false] f1], [Ind [] (f_of_nat 2); Ind [] (f_of_nat 3)]. eexists _, (Ind [true] f0).
  split; [vm_compute; reflexivity|]. split; [left|]. split.
  - intros z Hz. cbn [app] in Hz. repeat (apply elem_of_cons in Hz as [->|Hz]; [try (left; reflexivity); right; reflexivity|]). inversion Hz.
  - intros H. repeat (apply elem_of_cons in H as [H|H]; [discriminate|]). inversion H.
Qed.
End Repl.
