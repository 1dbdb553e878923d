(** * Proofs about the permutation crossovers: Ordered, Pmx, Ppx *)
From Verif Require Export CrossoverProofs.
Open Scope nat_scope.
Local Arguments gen_range : simpl never.
Local Arguments ordered_child : simpl never.
Local Arguments pmx_child : simpl never.
Local Arguments ppx_child : simpl never.

Section Perm.
Context {G : Type} `{EqDecision G}.
Implicit Types (p q sub child rest : list G) (g : G).

Lemma read_range_ok p lo hi : lo <= hi -> hi <= length p ->
  read_range p lo hi = Ok (take (hi - lo) (drop lo p)).
Proof.
  intros Hle Hhi. unfold read_range. remember (hi - lo) as n eqn:Hn.
  revert lo Hle Hn. induction n as [|n IH]; intros lo Hle Hn; cbn; [reflexivity|].
  destruct (lookup_lt_is_Some_2 p lo) as [a Ha]; [lia|].
  rewrite (proj2 (index_Ok p lo a) Ha). cbn. rewrite IH by lia. cbn.
  rewrite (drop_S p a lo Ha). reflexivity.
Qed.

Lemma seg_lookup p lo hi i : i < hi - lo ->
  take (hi - lo) (drop lo p) !! i = p !! (lo + i).
Proof. intros Hi. rewrite lookup_take by lia. apply lookup_drop. Qed.

Lemma elem_of_seg p lo hi g :
  g ∈ take (hi - lo) (drop lo p) <-> exists i, lo <= i < hi /\ p !! i = Some g.
Proof.
  rewrite elem_of_take. split.
  - intros (i & Hi & Hlt). rewrite lookup_drop in Hi. exists (lo + i). split; [lia|exact Hi].
  - intros (i & Hi & Hg). exists (i - lo). split; [|lia]. rewrite lookup_drop. rewrite <- Hg. f_equal; lia.
Qed.

(** *** Ordered *)
Lemma ordered_fill_spec begin sub child rest :
  begin <= length child + length (filter (fun g => g ∉ sub) rest) ->
  exists rest', ordered_fill begin sub child rest =
      Ok (child ++ take (begin - length child) (filter (fun g => g ∉ sub) rest), rest') /\
    filter (fun g => g ∉ sub) rest' = drop (begin - length child) (filter (fun g => g ∉ sub) rest).
Proof.
  revert child; induction rest as [|g rest IH]; intros child Hle; cbn [ordered_fill].
  - cbn in Hle. rewrite decide_False by lia. exists [].
    replace (begin - length child) with 0 by lia. cbn. rewrite app_nil_r. auto.
  - destruct (decide (length child < begin)) as [Hlt|Hge].
    + rewrite filter_cons in Hle |- *.
      destruct (decide (g ∈ sub)) as [Hin|Hnin].
      * rewrite (decide_False (P := g ∉ sub)) in Hle |- * by tauto.
        rewrite bool_decide_eq_true_2 by auto. apply IH; auto.
      * rewrite (decide_True (P := g ∉ sub)) in Hle |- * by tauto.
        rewrite bool_decide_eq_false_2 by auto.
        destruct (IH (child ++ [g])) as (rest' & -> & Hr).
        { rewrite app_length. cbn in *. lia. }
        exists rest'. rewrite app_length in *. cbn [length] in *.
        replace (begin - length child) with (S (begin - (length child + 1))) by lia. cbn.
        split; [|exact Hr]. f_equal. f_equal. rewrite <- app_assoc. reflexivity.
    + exists (g :: rest). replace (begin - length child) with 0 by lia. cbn. rewrite app_nil_r. auto.
Qed.

Lemma ordered_rest_spec sub child rest :
  ordered_rest sub child rest = child ++ filter (fun g => g ∉ sub) rest.
Proof.
  revert child; induction rest as [|g rest IH]; intros child; cbn.
  - rewrite app_nil_r; reflexivity.
  - rewrite IH. case_bool_decide.
    + rewrite decide_False by tauto. reflexivity.
    + rewrite decide_True by tauto. rewrite <- app_assoc. reflexivity.
Qed.

Lemma seg_split p lo hi : lo <= hi ->
  p = take lo p ++ take (hi - lo) (drop lo p) ++ drop hi p.
Proof.
  intros H. rewrite <- (take_drop lo p) at 1. f_equal.
  rewrite <- (take_drop (hi - lo) (drop lo p)) at 1. f_equal.
  rewrite drop_drop. f_equal; lia.
Qed.

Lemma others_perm p q b e : NoDup p -> p ≡ₚ q -> b <= e ->
  filter (fun g => g ∉ take (e - b) (drop b p)) q ≡ₚ take b p ++ drop e p.
Proof.
  intros Hnd Hp Hbe. rewrite <- Hp.
  set (sub := take (e - b) (drop b p)).
  assert (E : p = take b p ++ sub ++ drop e p) by (apply seg_split; auto).
  rewrite E at 1.
  rewrite E in Hnd. apply NoDup_app in Hnd as (_ & H1 & Hnd). apply NoDup_app in Hnd as (_ & H2 & _).
  rewrite !filter_app.
  rewrite (filter_none (fun g => g ∉ sub) sub).
  2:{ apply Forall_forall. tauto. }
  rewrite !filter_all; auto.
  - apply Forall_forall. intros x Hx Hin. apply (H2 x); auto.
  - apply Forall_forall. intros x Hx Hin. apply (H1 x Hx). apply elem_of_app; auto.
Qed.

Lemma ordered_child_spec p q b e : NoDup p -> p ≡ₚ q -> b <= e -> e <= length p ->
  ordered_child p q b e = Ok (order_child p q b e) /\
  order_child p q b e ≡ₚ p /\ keeps_segment p (order_child p q b e) b e.
Proof.
  intros Hnd Hp Hbe He. unfold ordered_child, order_child.
  rewrite read_range_ok by auto. cbn -[ordered_fill].
  set (sub := take (e - b) (drop b p)).
  pose proof (others_perm p q b e Hnd Hp Hbe) as Ho. fold sub in Ho.
  set (others := filter (fun g => g ∉ sub) q) in *.
  assert (Hlo : length others = b + (length p - e)).
  { rewrite Ho, app_length, take_length, drop_length. lia. }
  destruct (ordered_fill_spec b sub [] q) as (rest' & Hf & Hr); [cbn; fold others; lia|].
  cbn [length] in *. rewrite Nat.sub_0_r in *. fold others in Hf, Hr. rewrite Hf.
  split; [|split].
  - cbn. rewrite ordered_rest_spec, Hr. rewrite <- app_assoc. reflexivity.
  - rewrite (seg_split p b e Hbe) at 1. fold sub.
    rewrite (Permutation_app_comm sub (drop b others)), app_assoc, take_drop, Ho.
    rewrite <- app_assoc. apply Permutation_app_head, Permutation_app_comm.
  - intros l Hl.
    rewrite lookup_app_r by (rewrite take_length; lia).
    rewrite take_length, Hlo. replace (b `min` (b + (length p - e))) with b by lia.
    rewrite lookup_app_l by (subst sub; rewrite take_length, drop_length; lia).
    subst sub. rewrite seg_lookup by lia. f_equal; lia.
Qed.

Lemma begin_end_draws n r : 0 < n ->
  exists b e, gen_range 0 n r = Ok (b, rng_tail r) /\
    gen_range b (n + 1) (rng_tail r) = Ok (e, rng_tail (rng_tail r)) /\ b < n /\ b <= e <= n.
Proof.
  intros Hn. destruct (gen_range_is_Ok 0 n r Hn) as (b & Hb & Hbn).
  destruct (gen_range_is_Ok b (n + 1) (rng_tail r)) as (e & He & Hen); [lia|].
  exists b, e. split_and!; auto; lia.
Qed.

Lemma ordered_spec p1 p2 r : NoDup p1 -> p1 ≡ₚ p2 -> 0 < length p1 ->
  exists b e r', ordered p1 p2 r = Ok ((order_child p1 p2 b e, order_child p2 p1 b e), r') /\
    b < length p1 /\ b <= e <= length p1 /\
    order_child p1 p2 b e ≡ₚ p1 /\ order_child p2 p1 b e ≡ₚ p1 /\
    keeps_segment p1 (order_child p1 p2 b e) b e /\ keeps_segment p2 (order_child p2 p1 b e) b e.
Proof.
  intros Hnd Hp Hne. unfold ordered.
  assert (Hlen : length p1 = length p2) by (rewrite Hp; reflexivity).
  rewrite bool_decide_eq_true_2 by auto. cbn.
  destruct (begin_end_draws (length p1) r Hne) as (b & e & Hb & He & Hbn & Hen).
  rewrite Hb. cbn. rewrite He. cbn.
  destruct (ordered_child_spec p1 p2 b e) as (H1 & H1p & H1k); auto; try lia.
  destruct (ordered_child_spec p2 p1 b e) as (H2 & H2p & H2k); auto; try lia.
  { rewrite <- Hp; auto. } { symmetry; auto. }
  rewrite H1. cbn. rewrite H2. cbn.
  exists b, e, (rng_tail (rng_tail r)). split_and!; auto; try lia. rewrite H2p. symmetry; auto.
Qed.

(** *** Pmx *)
Lemma val_index_Some l g i : val_index l g = Some i -> l !! i = Some g.
Proof.
  revert i; induction l as [|x xs IH]; intros i H; cbn in H; [discriminate|].
  destruct (val_index xs g) as [j|] eqn:E.
  - injection H as <-. cbn. auto.
  - destruct (decide (x = g)) as [->|]; [|discriminate]. injection H as <-. reflexivity.
Qed.
Lemma val_index_elem l g : g ∈ l -> exists i, val_index l g = Some i /\ l !! i = Some g.
Proof.
  intros Hin. destruct (val_index l g) as [i|] eqn:E; [exists i; split; [auto|apply val_index_Some; auto]|].
  exfalso. induction l as [|x xs IH]; [inversion Hin|]. cbn in E.
  destruct (val_index xs g) eqn:E'; [discriminate|].
  destruct (decide (x = g)); [discriminate|].
  apply elem_of_cons in Hin as [->|Hin]; [congruence|]. auto.
Qed.

Section Chain.
Context (p1 p2 : list G) (b e : nat).
Context (Hnd1 : NoDup p1) (Hnd2 : NoDup p2) (Hperm : p1 ≡ₚ p2) (He : e <= length p1).

(** index in p2 of the gene p1[j] *)
Definition nxt (j : nat) : nat := match p1 !! j with Some v => default 0 (val_index p2 v) | None => 0 end.

Lemma nxt_spec j : j < length p1 -> exists v, p1 !! j = Some v /\ val_index p2 v = Some (nxt j) /\ p2 !! nxt j = Some v.
Proof using Hperm.
  intros Hj. destruct (lookup_lt_is_Some_2 p1 j Hj) as [v Hv]. exists v. unfold nxt. rewrite Hv.
  destruct (val_index_elem p2 v) as (i & Hi & Hi'); [rewrite <- Hperm; apply elem_of_list_lookup; eauto|].
  rewrite Hi. cbn. auto.
Qed.
Lemma nxt_inj j k : j < length p1 -> k < length p1 -> nxt j = nxt k -> j = k.
Proof using Hperm Hnd1.
  intros Hj Hk E. destruct (nxt_spec j Hj) as (v & Hv & _ & Hv').
  destruct (nxt_spec k Hk) as (w & Hw & _ & Hw'). rewrite E in Hv'.
  assert (v = w) as -> by congruence. apply (NoDup_lookup p1 j k w); auto.
Qed.

Fixpoint chain (k : nat) (i : nat) : nat := match k with 0 => i | S k => nxt (chain k i) end.
Lemma chain_shift k i : chain (S k) i = chain k (nxt i).
Proof using Type. induction k as [|k IH]; [reflexivity|]. cbn [chain] in *. rewrite IH. reflexivity. Qed.

Definition inside (j : nat) : Prop := b <= j < e.
Lemma inside_dec j : {inside j} + {~ inside j}.
Proof using Type. clear He. unfold inside. destruct (decide (b <= j)), (decide (j < e)); auto; right; lia. Qed.

(** A start: a place of the segment whose gene of p2 is not in the substring. *)
Definition start (i : nat) : Prop := inside i /\ forall j, inside j -> nxt j <> i.

Lemma start_iff i g : inside i -> p2 !! i = Some g ->
  g ∉ take (e - b) (drop b p1) -> start i.
Proof using Hperm He.
  intros Hi Hg Hn. split; [exact Hi|]. intros j Hj E. apply Hn.
  apply elem_of_seg. exists j. split; [exact Hj|].
  destruct (nxt_spec j) as (v & Hv & _ & Hv'); [unfold inside in Hj; lia|].
  rewrite E in Hv'. congruence.
Qed.

Lemma chain_pull a d i i' : (forall k, k < a -> inside (chain k i)) ->
  (forall k, k < a + d -> inside (chain k i')) ->
  chain a i = chain (a + d) i' -> i = chain d i'.
Proof using Hperm Hnd1 He.
  induction a as [|a IH]; intros H1 H2 E; [exact E|].
  apply IH; [intros k Hk; apply H1; lia|intros k Hk; apply H2; lia|].
  cbn in E. apply nxt_inj in E; [exact E| |].
  - specialize (H1 a ltac:(lia)). unfold inside in H1. lia.
  - specialize (H2 (a + d) ltac:(lia)). unfold inside in H2. lia.
Qed.

Lemma chain_leaves i : start i -> exists k, k <= e - b /\ ~ inside (chain k i) /\ forall j, j < k -> inside (chain j i).
Proof using Hperm Hnd1 He.
  intros [Hi Hs].
  destruct (decide (Exists (fun k => ~ inside (chain k i)) (seq 0 (S (e - b))))) as [Hex|Hall].
  - assert (exists k, k < S (e - b) /\ ~ inside (chain k i)) as (k & Hk & Hnk).
    { apply Exists_exists in Hex as (k & Hk & Hn). apply elem_of_seq in Hk. exists k; split; [lia|auto]. }
    clear Hex. induction k as [k IHk] using lt_wf_ind.
    destruct (decide (Exists (fun j => ~ inside (chain j i)) (seq 0 k))) as [Hex|Hno].
    + apply Exists_exists in Hex as (j & Hj & Hn). apply elem_of_seq in Hj.
      apply (IHk j); auto; lia.
    + exists k. split; [lia|]. split; [auto|]. intros j Hj.
      destruct (inside_dec (chain j i)); [auto|]. exfalso. apply Hno, Exists_exists.
      exists j. split; [apply elem_of_seq; lia|auto].
  - exfalso.
    assert (Hin : forall k, k <= e - b -> inside (chain k i)).
    { intros k Hk. destruct (inside_dec (chain k i)); [auto|]. exfalso. apply Hall, Exists_exists.
      exists k. split; [apply elem_of_seq; lia|auto]. }
    (* pigeonhole *)
    assert (Hnd : ~ NoDup (map (fun k => chain k i) (seq 0 (S (e - b))))).
    { intros Hnd. assert (Hsub : map (fun k => chain k i) (seq 0 (S (e - b))) ⊆+ seq b (e - b)).
      { apply NoDup_submseteq; [exact Hnd|]. intros x Hx.
        apply elem_of_list_fmap in Hx as (k & -> & Hk). apply elem_of_seq in Hk.
        apply elem_of_seq. specialize (Hin k ltac:(lia)). unfold inside in Hin. lia. }
      apply submseteq_length in Hsub. rewrite map_length, !seq_length in Hsub. lia. }
    apply Hnd. apply NoDup_fmap_2_strong; [|apply NoDup_seq].
    intros x y Hx Hy E. apply elem_of_seq in Hx, Hy.
    assert (Haux : forall x y, x <= y -> y < S (e - b) -> chain x i = chain y i -> x = y).
    { clear - Hin Hs Hperm Hnd1 He. intros x y Hxy Hy E.
      destruct (decide (x = y)); [auto|exfalso].
      assert (E' : i = chain (y - x) i).
      { apply (chain_pull x (y - x)); auto.
        - intros k Hk. apply Hin; lia.
        - intros k Hk. apply Hin; lia.
        - replace (x + (y - x)) with y by lia. exact E. }
      destruct (y - x) as [|d] eqn:Hd; [lia|]. cbn in E'.
      apply (Hs (chain d i)); auto. apply Hin; lia. }
    destruct (decide (x <= y)); [apply Haux; auto; lia|symmetry; apply Haux; auto; lia].
Qed.

Lemma pmx_place_ok fuel i : start i -> e - b <= fuel ->
  exists k, pmx_place fuel p1 p2 b e i = Ok (chain (S k) i) /\
    ~ inside (chain (S k) i) /\ (forall j, j <= k -> inside (chain j i)).
Proof using Hperm Hnd1 He.
  intros Hs Hf. pose proof (chain_leaves i Hs) as (m & Hm & Hnm & Hin).
  destruct m as [|m]; [exfalso; apply Hnm, Hs|].
  exists m. split; [|split; [exact Hnm|intros; apply Hin; lia]].
  clear Hs. assert (Hf' : m < fuel) by lia. clear Hf Hm. revert i fuel Hnm Hin Hf'.
  induction m as [|m IH]; intros i fuel Hnm Hin Hf'.
  - destruct fuel as [|fuel]; [lia|]. cbn [pmx_place].
    destruct (nxt_spec i) as (v & Hv & Hv1 & Hv2).
    { specialize (Hin 0 ltac:(lia)). unfold inside in Hin; cbn in Hin. lia. }
    unfold index. rewrite Hv. cbn. rewrite Hv1. cbn. cbn in Hnm.
    rewrite decide_False by exact Hnm. reflexivity.
  - destruct fuel as [|fuel]; [lia|]. cbn [pmx_place].
    destruct (nxt_spec i) as (v & Hv & Hv1 & Hv2).
    { specialize (Hin 0 ltac:(lia)). unfold inside in Hin; cbn in Hin. lia. }
    unfold index. rewrite Hv. cbn -[chain]. rewrite Hv1. cbn -[chain].
    rewrite decide_True by (exact (Hin 1 ltac:(lia))).
    rewrite (IH (nxt i) fuel); [rewrite <- chain_shift; reflexivity|..].
    + rewrite <- chain_shift. exact Hnm.
    + intros j Hj. rewrite <- chain_shift. apply Hin; lia.
    + lia.
Qed.

(** Two different starts are placed at different positions. *)
Lemma starts_apart i i' k k' :
  start i -> start i' ->
  (forall j, j <= k -> inside (chain j i)) -> (forall j, j <= k' -> inside (chain j i')) ->
  chain (S k) i = chain (S k') i' -> i = i'.
Proof using Hperm Hnd1 He.
  intros Hs Hs' Hk Hk' E.
  assert (Haux : forall i i' k k', k <= k' -> start i ->
     (forall j, j <= k -> inside (chain j i)) -> (forall j, j <= k' -> inside (chain j i')) ->
     chain (S k) i = chain (S k') i' -> i = i').
  { clear - Hperm Hnd1 He. intros i i' k k' Hle [_ Hs] Hk Hk' E.
    assert (E' : i = chain (k' - k) i').
    { apply (chain_pull (S k) (k' - k)).
      - intros j Hj; apply Hk; lia.
      - intros j Hj; apply Hk'; lia.
      - replace (S k + (k' - k)) with (S k') by lia. exact E. }
    destruct (k' - k) as [|d] eqn:Hd; [exact E'|]. cbn in E'. exfalso.
    apply (Hs (chain d i')); auto. apply Hk'; lia. }
  destruct (decide (k <= k')); [eapply Haux; eauto|symmetry; eapply (Haux i' i k' k); eauto; lia].
Qed.

Notation sub := (take (e - b) (drop b p1)).
Context (Hbe : b <= e).

Lemma len_eq : length p2 = length p1.
Proof using Hperm. rewrite Hperm. reflexivity. Qed.

Lemma pmx_init :
  exists nc, ofold (fun nc i => g ← index p1 i; assign nc i (Some g))
         (replicate (length p1) None) (seq b (e - b)) = Ok nc /\
   length nc = length p1 /\
   (forall l, inside l -> nc !! l = Some (p1 !! l)) /\
   (forall l, ~ inside l -> l < length p1 -> nc !! l = Some None).
Proof using He Hbe.
  assert (H : forall m, m <= e - b -> exists nc,
    ofold (fun nc i => g ← index p1 i; assign nc i (Some g))
         (replicate (length p1) None) (seq b m) = Ok nc /\
    length nc = length p1 /\
    (forall l, b <= l < b + m -> nc !! l = Some (p1 !! l)) /\
    (forall l, ~ b <= l < b + m -> l < length p1 -> nc !! l = Some None)).
  { induction m as [|m IH]; intros Hm.
    - exists (replicate (length p1) None). split; [reflexivity|].
      rewrite replicate_length. split; [reflexivity|]. split; [lia|].
      intros l _ Hl. apply lookup_replicate. auto.
    - destruct IH as (nc & E & Hl & H1 & H2); [lia|].
      rewrite seq_S, ofold_app, E. cbn.
      destruct (lookup_lt_is_Some_2 p1 (b + m)) as [g Hg]; [lia|].
      rewrite (proj2 (index_Ok _ _ _) Hg). cbn. unfold assign. rewrite decide_True by lia. cbn.
      exists (<[b + m := Some g]> nc). split; [reflexivity|]. rewrite insert_length. split; [auto|].
      split; intros l Hl1; [|intros Hl2].
      + destruct (decide (l = b + m)) as [->|].
        * rewrite list_lookup_insert by lia. rewrite Hg. reflexivity.
        * rewrite list_lookup_insert_ne by auto. apply H1; lia.
      + rewrite list_lookup_insert_ne by lia. apply H2; lia. }
  destruct (H (e - b)) as (nc & E & Hl & H1 & H2); [lia|].
  exists nc. unfold inside. split_and!; auto; intros l Hl'; [apply H1; lia|apply H2; lia].
Qed.

Lemma chain_mapped i g : p2 !! i = Some g -> g ∉ sub -> forall k, (forall j, j <= k -> inside (chain j i)) ->
  forall v, p1 !! chain k i = Some v -> mapped p1 p2 b e v g.
Proof using Hperm He Hbe.
  intros Hg Hn. induction k as [|k IH]; intros Hin v Hv.
  - apply (mapped_by p1 p2 b e i v g g (Hin 0 ltac:(lia)) Hv Hg). apply mapped_free. exact Hn.
  - pose proof (Hin k ltac:(lia)) as Hk. destruct (nxt_spec (chain k i)) as (w & Hw & _ & Hw'); [unfold inside in Hk; lia|].
    apply (mapped_by p1 p2 b e (chain (S k) i) v w g (Hin (S k) ltac:(lia)) Hv Hw'). apply IH; [intros j Hj; apply Hin; lia|exact Hw].
Qed.

Lemma pmx_main fuel : e - b <= fuel -> forall nc,
  length nc = length p1 ->
  (forall l, inside l -> nc !! l = Some (p1 !! l)) ->
  (forall l, ~ inside l -> l < length p1 -> nc !! l = Some None) ->
  exists nc', ofold (pmx_step fuel p1 p2 sub b e) nc (seq b (e - b)) = Ok nc' /\
    length nc' = length p1 /\
    (forall l, inside l -> nc' !! l = Some (p1 !! l)) /\
    (forall i g, inside i -> p2 !! i = Some g -> g ∉ sub -> exists l, nc' !! l = Some (Some g)) /\
    (forall l g, ~ inside l -> nc' !! l = Some (Some g) -> exists v, p2 !! l = Some v /\ v ∈ sub /\ mapped p1 p2 b e v g).
Proof using Hperm Hnd1 He Hbe.
  intros Hf nc0 Hlen Hin Hout.
  assert (H : forall m, m <= e - b -> exists nc,
    ofold (pmx_step fuel p1 p2 sub b e) nc0 (seq b m) = Ok nc /\ length nc = length p1 /\
    (forall l, inside l -> nc !! l = Some (p1 !! l)) /\
    (forall i g, b <= i < b + m -> p2 !! i = Some g -> g ∉ sub ->
       exists l, pmx_place fuel p1 p2 b e i = Ok l /\ ~ inside l /\ nc !! l = Some (Some g)) /\
    (forall l g, ~ inside l -> nc !! l = Some (Some g) -> exists v, p2 !! l = Some v /\ v ∈ sub /\ mapped p1 p2 b e v g)).
  { induction m as [|m IH]; intros Hm.
    - exists nc0. split; [reflexivity|]. split_and!; auto; [intros; lia|].
      intros l g Hl Hg. assert (l < length p1) by (rewrite <- Hlen; eapply lookup_lt_Some; eauto).
      rewrite Hout in Hg by auto. discriminate.
    - destruct IH as (nc & E & Hl & H1 & H2 & H3); [lia|].
      rewrite seq_S, ofold_app, E. cbn [mbind outcome_bind ofold].
      destruct (lookup_lt_is_Some_2 p2 (b + m)) as [g Hg]; [rewrite len_eq; lia|].
      assert (Hi : inside (b + m)) by (unfold inside; lia).
      unfold pmx_step. rewrite (proj2 (index_Ok _ _ _) Hg). cbn [mbind outcome_bind].
      destruct (decide (g ∈ sub)) as [Hs|Hns].
      + rewrite bool_decide_eq_true_2 by auto. cbn. exists nc. split_and!; auto.
        intros i g' Hi' Hg' Hn. destruct (decide (i = b + m)) as [->|]; [congruence|].
        apply H2; auto; lia.
      + rewrite bool_decide_eq_false_2 by auto.
        assert (Hst : start (b + m)) by (eapply start_iff; eauto).
        destruct (pmx_place_ok fuel (b + m) Hst Hf) as (k & Hk & Hko & Hki).
        rewrite Hk. cbn [mbind outcome_bind].
        set (l := chain (S k) (b + m)) in *.
        destruct (nxt_spec (chain k (b + m))) as (v & Hv & _ & Hv').
        { specialize (Hki k ltac:(lia)). unfold inside in Hki. lia. }
        change (nxt (chain k (b + m))) with l in Hv'.
        assert (Hll : l < length p1) by (rewrite <- len_eq; eapply lookup_lt_Some; eauto).
        unfold assign. rewrite decide_True by lia. cbn.
        exists (<[l := Some g]> nc). rewrite insert_length.
        split; [reflexivity|]. split; [auto|]. split_and!.
        * intros x Hx. rewrite list_lookup_insert_ne by (intros ->; auto). auto.
        * intros i g' Hi' Hg' Hn. destruct (decide (i = b + m)) as [->|Hne].
          { exists l. split; [auto|]. split; [auto|]. rewrite list_lookup_insert by lia. congruence. }
          destruct (H2 i g') as (l' & Hl1 & Hl2 & Hl3); auto; [lia|].
          exists l'. split; [auto|]. split; [auto|].
          rewrite list_lookup_insert_ne; [auto|]. intros E'.
          assert (Hii : inside i) by (unfold inside; lia).
          assert (Hst' : start i) by (eapply start_iff; eauto).
          destruct (pmx_place_ok fuel i Hst' Hf) as (k' & Hk' & _ & Hki').
          rewrite Hk' in Hl1. injection Hl1 as Hl1.
          apply Hne. apply (starts_apart i (b + m) k' k); auto. fold l. rewrite E'. exact Hl1.
        * intros x g' Hx Hg'. destruct (decide (x = l)) as [->|].
          { rewrite list_lookup_insert in Hg' by lia. injection Hg' as <-. exists v. split; [auto|]. split.
            - apply elem_of_seg. exists (chain k (b + m)). split; [apply Hki; lia|exact Hv].
            - exact (chain_mapped (b + m) g Hg Hns k Hki v Hv). }
          rewrite list_lookup_insert_ne in Hg' by auto. eauto. }
  destruct (H (e - b)) as (nc & E & Hl & H1 & H2 & H3); [lia|].
  exists nc. split_and!; auto. intros i g Hi Hg Hn.
  destruct (H2 i g) as (l & _ & _ & ?); auto; [unfold inside in Hi; lia|]. eauto.
Qed.

Lemma pmx_finish_spec q nc : length nc = length q ->
  exists c, pmx_finish q nc = Ok c /\ length c = length nc /\
    forall l, c !! l = match nc !! l with Some (Some g) => Some g | Some None => q !! l | None => None end.
Proof using Type.
  clear He Hbe. intros Hlen. unfold pmx_finish.
  assert (H : forall m lo, lo + length m <= length q -> exists c,
    omapM (fun io : nat * option G => match io.2 with Some g => Ok g | None => index q io.1 end)
      (imap (fun i o => (lo + i, o)) m) = Ok c /\ length c = length m /\
    forall l, c !! l = match m !! l with Some (Some g) => Some g | Some None => q !! (lo + l) | None => None end).
  { induction m as [|o m IH]; intros lo Hlo; cbn in *.
    - exists []. auto.
    - destruct (IH (S lo)) as (c & Hc & Hlc & Hc'); [lia|].
      assert (exists g, (match o with Some g => Ok g | None => index q (lo + 0) end) = Ok g /\
         Some g = match o with Some g => Some g | None => q !! (lo + 0) end) as (g & Hg & Hg').
      { destruct o as [g|]; [eauto|].
        destruct (lookup_lt_is_Some_2 q (lo + 0)) as [g Hg]; [lia|].
        exists g. unfold index. rewrite Hg. auto. }
      rewrite Hg. cbn.
      erewrite imap_ext; [rewrite Hc|]. 2:{ intros; cbn; f_equal; lia. }
      cbn. exists (g :: c). split; [reflexivity|]. split; [cbn; lia|].
      intros [|l]; cbn; [destruct o; auto|]. rewrite Hc'. destruct (m !! l) as [[]|]; auto.
      f_equal; lia. }
  destruct (H nc 0) as (c & Hc & Hl & Hc'); [lia|]. exists c. split_and!; auto.
Qed.

Lemma pmx_child_full fuel : e - b <= fuel ->
  exists c, pmx_child fuel p1 p2 b e = Ok c /\ c ≡ₚ p1 /\ keeps_segment p1 c b e /\
   (forall l g, ~ b <= l < e -> p2 !! l = Some g -> g ∉ sub -> c !! l = Some g) /\
   partially_mapped_child p1 p2 b e c.
Proof using Hperm Hnd1 Hnd2 He Hbe.
  intros Hf. unfold pmx_child. rewrite read_range_ok by auto. cbn [mbind outcome_bind].
  destruct pmx_init as (nc & E & Hl & H1 & H2). rewrite E. cbn [mbind outcome_bind].
  destruct (pmx_main fuel Hf nc Hl H1 H2) as (nc' & E' & Hl' & H1' & H2' & H3').
  rewrite E'. cbn [mbind outcome_bind].
  destruct (pmx_finish_spec p2 nc') as (c & Hc & Hlc & Hlook); [rewrite len_eq; auto|].
  exists c. rewrite Hc. split; [reflexivity|].
  assert (Hkeep : keeps_segment p1 c b e).
  { intros l Hl0. rewrite Hlook, H1' by exact Hl0. destruct (p1 !! l) eqn:Ep; [auto|].
    apply lookup_ge_None in Ep. unfold inside in *. lia. }
  assert (Hstay : forall l g, ~ b <= l < e -> p2 !! l = Some g -> g ∉ sub -> c !! l = Some g).
  { intros l g Hl0 Hg Hn. rewrite Hlook.
    destruct (nc' !! l) as [[g'|]|] eqn:En; [|exact Hg|].
    - destruct (H3' l g' Hl0 En) as (v & Hv & Hv' & _). congruence.
    - exfalso. apply lookup_ge_None in En. apply lookup_lt_Some in Hg. rewrite len_eq in Hg. lia. }
  assert (HP : c ≡ₚ p1); [|split; [exact HP|]; split; [exact Hkeep|]; split; [exact Hstay|]; split; [rewrite HP; reflexivity|]; split; [exact Hkeep|]].
  2:{ intros l g Hl0 Hg. destruct (decide (g ∈ sub)) as [Hs|Hs]; [|exists g; split; [apply mapped_free; exact Hs|exact (Hstay l g Hl0 Hg Hs)]].
    destruct (nc' !! l) as [[h|]|] eqn:En.
    - destruct (H3' l h Hl0 En) as (v & Hv & _ & Hm). exists h. split; [congruence|]. rewrite Hlook, En. reflexivity.
    - exfalso. assert (Hc' : c !! l = Some g) by (rewrite Hlook, En; exact Hg). apply elem_of_seg in Hs as (i & Hi & Hi').
      assert (Hci : c !! i = Some g) by (rewrite Hkeep by exact Hi; exact Hi'). apply Hl0. assert (NoDup c) as Nc by (rewrite HP; exact Hnd1).
      rewrite (NoDup_lookup c l i g Nc Hc' Hci). exact Hi.
    - exfalso. apply lookup_ge_None in En. apply lookup_lt_Some in Hg. rewrite len_eq in Hg. lia. }
  symmetry. rewrite Hperm. apply submseteq_Permutation_length_le; [rewrite len_eq; lia|].
  apply NoDup_submseteq; [exact Hnd2|]. intros g Hg.
  apply elem_of_list_lookup in Hg as [a Ha]. apply elem_of_list_lookup.
  destruct (decide (g ∈ sub)) as [Hs|Hs].
  - apply elem_of_seg in Hs as (i & Hi & Hi'). exists i. rewrite Hkeep by exact Hi. exact Hi'.
  - destruct (inside_dec a) as [Hin|Hout].
    + destruct (H2' a g Hin Ha Hs) as [l Hl2]. exists l. rewrite Hlook, Hl2. reflexivity.
    + exists a. apply Hstay; auto.
Qed.
Lemma pmx_child_ok fuel : e - b <= fuel ->
  exists c, pmx_child fuel p1 p2 b e = Ok c /\ c ≡ₚ p1 /\ keeps_segment p1 c b e /\
   (forall l g, ~ b <= l < e -> p2 !! l = Some g -> g ∉ sub -> c !! l = Some g).
Proof using Hperm Hnd1 Hnd2 He Hbe.
  intros Hf. destruct (pmx_child_full fuel Hf) as (c & H1 & H2 & H3 & H4 & _). exists c. auto.
Qed.
End Chain.

Lemma pmx_spec fuel p1 p2 r : NoDup p1 -> p1 ≡ₚ p2 -> 0 < length p1 -> length p1 <= fuel ->
  exists b e c1 c2 r', pmx fuel p1 p2 r = Ok ((c1, c2), r') /\
    b < length p1 /\ b <= e <= length p1 /\
    c1 ≡ₚ p1 /\ c2 ≡ₚ p1 /\ keeps_segment p1 c1 b e /\ keeps_segment p2 c2 b e /\
    (forall l g, ~ b <= l < e -> p2 !! l = Some g -> g ∉ take (e - b) (drop b p1) -> c1 !! l = Some g) /\
    (forall l g, ~ b <= l < e -> p1 !! l = Some g -> g ∉ take (e - b) (drop b p2) -> c2 !! l = Some g) /\
    partially_mapped_child p1 p2 b e c1 /\ partially_mapped_child p2 p1 b e c2.
Proof.
  intros Hnd Hp Hne Hf. unfold pmx.
  assert (Hlen : length p1 = length p2) by (rewrite Hp; reflexivity).
  assert (Hnd2 : NoDup p2) by (rewrite <- Hp; auto).
  rewrite bool_decide_eq_true_2 by auto. cbn.
  destruct (begin_end_draws (length p1) r Hne) as (b & e & Hb & He & Hbn & Hen).
  rewrite Hb. cbn. rewrite He. cbn.
  destruct (pmx_child_full p1 p2 b e Hnd Hnd2 Hp ltac:(lia) ltac:(lia) fuel ltac:(lia)) as (c1 & H1 & H1p & H1k & H1s & H1m).
  destruct (pmx_child_full p2 p1 b e Hnd2 Hnd ltac:(symmetry; auto) ltac:(lia) ltac:(lia) fuel ltac:(lia)) as (c2 & H2 & H2p & H2k & H2s & H2m).
  rewrite H1. cbn. rewrite H2. cbn.
  exists b, e, c1, c2, (rng_tail (rng_tail r)). split_and!; auto; try lia. rewrite H2p. symmetry; auto.
Qed.

(** *** Ppx *)
Lemma ppx_next_ok taken rest : (exists g, g ∈ rest /\ g ∉ taken) ->
  exists g skipped rest', ppx_next taken rest = Ok (g, rest') /\ rest = skipped ++ g :: rest' /\
    g ∉ taken /\ (forall x, x ∈ skipped -> x ∈ taken).
Proof.
  induction rest as [|x rest IH]; intros (g & Hg & Hn); [inversion Hg|]. cbn.
  case_bool_decide as Hx.
  - destruct IH as (g' & sk & rest' & E & -> & Hn' & Hsk).
    { exists g. split; [|exact Hn]. apply elem_of_cons in Hg as [->|]; [tauto|auto]. }
    exists g', (x :: sk), rest'. split_and!; auto.
    intros y Hy. apply elem_of_cons in Hy as [->|]; auto.
  - exists x, [], rest. split_and!; auto. intros y Hy; inversion Hy.
Qed.

(** Everything that was scanned past is in the child. *)
Definition scanned p child rest := exists pre, p = pre ++ rest /\ forall x, x ∈ pre -> x ∈ child.

Lemma before_snoc child g x y : before child x y -> before (child ++ [g]) x y.
Proof.
  intros (i & j & Hij & Hi & Hj). exists i, j. split; [auto|].
  rewrite !lookup_app_l by (eapply lookup_lt_Some; eauto). auto.
Qed.

Lemma ppx_loop_ok p1 p2 mask child r1 r2 :
  NoDup p1 -> p1 ≡ₚ p2 -> NoDup child -> (forall g, g ∈ child -> g ∈ p1) ->
  length child + length mask = length p1 ->
  scanned p1 child r1 -> scanned p2 child r2 ->
  (forall x y, before p1 x y -> before p2 x y -> y ∈ child -> before child x y) ->
  exists c, ppx_loop mask child r1 r2 = Ok c /\ c ≡ₚ p1 /\
   (forall x y, before p1 x y -> before p2 x y -> before c x y).
Proof.
  intros Hnd Hp. assert (Hnd2 : NoDup p2) by (rewrite <- Hp; auto).
  revert child r1 r2; induction mask as [|m mask IH]; intros child r1 r2 Hc Hin Hlen S1 S2 Hord.
  - cbn in *. exists child. split; [reflexivity|].
    assert (Hperm : child ≡ₚ p1).
    { apply submseteq_Permutation_length_le; [lia|apply NoDup_submseteq; auto]. }
    split; [exact Hperm|]. intros x y H1 H2. apply Hord; auto.
    rewrite Hperm. destruct H1 as (i & j & _ & _ & Hj). apply elem_of_list_lookup; eauto.
  - assert (Hmiss : forall p r, p ≡ₚ p1 -> scanned p child r -> exists g, g ∈ r /\ g ∉ child).
    { intros p r Hpp (pre & Hpre & Hall).
      destruct (decide (Exists (fun g => g ∉ child) r)) as [Hex|Hno].
      - apply Exists_exists in Hex as (g & ? & ?). eauto.
      - exfalso. assert (Hsub : p1 ⊆+ child).
        { apply NoDup_submseteq; [auto|]. intros g Hg. rewrite <- Hpp, Hpre in Hg.
          apply elem_of_app in Hg as [Hg|Hg]; [auto|].
          destruct (decide (g ∈ child)); [auto|]. exfalso. apply Hno, Exists_exists. eauto. }
        apply submseteq_length in Hsub. cbn in Hlen. lia. }
    assert (Hstep : forall p q r s, (p = p1 /\ q = p2 \/ p = p2 /\ q = p1) ->
       scanned p child r -> scanned q child s ->
       exists g r', ppx_next child r = Ok (g, r') /\
         NoDup (child ++ [g]) /\ (forall x, x ∈ child ++ [g] -> x ∈ p1) /\
         scanned p (child ++ [g]) r' /\ scanned q (child ++ [g]) s /\
         (forall x y, before p1 x y -> before p2 x y -> y ∈ child ++ [g] -> before (child ++ [g]) x y)).
    { intros p q r s Hpq Sp Sq.
      assert (Hpp : p ≡ₚ p1) by (destruct Hpq as [[-> ->]|[-> ->]]; [reflexivity|symmetry; auto]).
      destruct (ppx_next_ok child r (Hmiss p r Hpp Sp)) as (g & sk & r' & E & Er & Hn & Hsk).
      exists g, r'. split; [exact E|].
      destruct Sp as (pre & Hpre & Hall).
      assert (Hgp : g ∈ p1).
      { rewrite <- Hpp, Hpre, Er. apply elem_of_app; right. apply elem_of_app; right. left. }
      split; [|split; [|split; [|split]]].
      - apply NoDup_app. split; [auto|]. split; [|apply NoDup_singleton].
        intros x Hx Hx'. apply elem_of_list_singleton in Hx'. congruence.
      - intros x Hx. apply elem_of_app in Hx as [Hx|Hx]; [auto|].
        apply elem_of_list_singleton in Hx. congruence.
      - exists (pre ++ sk ++ [g]). split.
        + rewrite Hpre, Er, <- !app_assoc. reflexivity.
        + intros x Hx. rewrite !elem_of_app in *. destruct Hx as [Hx|[Hx|Hx]]; auto.
      - destruct Sq as (pre' & Hpre' & Hall'). exists pre'. split; [auto|].
        intros x Hx. apply elem_of_app; auto.
      - intros x y B1 B2 Hy. destruct (decide (y ∈ child)) as [Hyc|Hyc].
        { apply before_snoc. auto. }
        apply elem_of_app in Hy as [Hy|Hy]; [tauto|].
        apply elem_of_list_singleton in Hy. subst y.
        assert (B : before p x g) by (destruct Hpq as [[-> _]|[-> _]]; auto).
        destruct B as (i & j & Hij & Hi & Hj).
        assert (Hndp : NoDup p) by (rewrite Hpp; auto).
        assert (Hj' : p !! (length pre + length sk) = Some g).
        { rewrite Hpre, Er. rewrite lookup_app_r by lia. rewrite lookup_app_r by lia.
          replace (_ - _ - _) with 0 by lia. reflexivity. }
        assert (j = length pre + length sk) by (eapply NoDup_lookup; eauto). subst j.
        assert (Hxc : x ∈ child).
        { rewrite Hpre, Er in Hi. destruct (decide (i < length pre)).
          - rewrite lookup_app_l in Hi by lia. apply Hall, elem_of_list_lookup; eauto.
          - rewrite lookup_app_r in Hi by lia. rewrite lookup_app_l in Hi by lia.
            apply Hsk, elem_of_list_lookup; eauto. }
        apply elem_of_list_lookup in Hxc as [a Ha].
        exists a, (length child). assert (a < length child) by (eapply lookup_lt_Some; eauto).
        split; [auto|]. rewrite lookup_app_l by auto. split; [auto|].
        rewrite lookup_app_r, Nat.sub_diag by lia. reflexivity. }
    destruct m; cbn [ppx_loop].
    + destruct (Hstep p1 p2 r1 r2) as (g & r' & E & Hc' & Hin' & S1' & S2' & Ho'); auto.
      rewrite E. cbn [mbind outcome_bind]. apply IH; auto. rewrite app_length. cbn in *; lia.
    + destruct (Hstep p2 p1 r2 r1) as (g & r' & E & Hc' & Hin' & S1' & S2' & Ho'); auto.
      rewrite E. cbn [mbind outcome_bind]. apply IH; auto. rewrite app_length. cbn in *; lia.
Qed.

Lemma ppx_child_ok p1 p2 mask : NoDup p1 -> p1 ≡ₚ p2 -> length mask = length p1 ->
  exists c, ppx_child p1 p2 mask = Ok c /\ c ≡ₚ p1 /\
   (forall x y, before p1 x y -> before p2 x y -> before c x y).
Proof.
  intros Hnd Hp Hm. unfold ppx_child. apply (ppx_loop_ok p1 p2); auto.
  - apply NoDup_nil_2.
  - intros g Hg; inversion Hg.
  - exists []. split; [auto|]. intros x Hx; inversion Hx.
  - exists []. split; [auto|]. intros x Hx; inversion Hx.
  - intros x y _ _ Hy; inversion Hy.
Qed.

Lemma filter_snoc child g rest : filter (fun x => x ∉ child ++ [g]) rest = filter (fun x => x <> g) (filter (fun x => x ∉ child) rest).
Proof.
  rewrite list_filter_filter. apply list_filter_iff. intros x. rewrite elem_of_app, elem_of_list_singleton. tauto.
Qed.
Lemma ppx_next_first taken rest g rest' : ppx_next taken rest = Ok (g, rest') ->
  exists tl, filter (fun x => x ∉ taken) rest = g :: tl /\ filter (fun x => x ∉ taken) rest' = tl.
Proof.
  induction rest as [|x rest IH]; cbn [ppx_next]; [discriminate|]. rewrite filter_cons. case_bool_decide as Hx.
  - rewrite decide_False by tauto. exact IH.
  - intros [= <- <-]. rewrite decide_True by exact Hx. eauto.
Qed.
Lemma ppx_loop_turns mask : forall child r1 r2 c, ppx_loop mask child r1 r2 = Ok c ->
  c = child ++ taking_turns mask (filter (fun x => x ∉ child) r1) (filter (fun x => x ∉ child) r2).
Proof.
  induction mask as [|b mask IH]; intros child r1 r2 c H; [injection H as <-; cbn; rewrite app_nil_r; reflexivity|].
  assert (Drop : forall g tl, filter (fun x => x <> g) (g :: tl) = filter (fun x => x <> g) tl) by (intros g tl; rewrite filter_cons, decide_False by tauto; reflexivity).
  destruct b; cbn [ppx_loop] in H; apply obind_Ok in H as ([g r'] & H1 & H); apply ppx_next_first in H1 as (tl & E & E'); apply IH in H; rewrite H; clear H;
    cbn [taking_turns]; rewrite E, <- app_assoc; cbn [app]; f_equal; f_equal; rewrite !filter_snoc, E', Drop; reflexivity.
Qed.
Lemma filter_unused (l : list G) : filter (fun x => x ∉ ([] : list G)) l = l.
Proof. induction l as [|y l IH]; [reflexivity|]. rewrite filter_cons, decide_True by apply not_elem_of_nil. f_equal. exact IH. Qed.
Lemma ppx_child_turns p1 p2 mask c : ppx_child p1 p2 mask = Ok c -> c = taking_turns mask p1 p2.
Proof.
  intros H. apply ppx_loop_turns in H. rewrite H. cbn [app]. rewrite !filter_unused. reflexivity.
Qed.

Lemma ppx_spec p1 p2 r : NoDup p1 -> p1 ≡ₚ p2 ->
  exists c1 c2 mask r', ppx p1 p2 r = Ok ((c1, c2), r') /\ c1 ≡ₚ p1 /\ c2 ≡ₚ p1 /\
   (forall x y, before p1 x y -> before p2 x y -> before c1 x y /\ before c2 x y) /\
   repeatM (length p1) gen_bool r = (mask, r') /\ c1 = taking_turns mask p1 p2 /\ c2 = taking_turns mask p2 p1.
Proof.
  intros Hnd Hp. unfold ppx.
  assert (Hlen : length p1 = length p2) by (rewrite Hp; reflexivity).
  rewrite bool_decide_eq_true_2 by auto. cbn [mbind outcome_bind rassert].
  destruct (repeatM (length p1) gen_bool r) as [mask r1] eqn:E.
  pose proof E as EL. apply repeatM_length in EL.
  destruct (ppx_child_ok p1 p2 mask) as (c1 & E1 & H1 & B1); auto. rewrite E1. apply ppx_child_turns in E1.
  destruct (ppx_child_ok p2 p1 mask) as (c2 & E2 & H2 & B2).
  { rewrite <- Hp; auto. } { symmetry; auto. } { lia. }
  rewrite E2. apply ppx_child_turns in E2. cbn. exists c1, c2, mask, r1. split_and!; auto. rewrite H2; symmetry; auto.
Qed.
End Perm.

(** ** PMX outside its precondition *)
Definition loop_r : rng := fun n => match n with 0 => 1%N | _ => 2%N end.
Lemma pmx_loops fuel : pmx_place fuel [1; 0; 0] [0; 1; 0] 1 3 2 = Diverge.
Proof. induction fuel as [|fuel IH]; [reflexivity|]. cbn [pmx_place]. cbn -[pmx_place]. exact IH. Qed.
Lemma pmx_diverges fuel : pmx fuel [1; 0; 0] [0; 1; 0] loop_r = Diverge.
Proof.
  unfold pmx.
  change (gen_range 0 (length [1; 0; 0]) loop_r) with (Ok (1, rng_tail loop_r)).
  cbn [rassert mbind outcome_bind length].
  rewrite bool_decide_eq_true_2 by reflexivity. cbn [rassert mbind outcome_bind].
  change (gen_range 1 (3 + 1) (rng_tail loop_r)) with (Ok (3, rng_tail (rng_tail loop_r))).
  cbn [mbind outcome_bind].
  assert (E : pmx_child fuel [1; 0; 0] [0; 1; 0] 1 3 = Diverge); [|rewrite E; reflexivity].
  unfold pmx_child. cbn -[pmx_place pmx_step].
  change (assign [None; None; None] 1 (Some 0)) with (Ok [None; Some 0; None]). cbn -[pmx_place pmx_step].
  change (assign [None; Some 0; None] 2 (Some 0)) with (Ok [None; Some 0; Some 0]). cbn -[pmx_place pmx_step].
  assert (E1 : pmx_step fuel [1; 0; 0] [0; 1; 0] [0; 0] 1 3 [None; Some 0; Some 0] 1 = Diverge);
    [|rewrite E1; reflexivity].
  unfold pmx_step. cbn -[pmx_place bool_decide].
  change (bool_decide (1 ∈ [0; 0])) with false. cbv iota.
  destruct fuel as [|fuel]; [reflexivity|].
  change (pmx_place (S fuel) [1; 0; 0] [0; 1; 0] 1 3 1) with (pmx_place fuel [1; 0; 0] [0; 1; 0] 1 3 2).
  rewrite pmx_loops. reflexivity.
Qed.

Lemma pmx_refutation :
  exists (p1 p2 : list nat) (r : rng), p1 ≡ₚ p2 /\ forall fuel, pmx fuel p1 p2 r = Diverge.
Proof. exists [1; 0; 0], [0; 1; 0], loop_r. split; [apply perm_swap|apply pmx_diverges]. Qed.

Lemma segment_structure (G : Type) (p1 p2 : list G) : length p1 = length p2 ->
  (forall r, 0 < length p1 -> exists cut r', cut < length p1 /\
     single_point p1 p2 r = Ok ((cut_once cut p1 p2, cut_once cut p2 p1), r')) /\
  (forall cut, fixed_point cut p1 p2 = Ok (cut_once cut p1 p2, cut_once cut p2 p1)) /\
  (forall r, 0 < length p1 -> exists a b r', a <= b < length p1 /\
     two_point p1 p2 r = Ok ((cut_twice a b p1 p2, cut_twice a b p2 p1), r')) /\
  (forall cut, cut < length p1 -> exists r r',
     single_point p1 p2 r = Ok ((cut_once cut p1 p2, cut_once cut p2 p1), r')) /\
  (forall a b, a <= b < length p1 -> exists r r',
     two_point p1 p2 r = Ok ((cut_twice a b p1 p2, cut_twice a b p2 p1), r')).
Proof.
  intros Hl. split_and!.
  - intros r Hn. destruct (single_point_structure p1 p2 r Hl Hn) as (cut & r' & _ & H). eauto.
  - intros cut. destruct (fixed_point_spec cut p1 p2 Hl) as ([c1 c2] & E & H1 & H2).
    cbn in *. subst. exact E.
  - intros r Hn. apply two_point_structure; auto.
  - intros cut Hc. destruct (gen_range_surj 0 (length p1) cut (fun _ => 0%N)) as [r Hr]; [lia|].
    destruct (single_point_structure p1 p2 r Hl) as (cut' & r' & Hg & _ & H); [lia|].
    rewrite Hr in Hg. injection Hg as <- <-. eauto.
  - intros a b Hab. apply two_point_all_cuts; auto.
Qed.

Lemma multi_point_refutation :
  exists (k : nat) (p1 p2 : list nat) (r : rng) c1 c2 r',
    length p1 = length p2 /\ 1 <= k <= length p1 /\
    multi_point k p1 p2 r = Ok ((c1, c2), r') /\
    ~ exists cuts, NoDup cuts /\ length cuts = k /\ Forall (fun c => c < length p1) cuts /\
        alternates cuts p1 p2 c1.
Proof.
  exists 1, [0; 0; 0], [1; 1; 1], (fun n => match n with 1 => 1%N | _ => 0%N end), [0; 0; 0], [1; 1; 1].
  eexists. split; [reflexivity|]. split; [cbn; lia|]. split; [vm_compute; reflexivity|].
  intros (cuts & _ & Hl & Hall & Halt).
  destruct cuts as [|c [|? ?]]; try discriminate.
  apply Forall_cons in Hall as [Hc _]. cbn in Hc.
  specialize (Halt c). unfold cuts_before in Halt. rewrite filter_cons_True in Halt by lia.
  destruct c as [|[|[|c]]]; [discriminate..|lia].
Qed.
