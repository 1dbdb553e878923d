(** * Property theorems: what crossover can produce (C131)

    For each operator and each pair of parents: exactly which pairs of children some draws lead to. *)
From Verif Require Import XoverReachProofs.
From Verif Require Import F64 Rng CrossoverSpec CrossoverModel MutReachSpec XoverReachSpec CrossoverProofs.
Open Scope nat_scope.

(** Every cut inside the parents, but no cut behind their last gene *)
Theorem C131_single_point :
  forall (G : Type) (p1 p2 c1 c2 : list G), length p1 = length p2 -> 0 < length p1 ->
  can_breed single_point p1 p2 c1 c2 <->
  exists cut, cut < length p1 /\ c1 = cut_once cut p1 p2 /\ c2 = cut_once cut p2 p1.
Proof. exact @single_point_reach. Qed.
Print Assumptions C131_single_point.

Theorem C131_two_point :
  forall (G : Type) (p1 p2 c1 c2 : list G), length p1 = length p2 -> 0 < length p1 ->
  can_breed two_point p1 p2 c1 c2 <->
  exists a b, a <= b < length p1 /\ c1 = cut_twice a b p1 p2 /\ c2 = cut_twice a b p2 p1.
Proof. exact @two_point_reach. Qed.
Print Assumptions C131_two_point.

Theorem C131_multi_point :
  forall (G : Type) (k : nat) (p1 p2 c1 c2 : list G), length p1 = length p2 -> 1 <= k <= length p1 ->
  can_breed (multi_point k) p1 p2 c1 c2 <->
  exists (c0 : nat) (cuts : list nat), StronglySorted (≤) (c0 :: cuts) /\ NoDup (c0 :: cuts) /\ length (c0 :: cuts) = k /\
    Forall (fun a => a < length p1) (c0 :: cuts) /\
    follows (fun l => bool_decide (l < c0) || Nat.even (c0 + cuts_before (c0 :: cuts) l - 1)) p1 p2 c1 c2.
Proof. exact @multi_point_reach. Qed.
Print Assumptions C131_multi_point.

(** Every exchange of genes place by place *)
Theorem C131_uniform :
  forall (G : Type) kind (p1 p2 c1 c2 : list G), length p1 = length p2 ->
  can_breed (uniform kind) p1 p2 c1 c2 <-> exists mask, follows mask p1 p2 c1 c2.
Proof. exact @uniform_reach. Qed.
Print Assumptions C131_uniform.

(** ... also with a bias, unless the bias lets no draw or every draw pass *)
Theorem C131_uniform_parameterized :
  forall (G : Type) kind bias (p1 p2 c1 c2 : list G), length p1 = length p2 ->
  can_breed (uniform_parameterized kind bias) p1 p2 c1 c2 <->
  exists mask, follows mask p1 p2 c1 c2 /\
    (fle f0 bias = false -> forall l, mask l = false) /\ (fle largest_draw bias = true -> forall l, mask l = true).
Proof. exact @uniform_parameterized_reach. Qed.
Print Assumptions C131_uniform_parameterized.

(** Every exchange of at least one gene *)
Theorem C131_shuffle :
  forall (G : Type) (p1 p2 c1 c2 : list G), length p1 = length p2 -> 0 < length p1 ->
  can_breed shuffle_xo p1 p2 c1 c2 <-> exists mask, follows mask p1 p2 c1 c2 /\ exists l, l < length p1 /\ mask l = false.
Proof. exact @shuffle_xo_reach. Qed.
Print Assumptions C131_shuffle.

Theorem C131_ordered :
  forall (G : Type) `{EqDecision G} (p1 p2 c1 c2 : list G), NoDup p1 -> p1 ≡ₚ p2 -> 0 < length p1 ->
  can_breed ordered p1 p2 c1 c2 <->
  exists b e, b < length p1 /\ b <= e <= length p1 /\ c1 = order_child p1 p2 b e /\ c2 = order_child p2 p1 b e.
Proof. exact @ordered_reach. Qed.
Print Assumptions C131_ordered.

Theorem C131_pmx :
  forall (G : Type) `{EqDecision G} fuel (p1 p2 c1 c2 : list G), NoDup p1 -> p1 ≡ₚ p2 -> 0 < length p1 -> length p1 <= fuel ->
  can_breed (pmx fuel) p1 p2 c1 c2 <->
  exists b e, b < length p1 /\ b <= e <= length p1 /\ partially_mapped_child p1 p2 b e c1 /\ partially_mapped_child p2 p1 b e c2.
Proof. exact @pmx_reach. Qed.
Print Assumptions C131_pmx.

Theorem C131_ppx :
  forall (G : Type) `{EqDecision G} (p1 p2 c1 c2 : list G), NoDup p1 -> p1 ≡ₚ p2 ->
  can_breed ppx p1 p2 c1 c2 <->
  exists mask, length mask = length p1 /\ c1 = taking_turns mask p1 p2 /\ c2 = taking_turns mask p2 p1.
Proof. exact @ppx_reach. Qed.
Print Assumptions C131_ppx.

(** *** What this rules out *)
(** SinglePoint always exchanges the last gene, TwoPoint never does. *)
Theorem C131_the_last_gene :
  forall (G : Type) (p1 p2 c1 c2 : list G), length p1 = length p2 -> 0 < length p1 ->
  (can_breed single_point p1 p2 c1 c2 -> last c1 = last p2 /\ last c2 = last p1) /\
  (can_breed two_point p1 p2 c1 c2 -> last c1 = last p1 /\ last c2 = last p2).
Proof.
  intros G p1 p2 c1 c2 Hl Hn. split; intros H.
  - apply single_point_reach in H as (cut & Hc & -> & ->); [|exact Hl|exact Hn].
    assert (L1 : length (cut_once cut p1 p2) = length p1) by (unfold cut_once; rewrite app_length, take_length, drop_length; lia).
    assert (L2 : length (cut_once cut p2 p1) = length p1) by (unfold cut_once; rewrite app_length, take_length, drop_length; lia).
    rewrite !last_lookup, L1, L2, <- Hl, !cut_once_lookup by auto. rewrite bool_decide_eq_false_2 by lia. auto.
  - apply two_point_reach in H as (a & b & Hc & -> & ->); [|exact Hl|exact Hn].
    assert (L1 : length (cut_twice a b p1 p2) = length p1) by (unfold cut_twice; rewrite !app_length, !take_length, !drop_length; lia).
    assert (L2 : length (cut_twice a b p2 p1) = length p1) by (unfold cut_twice; rewrite !app_length, !take_length, !drop_length; lia).
    rewrite !last_lookup, L1, L2, <- Hl, !cut_twice_lookup by (auto; lia). rewrite (bool_decide_eq_true_2 (b <= pred (length p1))) by lia. rewrite orb_true_r. auto.
Qed.
Print Assumptions C131_the_last_gene.

(** Shuffle never hands back two parents that differ everywhere; Uniform does. *)
Theorem C131_parents_unchanged :
  forall (G : Type) (p1 p2 : list G), length p1 = length p2 -> 0 < length p1 ->
  (forall l a b, p1 !! l = Some a -> p2 !! l = Some b -> a <> b) ->
  ~ can_breed shuffle_xo p1 p2 p1 p2 /\ forall kind, can_breed (uniform kind) p1 p2 p1 p2.
Proof.
  intros G p1 p2 Hl Hn Hd. split.
  - intros H. apply shuffle_xo_reach in H as (m & HF & l & Hlt & Hm); [|exact Hl|exact Hn]. destruct (HF l) as [H1 _]. rewrite Hm in H1.
    destruct (lookup_lt_is_Some_2 p1 l Hlt) as [a Ha]. rewrite Ha in H1. exact (Hd l a a Ha (eq_sym H1) eq_refl).
  - intros kind. apply uniform_reach; [exact Hl|]. exists (fun _ => true). intros l. auto.
Qed.
Print Assumptions C131_parents_unchanged.

(** A child of Ppx begins as one of its parents does: ... *)
Theorem C131_ppx_begins_like_a_parent :
  forall (G : Type) `{EqDecision G} (p1 p2 c1 c2 : list G), NoDup p1 -> p1 ≡ₚ p2 -> can_breed ppx p1 p2 c1 c2 ->
  (head c1 = head p1 /\ head c2 = head p2) \/ (head c1 = head p2 /\ head c2 = head p1).
Proof.
  intros G D p1 p2 c1 c2 Nd P H. apply ppx_reach in H as (mask & Hm & -> & ->); [|exact Nd|exact P].
  pose proof (Permutation_length P) as Hl. destruct mask as [|b mask]; [destruct p1, p2; try discriminate; auto|].
  destruct p1 as [|x p1], p2 as [|y p2]; try discriminate. destruct b; cbn; auto.
Qed.
Print Assumptions C131_ppx_begins_like_a_parent.
(** ... keeping every precedence the parents share, as the documentation asks, is not all that Ppx does: here the parents share none,
    and yet no draws lead to a child that begins with the middle gene. *)
Theorem C131_ppx_all_precedence_preserving_children_refuted :
  exists p1 p2 c : list nat, NoDup p1 /\ p1 ≡ₚ p2 /\ c ≡ₚ p1 /\ (forall x y, before p1 x y -> before p2 x y -> before c x y) /\
    forall c2, ~ can_breed ppx p1 p2 c c2.
Proof.
  exists [1; 2; 3], [3; 2; 1], [2; 1; 3].
  assert (Nd : NoDup [1; 2; 3]) by (apply (bool_decide_unpack _); vm_compute; exact I).
  assert (P : [1; 2; 3] ≡ₚ [3; 2; 1]) by (apply (bool_decide_unpack _); vm_compute; exact I).
  split; [exact Nd|]. split; [exact P|]. split; [apply (bool_decide_unpack _); vm_compute; exact I|]. split.
  - intros x y (i & j & Hij & Hi & Hj) (i' & j' & Hij' & Hi' & Hj'). exfalso.
    destruct i as [|[|[|i]]]; cbn in Hi; try discriminate; injection Hi as <-;
      (destruct j as [|[|[|j]]]; cbn in Hj; try discriminate; try lia; injection Hj as <-;
       destruct i' as [|[|[|i']]]; cbn in Hi'; try discriminate; destruct j' as [|[|[|j']]]; cbn in Hj'; try discriminate; lia).
  - intros c2 H. apply C131_ppx_begins_like_a_parent in H; [|exact Nd|exact P]. destruct H as [[H _]|[H _]]; discriminate.
Qed.
Print Assumptions C131_ppx_all_precedence_preserving_children_refuted.

Example C131_nonvacuous :
  can_breed single_point [1; 2; 3] [4; 5; 6] [1; 5; 6] [4; 2; 3] /\
  ~ can_breed single_point [1; 2; 3] [4; 5; 6] [1; 2; 3] [4; 5; 6] /\
  can_breed two_point [1; 2; 3] [4; 5; 6] [1; 5; 3] [4; 2; 6] /\
  can_breed (multi_point 2) [1; 2; 3] [4; 5; 6] [1; 5; 3] [4; 2; 6] /\
  can_breed shuffle_xo [1; 2; 3] [4; 5; 6] [4; 2; 6] [1; 5; 3] /\
  can_breed ordered [1; 2; 3] [3; 1; 2] [3; 2; 1] [2; 1; 3] /\
  can_breed (pmx 10) [1; 2; 3] [3; 1; 2] [1; 3; 2] [3; 2; 1] /\
  can_breed ppx [1; 2; 3] [3; 2; 1] [3; 1; 2] [1; 3; 2].
Proof.
  split_and!.
  - apply single_point_reach; [reflexivity|cbn; lia|]. exists 1. split_and!; [cbn; lia|reflexivity|reflexivity].
  - intros H. apply C131_the_last_gene in H; [|reflexivity|cbn; lia]. destruct H as [H _]. discriminate.
  - apply two_point_reach; [reflexivity|cbn; lia|]. exists 1, 2. split_and!; [cbn; lia|cbn; lia|reflexivity|reflexivity].
  - apply multi_point_reach; [reflexivity|cbn; lia|]. exists 1, [2]. split_and!; [repeat constructor; lia|apply (bool_decide_unpack _); vm_compute; exact I|reflexivity|repeat constructor; cbn; lia|].
    intros l. destruct l as [|[|[|l]]]; [split; reflexivity|split; reflexivity|split; reflexivity|]. cbn [lookup list_lookup].
    match goal with |- context [if ?b then _ else _] => destruct b end; split; reflexivity.
  - apply shuffle_xo_reach; [reflexivity|cbn; lia|]. exists (fun l => Nat.eqb l 1). split; [|exists 0; cbn; split; [lia|reflexivity]].
    intros l. destruct l as [|[|[|l]]]; split; reflexivity.
  - apply ordered_reach; [apply (bool_decide_unpack _); vm_compute; exact I|apply (bool_decide_unpack _); vm_compute; exact I|cbn; lia|].
    exists 1, 2. split_and!; [cbn; lia|lia|cbn; lia|vm_compute; reflexivity|vm_compute; reflexivity].
  - exists (fun i => match i with 0 => 0%N | _ => 1%N end). eexists. vm_compute. reflexivity.
  - apply ppx_reach; [apply (bool_decide_unpack _); vm_compute; exact I|apply (bool_decide_unpack _); vm_compute; exact I|].
    exists [false; true; false]. split_and!; vm_compute; reflexivity.
Qed.
