(** * Property theorems: crossover of unsuitable and of identical parents (C118, C119) *)
From Verif Require Import CrossoverEdgeProofs.
Open Scope nat_scope.

(** ** C118 *)
(** Parents of unequal length: seven operators always panic.  [kind]: the kind of generator. *)
Theorem C118_unequal_lengths_panic :
  forall (G : Type) `{EqDecision G} (p1 p2 : list G) r, length p1 <> length p2 ->
  two_point p1 p2 r = Panic /\ (forall k, multi_point k p1 p2 r = Panic) /\ (forall kind, uniform kind p1 p2 r = Panic) /\
  (forall kind bias, uniform_parameterized kind bias p1 p2 r = Panic) /\ ordered p1 p2 r = Panic /\ (forall fuel, pmx fuel p1 p2 r = Panic) /\ ppx p1 p2 r = Panic.
Proof.
  intros G ED p1 p2 r H. unfold two_point, multi_point, uniform, uniform_parameterized, ordered, pmx, ppx.
  rewrite !(bool_decide_eq_false_2 (length p1 = length p2)) by exact H. cbn [rassert mbind outcome_bind]. auto 10.
Qed.
Print Assumptions C118_unequal_lengths_panic.
(** The other three panic when the second parent is the shorter one; the genes that a longer second parent has in surplus
    are dropped by SinglePoint and Shuffle without notice, and kept by FixedPoint, whose children then differ in length. *)
Theorem C118_second_parent_shorter :
  forall (G : Type) (p1 p2 : list G), length p2 < length p1 ->
  (forall r, single_point p1 p2 r = Panic /\ shuffle_xo p1 p2 r = Panic) /\
  (forall cut, (cut < length p1 -> fixed_point cut p1 p2 = Panic) /\ (length p1 <= cut -> fixed_point cut p1 p2 = Ok (p1, p2))).
Proof.
  intros G p1 p2 H. split; [intros r; split; [apply single_short, H|apply shuffle_short, H]|]. intros cut. split; [apply fixed_short, H|apply fixed_no_cut].
Qed.
Print Assumptions C118_second_parent_shorter.
Theorem C118_second_parent_longer :
  forall (G : Type) (p1 p2 surplus : list G), length p1 = length p2 -> 0 < length p1 ->
  (forall r, exists cut r', cut < length p1 /\ single_point p1 (p2 ++ surplus) r = Ok ((cut_once cut p1 p2, cut_once cut p2 p1), r')) /\
  (forall r, exists c1 c2 r', shuffle_xo p1 (p2 ++ surplus) r = Ok ((c1, c2), r') /\ recombination p1 p2 c1 c2) /\
  (forall cut, fixed_point cut p1 (p2 ++ surplus) = Ok (cut_once cut p1 p2, cut_once cut p2 p1 ++ surplus)).
Proof.
  intros G p1 p2 t EL Hne. assert (take (length p1) (p2 ++ t) = p2) as ET by (rewrite EL; apply take_app). split; [|split].
  - intros r. rewrite <- single_long, ET. destruct (single_point_structure p1 p2 r EL Hne) as (cut & r' & _ & A & B). eauto.
  - intros r. rewrite <- shuffle_long, ET. apply shuffle_recomb; assumption.
  - intros cut. apply fixed_append, EL.
Qed.
Print Assumptions C118_second_parent_longer.
(** Empty parents: five operators panic and four return empty children. *)
Theorem C118_empty_parents :
  forall (G : Type) `{EqDecision G} r,
  (single_point (G := G) [] [] r = Panic /\ two_point (G := G) [] [] r = Panic /\ shuffle_xo (G := G) [] [] r = Panic /\ ordered (G := G) [] [] r = Panic /\
   (forall fuel, pmx (G := G) fuel [] [] r = Panic) /\ (forall k, multi_point (G := G) k [] [] r = Panic)) /\
  (forall kind, exists r', uniform (G := G) kind [] [] r = Ok (([], []), r')) /\ (forall kind bias, exists r', uniform_parameterized (G := G) kind bias [] [] r = Ok (([], []), r')) /\
  (forall cut, fixed_point (G := G) cut [] [] = Ok ([], [])) /\ (exists r', ppx (G := G) [] [] r = Ok (([], []), r')).
Proof.
  intros G ED r. split.
  - repeat split. intros k. unfold multi_point. rewrite (bool_decide_eq_true_2 (length (@nil G) = length (@nil G))) by reflexivity. cbn [rassert mbind outcome_bind].
    destruct k as [|k]; [reflexivity|]. rewrite (bool_decide_eq_false_2 (S k <= length (@nil G))) by (cbn; lia). reflexivity.
  - split; [|split; [|split]]; intros; eexists || idtac; try reflexivity.
Qed.
Print Assumptions C118_empty_parents.
(** MultiPoint with no cut, or with more cuts than loci *)
Theorem C118_number_of_cuts :
  forall (G : Type) (p1 p2 : list G) k r, k = 0 \/ length p1 < k -> multi_point k p1 p2 r = Panic.
Proof.
  intros G p1 p2 k r H. unfold multi_point. destruct (bool_decide (length p1 = length p2)); [|reflexivity]. cbn [rassert mbind outcome_bind]. destruct H as [-> |H].
  - rewrite (bool_decide_eq_true_2 (0 <= length p1)) by lia. reflexivity.
  - rewrite (bool_decide_eq_false_2 (k <= length p1)) by lia. reflexivity.
Qed.
Print Assumptions C118_number_of_cuts.
(** Ordered crossover of any two parents of the same length: with the substring [b, e) drawn, the children are as in C04 if
    enough genes of the other parent are left to fill the places before it, otherwise it panics; nothing checks that the
    children have the length of the parents. *)
Theorem C118_ordered_any_parents :
  forall (G : Type) `{EqDecision G} (p1 p2 : list G) r, length p1 = length p2 -> 0 < length p1 -> exists b e, b < length p1 /\ b <= e <= length p1 /\
  let left p q := length (filter (fun g => g ∉ take (e - b) (drop b p)) q) in
  (b <= left p1 p2 -> b <= left p2 p1 -> exists r', ordered p1 p2 r = Ok ((order_child p1 p2 b e, order_child p2 p1 b e), r') /\
     length (order_child p1 p2 b e) = left p1 p2 + (e - b) /\ length (order_child p2 p1 b e) = left p2 p1 + (e - b)) /\
  (left p1 p2 < b \/ left p2 p1 < b -> ordered p1 p2 r = Panic).
Proof.
  intros G ED p1 p2 r EL Hne. destruct (ordered_any p1 p2 r EL Hne) as (b & e & r' & Hb & Hbe & E). exists b, e. split; [exact Hb|]. split; [exact Hbe|]. rewrite E.
  intros left. split.
  - intros L1 L2. exists r'. rewrite decide_True by (split; assumption). split; [reflexivity|]. split; apply order_child_length; auto; lia.
  - intros HL. rewrite decide_False; [reflexivity|]. unfold others. fold (left p1 p2) (left p2 p1). lia.
Qed.
Print Assumptions C118_ordered_any_parents.
(** So children may be longer or shorter than the parents: duplicate-free parents with different genes, and equal parents
    with a repeated gene. *)
Theorem C118_ordered_length_refuted :
  (exists (p1 p2 c1 c2 : list nat) r r', NoDup p1 /\ NoDup p2 /\ length p1 = length p2 /\ ordered p1 p2 r = Ok ((c1, c2), r') /\ length p1 < length c1 /\ length p1 < length c2) /\
  (exists (p c1 c2 : list nat) r r', ordered p p r = Ok ((c1, c2), r') /\ length c1 < length p /\ length c2 < length p).
Proof.
  split.
  - exists [1; 2], [3; 4]. eexists _, _. exists (rng_of [0; 1]%N). eexists. split; [|split; [|split; [reflexivity|split; [vm_compute; reflexivity|cbn; lia]]]]; repeat constructor; rewrite ?elem_of_cons; intros K; repeat (destruct K as [K|K]; [discriminate|]); inversion K.
  - exists [1; 1; 2]. eexists _, _. exists (rng_of [0; 1]%N). eexists. split; [vm_compute; reflexivity|cbn; lia].
Qed.
Print Assumptions C118_ordered_length_refuted.
(** Ppx: whatever the parents, the children it returns have the length of the parents, repeat no gene and hold genes of the
    parents only; it returns for all draws when neither parent repeats a gene (their genes may differ), and otherwise there
    are draws with which it panics. *)
Theorem C118_ppx_any_parents :
  forall (G : Type) `{EqDecision G} (p1 p2 : list G), length p1 = length p2 ->
  (forall r c1 c2 r', ppx p1 p2 r = Ok ((c1, c2), r') ->
     NoDup c1 /\ NoDup c2 /\ length c1 = length p1 /\ length c2 = length p1 /\ forall g, g ∈ c1 \/ g ∈ c2 -> g ∈ p1 \/ g ∈ p2) /\
  (NoDup p1 -> NoDup p2 -> forall r, exists c1 c2 r', ppx p1 p2 r = Ok ((c1, c2), r')) /\
  (~ NoDup p1 \/ ~ NoDup p2 -> exists r, ppx p1 p2 r = Panic).
Proof.
  intros G ED p1 p2 EL. split; [intros r c1 c2 r'; apply ppx_nodup|]. split; [intros N1 N2 r; apply ppx_returns; assumption|].
  intros HD. exists (fun _ => 1%N). apply ppx_dup; assumption.
Qed.
Print Assumptions C118_ppx_any_parents.
Example C118_nonvacuous :
  single_point [1; 2] [3; 4; 5] (rng_of [1]%N) = single_point [1; 2] [3; 4] (rng_of [1]%N) /\ fixed_point 1 [1; 2] [3; 4; 5] = Ok ([1; 4], [3; 2; 5]) /\
  (exists r r', ppx [1; 2] [3; 4] r = Ok (([1; 3], [3; 1]), r')) /\ (exists r, ordered [1; 1; 1] [1; 1; 1] r = Panic).
Proof.
  split; [reflexivity|]. split; [reflexivity|]. split; [exists (rng_of [1; 0]%N); eexists; vm_compute; reflexivity|]. exists (rng_of [1; 1]%N). vm_compute. reflexivity.
Qed.

(** ** C119 *)
(** Identical parents: every operator returns two copies of them; the permutation operators when no gene is repeated. *)
Theorem C119_identical_parents :
  forall (G : Type) `{EqDecision G} (p : list G), 0 < length p ->
  (forall r, (exists r', single_point p p r = Ok ((p, p), r')) /\ (exists r', two_point p p r = Ok ((p, p), r')) /\ (exists r', shuffle_xo p p r = Ok ((p, p), r'))) /\
  (forall k r, 1 <= k <= length p -> exists r', multi_point k p p r = Ok ((p, p), r')) /\
  (forall kind r, exists r', uniform kind p p r = Ok ((p, p), r')) /\ (forall kind bias r, exists r', uniform_parameterized kind bias p p r = Ok ((p, p), r')) /\
  (forall cut, fixed_point cut p p = Ok (p, p)) /\
  (NoDup p -> forall r, (exists r', ordered p p r = Ok ((p, p), r')) /\ (forall fuel, length p <= fuel -> exists r', pmx fuel p p r = Ok ((p, p), r')) /\ (exists r', ppx p p r = Ok ((p, p), r'))).
Proof.
  intros G ED p Hne. split; [|split; [|split; [|split; [|split]]]].
  - intros r. split; [|split].
    + destruct (single_point_recomb p p r eq_refl Hne) as (c1 & c2 & r' & E & HR). apply recombination_same in HR as [-> ->]. eauto.
    + destruct (two_point_recomb p p r eq_refl Hne) as (c1 & c2 & r' & E & HR). apply recombination_same in HR as [-> ->]. eauto.
    + destruct (shuffle_recomb p p r eq_refl Hne) as (c1 & c2 & r' & E & HR). apply recombination_same in HR as [-> ->]. eauto.
  - intros k r Hk. destruct (multi_point_recomb k p p r eq_refl Hk) as (c1 & c2 & r' & E & HR). apply recombination_same in HR as [-> ->]. eauto.
  - intros kind r. destruct (uniform_recomb kind p p r eq_refl) as (c1 & c2 & r' & E & HR). apply recombination_same in HR as [-> ->]. eauto.
  - intros kind bias r. destruct (uniform_parameterized_recomb kind bias p p r eq_refl) as (c1 & c2 & r' & E & HR). apply recombination_same in HR as [-> ->]. eauto.
  - intros cut. destruct (fixed_point_recomb cut p p eq_refl) as (c1 & c2 & E & HR). apply recombination_same in HR as [-> ->]. exact E.
  - intros ND r. split; [apply ordered_same; assumption|]. split; [intros fuel Hf; apply pmx_same; [assumption|lia]|apply ppx_same, ND].
Qed.
Print Assumptions C119_identical_parents.
(** A mating pool of copies of one chromosome: children are copies of it. *)
Theorem C119_converged_pool :
  forall (G : Type) (op : list G -> list G -> rng -> outcome ((list G * list G) * rng)) (p : list G), (forall r, exists r', op p p r = Ok ((p, p), r')) ->
  forall (pool : list (individual G)) r, Nat.even (length pool) = true -> (forall x, x ∈ pool -> chromosome x = p) ->
  exists out r', crossover_apply (lift_single op) pool r = Ok (out, r') /\ length out = length pool /\ forall x, x ∈ out -> chromosome x = p.
Proof.
  intros G op p Hop pool r HE HP. rewrite <- Forall_forall in HP.
  assert (forall a b s, chromosome a = p -> chromosome b = p -> exists s', lift_single op a b s = Ok ((ind_from p, ind_from p), s')) as K.
  { intros a b s Ha Hb. unfold lift_single. rewrite Ha, Hb. destruct (Hop s) as [s' ->]. exists s'. reflexivity. }
  destruct (crossover_apply_ok (lift_single op) (fun x => chromosome x = p) pool r HP HE) as (out & r' & E).
  { intros a b s Ha Hb. destruct (K a b s Ha Hb) as [s' ->]. eauto. }
  exists out, r'. split; [exact E|]. split; [apply crossover_apply_pairs in E as [E _]; exact E|]. rewrite <- Forall_forall.
  refine (crossover_apply_post (lift_single op) (fun x => chromosome x = p) (fun x => chromosome x = p) pool r out r' HP _ E).
  intros a b s c d s' Ha Hb Hs. destruct (K a b s Ha Hb) as [s1 Hs1]. rewrite Hs1 in Hs. injection Hs as <- <- _. auto.
Qed.
Print Assumptions C119_converged_pool.
Example C119_nonvacuous : exists r', pmx 5 [3; 1; 2] [3; 1; 2] (rng_of [1; 1]%N) = Ok (([3; 1; 2], [3; 1; 2]), r').
Proof. eexists. vm_compute. reflexivity. Qed.
