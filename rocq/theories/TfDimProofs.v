(** * Minima of the test functions of any dimension *)
From Coq Require Import Lra Lia Psatz.
From Verif Require Export TfFixProofs.
Open Scope R_scope.

Lemma minn (f : list (option R) -> outcome (option R)) (dims : nat -> Prop) (g : list R -> R) xs m :
  (forall x, dims (length x) -> value f x (g x)) -> dims (length xs) -> g xs = m -> (forall x, dims (length x) -> m <= g x) ->
  global_minimum f dims xs m.
Proof. intros Hv Hd <- Hm. split; [exact Hd|]. split; [apply Hv, Hd|]. intros x Hx. exists (g x). auto. Qed.
Lemma nonempty_map (x : list R) : (1 <= length x)%nat -> rassert (bool_decide (map Some x <> [])) = Ok tt.
Proof. intros H. apply rassert_true, bool_decide_eq_true. destruct x; [cbn in H; lia|discriminate]. Qed.
Lemma atleast_map (x : list R) k : (k <= length x)%nat -> rassert (bool_decide (k <= length (map Some x))%nat) = Ok tt.
Proof. intros H. apply rassert_true, bool_decide_eq_true. rewrite map_length. exact H. Qed.
Lemma repeat_length' {A} (c : A) n : length (constant n c) = n.
Proof. apply repeat_length. Qed.
Lemma in_constant {A} (c : A) n a : a ∈ constant n c -> a = c.
Proof. unfold constant. intros H. apply elem_of_list_In in H. apply repeat_spec in H. exact H. Qed.
Lemma in_imap_constant {A} (c : A) n p : p ∈ imap pair (constant n c) -> p.2 = c.
Proof. intros H. apply elem_of_lookup_imap in H as (i & y & -> & H). apply elem_of_list_lookup_2 in H. apply in_constant in H. exact H. Qed.
Lemma nth_constant {A} (c d : A) n i : (i < n)%nat -> nth i (constant n c) d = c.
Proof. revert i. induction n as [|n IH]; intros i H; [lia|]. destruct i as [|i]; [reflexivity|]. cbn. apply IH. lia. Qed.
Lemma pair_loop {A B} (g1 g2 : A -> option R) (h1 h2 : B -> R) (wrap : B -> A) (l : list B) c1 c2 :
  (forall b, b ∈ l -> g1 (wrap b) = Some (h1 b)) -> (forall b, b ∈ l -> g2 (wrap b) = Some (h2 b)) ->
  foldl (fun t a => (nadd t.1 (g1 a), nadd t.2 (g2 a))) (Some c1, Some c2) (map wrap l) = (Some (c1 + rsum h1 l), Some (c2 + rsum h2 l)).
Proof.
  revert c1 c2. induction l as [|b l IH]; intros c1 c2 H1 H2; cbn [map foldl rsum foldr].
  - rewrite !Rplus_0_r. reflexivity.
  - cbn [fst snd]. rewrite (H1 b), (H2 b) by constructor. rewrite !e_add, IH.
    + f_equal; f_equal; unfold rsum; lra.
    + intros; apply H1; constructor; assumption.
    + intros; apply H2; constructor; assumption.
Qed.
Lemma foldl_ext' {A B} (f g : A -> B -> A) l a : (forall a b, f a b = g a b) -> foldl f a l = foldl g a l.
Proof. intros H. revert a. induction l as [|b l IH]; intros a; [reflexivity|]. cbn. rewrite H. apply IH. Qed.

Notation any := (fun _ : nat => True).
Notation nonempty := (fun n : nat => (1 <= n)%nat).
Notation atleast k := (fun n : nat => (k <= n)%nat).
Ltac zero_sum := rewrite rsum_zero; [|let a := fresh in let H := fresh in intros a H; first [apply in_constant in H | apply in_imap_constant in H]].
Ltac sumloop := rewrite (sum_loop _ _ _ _ _ (fun b _ => eq_refl)).

Lemma sphere_min n : (1 <= n)%nat -> global_minimum sphere nonempty (constant n 0) 0.
Proof.
  intros Hn. eapply minn.
  - intros x Hx. unfold value, sphere. rewrite (nonempty_map x Hx). cbn [mbind outcome_bind].
    rewrite (e_int 0). rewrite (sum_loop _ (fun a => a * a) Some); [reflexivity|]. intros a _. apply e_powi2.
  - rewrite repeat_length'. exact Hn.
  - cbv beta. zero_sum; [lra|]. subst. lra.
  - intros x _. cbv beta. assert (0 <= rsum (fun a => a * a) x) by (apply rsum_nonneg; intros; nn). lra.
Qed.
Lemma schumer_steiglitz_min n : global_minimum schumer_steiglitz any (constant n 0) 0.
Proof.
  eapply minn.
  - intros x _. unfold value, schumer_steiglitz.
    rewrite (e_int 0). rewrite (sum_loop _ (fun a => a * a * (a * a)) Some); [reflexivity|]. intros a _. apply e_powi4.
  - exact I.
  - cbv beta. zero_sum; [lra|]. subst. lra.
  - intros x _. cbv beta. assert (0 <= rsum (fun a => a * a * (a * a)) x) by (apply rsum_nonneg; intros; nn). lra.
Qed.
Lemma chung_reynolds_min n : global_minimum chung_reynolds any (constant n 0) 0.
Proof.
  eapply minn.
  - intros x _. unfold value, chung_reynolds.
    rewrite (e_int 0). rewrite (sum_loop _ (fun a => a * a) Some) by (intros a _; apply e_powi2). cbv zeta. ev. reflexivity.
  - exact I.
  - cbv beta. zero_sum; [lra|]. subst. lra.
  - intros x _. cbv beta. nn.
Qed.
Lemma alpine_min n : global_minimum alpine any (constant n 0) 0.
Proof.
  eapply minn.
  - intros x _. unfold value, alpine.
    rewrite (e_int 0). rewrite (sum_loop _ (fun a => Rabs (a * sin a + a / 10)) Some); [reflexivity|]. intros a _. ev2. reflexivity.
  - exact I.
  - cbv beta. zero_sum; [lra|]. subst. rewrite sin_0. replace (0 * 0 + 0 / 10) with 0 by lra. apply Rabs_R0.
  - intros x _. cbv beta. assert (0 <= rsum (fun a => Rabs (a * sin a + a / 10)) x) by (apply rsum_nonneg; intros; nn). lra.
Qed.
Lemma quintic_min n c : (c = -1 \/ c = 2) -> global_minimum quintic any (constant n c) 0.
Proof.
  intros Hc. eapply minn.
  - intros x _. unfold value, quintic.
    rewrite (e_int 0). rewrite (sum_loop _ (fun a => Rabs (a * a * (a * a) * a - 3 * (a * a * (a * a)) + 4 * (a * a * a) + 2 * (a * a) - 10 * a - 4)) Some); [reflexivity|].
    intros a _. ev2. reflexivity.
  - exact I.
  - cbv beta. zero_sum; [lra|]. subst. match goal with |- Rabs ?e = 0 => replace e with 0; [apply Rabs_R0|] end. destruct Hc as [-> | ->]; lra.
  - intros x _. cbv beta. rewrite Rplus_0_l. apply rsum_nonneg. intros; nn.
Qed.
(** The documentation gives each coordinate as one of the square roots of the parameter. *)
Lemma qing_min i xs : 0 <= i -> (forall a, a ∈ xs -> a = R_sqrt.sqrt i \/ a = - R_sqrt.sqrt i) -> global_minimum (fun x => qing x (Some i)) any xs 0.
Proof.
  intros Hi Hxs. eapply minn.
  - intros x _. unfold value, qing. rewrite (e_int 0). rewrite (sum_loop _ (fun a => (a * a - i) * (a * a - i)) Some); [reflexivity|]. intros a _. ev2. reflexivity.
  - exact I.
  - cbv beta. rewrite rsum_zero; [lra|]. intros a Ha. apply Hxs in Ha. assert (E : a * a = i) by (pose proof (sqrt_def i Hi); destruct Ha as [-> | ->]; lra).
    rewrite E. lra.
  - intros x _. cbv beta. rewrite Rplus_0_l. apply rsum_nonneg. intros; nn.
Qed.
Lemma rastrigin_min n : (1 <= n)%nat -> global_minimum rastrigin nonempty (constant n 0) 0.
Proof.
  intros Hn. eapply minn.
  - intros x Hx. unfold value, rastrigin. rewrite (nonempty_map x Hx). cbn [mbind outcome_bind].
    rewrite (e_int 0). rewrite (sum_loop _ (fun a => a * a - 10 * cos (2 * PI * a)) Some); [|intros a _; ev; reflexivity].
    ev. rewrite map_length. reflexivity.
  - rewrite repeat_length'. exact Hn.
  - cbv beta. rewrite (rsum_const _ (-10)); [rewrite repeat_length'; lra|]. intros a H. apply in_constant in H. subst. rewrite !Rmult_0_r, cos_0. lra.
  - intros x _. cbv beta. pose proof (rsum_ge (fun a => a * a - 10 * cos (2 * PI * a)) (-10) x) as H. cbv beta in H. 
    assert (INR (length x) * -10 <= rsum (fun a => a * a - 10 * cos (2 * PI * a)) x).
    { apply H. intros a. pose proof (sqr_nonneg a). pose proof (cos_le1 (2 * PI * a)). lra. } lra.
Qed.
Lemma salomon_min n : global_minimum salomon any (constant n 0) 0.
Proof.
  eapply minn.
  - intros x _. unfold value, salomon. rewrite (e_int 0). rewrite (sum_loop _ (fun a => a * a) Some) by (intros a _; apply e_powi2). cbv zeta.
    assert (0 <= 0 + rsum (fun a => a * a) x) by (rewrite Rplus_0_l; apply rsum_nonneg; intros; nn).
    ev. rewrite e_sqrt by exact H. ev. reflexivity.
  - exact I.
  - cbv beta. zero_sum; [|subst; lra]. rewrite Rplus_0_l, sqrt_0, Rmult_0_r, cos_0. lra.
  - intros x _. cbv beta. pose proof (cos_le1 (2 * PI * (0 + rsum (fun a => a * a) x))).
    pose proof (sqrt_pos (0 + rsum (fun a => a * a) x)). lra.
Qed.
Lemma exponential_min n : global_minimum exponential any (constant n 0) (-1).
Proof.
  eapply minn.
  - intros x _. unfold value, exponential. rewrite (e_int 0). rewrite (sum_loop _ (fun a => a * a) Some) by (intros a _; apply e_powi2). cbv zeta. ev. reflexivity.
  - exact I.
  - cbv beta. zero_sum; [|subst; lra]. rewrite Rplus_0_l, Rmult_0_r, exp_0. lra.
  - intros x _. cbv beta. assert (0 <= rsum (fun a => a * a) x) by (apply rsum_nonneg; intros; nn).
    assert (exp (- (5 / 10) * (0 + rsum (fun a => a * a) x)) <= 1) by (apply exp_le1; lra). lra.
Qed.
Lemma ackley_min n : (1 <= n)%nat -> global_minimum ackley nonempty (constant n 0) 0.
Proof.
  intros Hn.
  assert (P : forall x : list R, (1 <= length x)%nat -> 0 < INR (length x)) by (intros x Hx; apply lt_0_INR; lia).
  eapply minn.
  - intros x Hx. unfold value, ackley. rewrite (nonempty_map x Hx). cbn [mbind outcome_bind]. specialize (P x Hx).
    rewrite (e_int 0). rewrite (pair_loop _ _ (fun a => a * a) (fun a => cos (2 * PI * a)) Some); [|intros a _; apply e_powi2|intros a _; ev; reflexivity].
    cbv zeta beta iota. rewrite map_length. ev. rewrite e_div by lra. ev. rewrite e_sqrt. { ev. reflexivity. }
    apply Rmult_le_pos; [rewrite Rplus_0_l; apply rsum_nonneg; intros; nn|]. left. apply Rdiv_lt_0_compat; lra.
  - rewrite repeat_length'. exact Hn.
  - cbv beta. zero_sum; [|subst; lra]. rewrite (rsum_const _ 1) by (intros a H; apply in_constant in H; subst; rewrite Rmult_0_r; apply cos_0).
    rewrite repeat_length'. rewrite Rplus_0_l, Rmult_0_l, sqrt_0, Rmult_0_r, exp_0. specialize (P (constant n 0)). rewrite repeat_length' in P. specialize (P Hn).
    replace ((0 + INR n * 1) * (1 / INR n)) with 1 by (field; lra). lra.
  - intros x Hx. cbv beta. specialize (P x Hx). set (s := _ * (1 / INR (length x))). set (t := (0 + rsum (fun a => cos _) x) * _).
    assert (t <= 1).
    { pose proof (rsum_le (fun a => cos (2 * PI * a)) 1 x) as H. cbv beta in H. assert (Hc : forall a, cos (2 * PI * a) <= 1) by (intros a; apply cos_le1). specialize (H Hc).
      subst t. apply Rmult_le_reg_r with (INR (length x)); [lra|]. rewrite Rmult_assoc. replace (1 / INR (length x) * INR (length x)) with 1 by (field; lra). lra. }
    assert (exp t <= exp 1) by (destruct H as [H| ->]; [left; apply exp_increasing, H|right; reflexivity]).
    assert (exp (- (2 / 10) * R_sqrt.sqrt s) <= 1) by (apply exp_le1; pose proof (sqrt_pos s); lra). lra.
Qed.
Lemma xin_she_yang_2_min n : (1 <= n)%nat -> global_minimum xin_she_yang_2 nonempty (constant n 0) 0.
Proof.
  intros Hn. eapply minn.
  - intros x Hx. unfold value, xin_she_yang_2. rewrite (nonempty_map x Hx). cbn [mbind outcome_bind].
    rewrite (e_int 0). rewrite (pair_loop _ _ (fun a => Rabs a) (fun a => sin (a * a)) Some); [|intros a _; apply e_abs|intros a _; ev; reflexivity].
    cbv zeta beta iota. ev. reflexivity.
  - rewrite repeat_length'. exact Hn.
  - cbv beta. zero_sum; [lra|]. subst. apply Rabs_R0.
  - intros x _. cbv beta. apply Rmult_le_pos; [rewrite Rplus_0_l; apply rsum_nonneg; intros; nn|left; apply exp_pos].
Qed.
Lemma zakharov_min n : (1 <= n)%nat -> global_minimum zakharov nonempty (constant n 0) 0.
Proof.
  intros Hn. eapply minn.
  - intros x Hx. unfold value, zakharov. rewrite (nonempty_map x Hx). cbn [mbind outcome_bind]. rewrite imap_wrap.
    rewrite (foldl_ext' _ (fun t (p : nat * option R) => (nadd t.1 (powi p.2 2), nadd t.2 (nmul (nmul (nlit 5 10) (of_nat (p.1 + 1))) p.2)))) by (intros ? []; reflexivity).
    rewrite (e_int 0). rewrite (pair_loop _ _ (fun p : nat * R => p.2 * p.2) (fun p => 5 / 10 * INR (p.1 + 1) * p.2) wrap2); [|intros a _; apply e_powi2|intros a _; ev; reflexivity].
    cbv zeta beta iota. ev. reflexivity.
  - rewrite repeat_length'. exact Hn.
  - cbv beta. zero_sum; [|rewrite H0; lra]. zero_sum; [lra|rewrite H0; lra].
  - intros x _. cbv beta. rewrite Rplus_0_l. apply Rplus_le_le_0_compat; [apply Rplus_le_le_0_compat|]; [apply rsum_nonneg; intros; nn|nn|nn].
Qed.
Lemma ilist_sum (f : list (option R) -> outcome (option R)) (k : nat * option R -> option R) (h : nat * R -> R) (x : list R) :
  (forall p, k (wrap2 p) = Some (h p)) ->
  foldl (fun r '(i, a) => nadd r (k (i, a))) (Some 0) (imap pair (map Some x)) = Some (rsum h (imap pair x)).
Proof.
  intros H. rewrite imap_wrap.
  rewrite (foldl_ext' _ (fun r (p : nat * option R) => nadd r (k p))) by (intros ? []; reflexivity).
  rewrite (sum_loop k h wrap2) by (intros; apply H). f_equal. lra.
Qed.
Lemma sum_squares_min n : (1 <= n)%nat -> global_minimum sum_squares nonempty (constant n 0) 0.
Proof.
  intros Hn. eapply minn.
  - intros x Hx. unfold value, sum_squares. rewrite (nonempty_map x Hx). cbn [mbind outcome_bind]. rewrite (e_int 0).
    rewrite (ilist_sum sum_squares (fun p => nmul (of_nat (p.1 + 1)) (powi p.2 2)) (fun p => INR (p.1 + 1) * (p.2 * p.2))) by (intros; cbn [wrap2 fst snd]; ev; reflexivity). reflexivity.
  - rewrite repeat_length'. exact Hn.
  - cbv beta. zero_sum; [lra|]. rewrite H0. lra.
  - intros x _. cbv beta. apply rsum_nonneg. intros. apply Rmult_le_pos; [apply pos_INR|nn].
Qed.
Lemma sum_of_powers_value x : (1 <= length x)%nat -> value sum_of_powers x (rsum (fun p : nat * R => Rabs p.2 ^ (p.1 + 1)) (imap pair x)).
Proof.
  intros Hx. unfold value, sum_of_powers. rewrite (nonempty_map x Hx). cbn [mbind outcome_bind]. rewrite (e_int 0).
  rewrite (ilist_sum sum_squares (fun p => powi (nabs p.2) (Z.of_nat (p.1 + 1))) (fun p => Rabs p.2 ^ (p.1 + 1))); [reflexivity|].
  intros. cbn [wrap2 fst snd]. rewrite e_abs, e_powi_nat. reflexivity.
Qed.
Lemma sum_of_powers_min n : (1 <= n)%nat -> global_minimum sum_of_powers nonempty (constant n 0) 0.
Proof.
  intros Hn. eapply minn.
  - intros x Hx. apply sum_of_powers_value, Hx.
  - rewrite repeat_length'. exact Hn.
  - cbv beta. zero_sum; [reflexivity|]. rewrite H0, Rabs_R0. apply pow_ne_zero. lia.
  - intros x _. cbv beta. apply rsum_nonneg. intros. apply pow_le, Rabs_pos.
Qed.
Lemma powell_sum_min n : global_minimum powell_sum any (constant n 0) 0.
Proof.
  eapply minn.
  - intros x Hx. unfold value, powell_sum. rewrite (e_int 0).
    rewrite (ilist_sum sum_squares (fun p => powi (nabs p.2) (Z.of_nat (p.1 + 1))) (fun p => Rabs p.2 ^ (p.1 + 1))); [reflexivity|].
    intros. cbn [wrap2 fst snd]. rewrite e_abs, e_powi_nat. reflexivity.
  - exact I.
  - cbv beta. zero_sum; [reflexivity|]. rewrite H0, Rabs_R0. apply pow_ne_zero. lia.
  - intros x _. cbv beta. apply rsum_nonneg. intros. apply pow_le, Rabs_pos.
Qed.
Lemma rotated_hyper_ellipsoid_min n : (1 <= n)%nat -> global_minimum rotated_hyper_ellipsoid nonempty (constant n 0) 0.
Proof.
  intros Hn. eapply minn.
  - intros x Hx. unfold value, rotated_hyper_ellipsoid. rewrite (nonempty_map x Hx). cbn [mbind outcome_bind]. rewrite (e_int 0).
    rewrite <- (map_id (seq 0 _)).
    assert (E : forall l c, foldl (fun result i => foldl (fun result x_j => nadd result (powi x_j 2)) result (take (i + 1) (map Some x))) (Some c) (map (fun i => i) l)
      = Some (c + rsum (fun i => rsum (fun a => a * a) (take (i + 1) x)) l)).
    { induction l as [|i l IH]; intros c; cbn [map foldl]; [cbn; f_equal; lra|].
      assert (Et : take (i + 1) (map Some x) = map Some (take (i + 1) x)) by apply firstn_map. rewrite Et.
      rewrite (sum_loop _ (fun a => a * a) Some) by (intros a _; apply e_powi2). rewrite IH. f_equal. cbn [rsum foldr]. unfold rsum. lra. }
    rewrite E, map_length. reflexivity.
  - rewrite repeat_length'. exact Hn.
  - cbv beta. rewrite rsum_zero; [lra|]. intros i _. apply rsum_zero. intros a H. apply elem_of_take in H as (j & H & _). apply elem_of_list_lookup_2, in_constant in H. subst. lra.
  - intros x _. cbv beta. rewrite Rplus_0_l. apply rsum_nonneg. intros. apply rsum_nonneg. intros; nn.
Qed.
Lemma trigonometric1_min n : (2 <= n)%nat -> global_minimum trigonometric1 (atleast 2) (constant n 0) 0.
Proof.
  intros Hn. eapply minn.
  - intros x Hx. unfold value, trigonometric1. rewrite (atleast_map x 2 Hx). cbn [mbind outcome_bind]. cbv zeta. rewrite (e_int 0).
    rewrite (sum_loop _ cos Some) by (intros; apply e_cos). rewrite map_length.
    rewrite (ilist_sum sum_squares (fun p => powi (nadd (nsub (of_nat (length x)) (Some (0 + rsum cos x))) (nmul (of_nat p.1) (nsub (nsub (nlit 1 1) (ncos p.2)) (nsin p.2)))) 2)
      (fun p => (INR (length x) - (0 + rsum cos x) + INR p.1 * (1 - cos p.2 - sin p.2)) * (INR (length x) - (0 + rsum cos x) + INR p.1 * (1 - cos p.2 - sin p.2)))); [reflexivity|].
    intros. cbn [wrap2 fst snd]. ev. reflexivity.
  - rewrite repeat_length'. exact Hn.
  - cbv beta. zero_sum; [reflexivity|]. rewrite H0. rewrite (rsum_const _ 1) by (intros a Ha; apply in_constant in Ha; subst; apply cos_0).
    rewrite repeat_length', cos_0, sin_0. lra.
  - intros x _. cbv beta. apply rsum_nonneg. intros; nn.
Qed.
