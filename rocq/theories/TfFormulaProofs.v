(** * The test functions of any dimension compute the published formulas *)
From Coq Require Import Lra Lia Psatz.
From Verif Require Export TfDim2Proofs.
Open Scope R_scope.

Lemma Sum_rsum m n g : Sum m n g = rsum g (seq m (n + 1 - m)).
Proof. unfold Sum, rsum. induction (seq m (n + 1 - m)) as [|i l IH]; [reflexivity|]. cbn. rewrite IH. reflexivity. Qed.
Lemma Prod_rprod m n g : Prod m n g = rprod g (seq m (n + 1 - m)).
Proof. unfold Prod, rprod. induction (seq m (n + 1 - m)) as [|i l IH]; [reflexivity|]. cbn. rewrite IH. reflexivity. Qed.
Lemma rsum_shift (g : nat -> R) a n : rsum g (seq (S a) n) = rsum (fun i => g (S i)) (seq a n).
Proof. rewrite <- seq_shift. unfold rsum. induction (seq a n) as [|i l IH]; [reflexivity|]. cbn. rewrite IH. reflexivity. Qed.
Lemma rprod_shift (g : nat -> R) a n : rprod g (seq (S a) n) = rprod (fun i => g (S i)) (seq a n).
Proof. rewrite <- seq_shift. unfold rprod. induction (seq a n) as [|i l IH]; [reflexivity|]. cbn. rewrite IH. reflexivity. Qed.
Lemma rsum_nth {A} (h : A -> R) (l : list A) d : rsum h l = rsum (fun i => h (nth i l d)) (seq 0 (length l)).
Proof. induction l as [|a l IH]; [reflexivity|]. cbn [length seq rsum foldr nth]. f_equal. fold (rsum h l). rewrite IH. symmetry. apply rsum_shift. Qed.
Lemma rprod_nth {A} (h : A -> R) (l : list A) d : rprod h l = rprod (fun i => h (nth i l d)) (seq 0 (length l)).
Proof. induction l as [|a l IH]; [reflexivity|]. cbn [length seq rprod foldr nth]. f_equal. fold (rprod h l). rewrite IH. symmetry. apply rprod_shift. Qed.
Lemma rprod_ext {A} (h k : A -> R) l : (forall a, a ∈ l -> h a = k a) -> rprod h l = rprod k l.
Proof.
  induction l as [|b l IH]; intros H; [reflexivity|]. cbn [rprod foldr]. rewrite (H b) by constructor. f_equal.
  apply IH. intros a Ha. apply H. constructor. exact Ha.
Qed.
(** Loops over the coordinates, over (index, coordinate), over indices *)
Lemma sum_coord (h : R -> R) (x : list R) : rsum h x = Sum 1 (length x) (fun i => h (coord x i)).
Proof.
  rewrite Sum_rsum. replace (length x + 1 - 1)%nat with (length x) by lia. rewrite rsum_shift, (rsum_nth h x 0). apply rsum_ext. intros i _. unfold coord.
  f_equal. f_equal. lia.
Qed.
Lemma nth_imap (x : list R) i : (i < length x)%nat -> nth i (imap pair x) (0%nat, 0) = (i, nth i x 0).
Proof.
  intros H. destruct (lookup_lt_is_Some_2 x i H) as [v Hv]. assert (E : imap pair x !! i = Some (i, v)) by (rewrite list_lookup_imap, Hv; reflexivity).
  apply nth_lookup_Some with (d := 0) in Hv. apply nth_lookup_Some with (d := (0%nat, 0)) in E. congruence.
Qed.
Lemma sum_icoord (h : nat * R -> R) (x : list R) : rsum h (imap pair x) = Sum 1 (length x) (fun i => h ((i - 1)%nat, coord x i)).
Proof.
  rewrite Sum_rsum. replace (length x + 1 - 1)%nat with (length x) by lia. rewrite rsum_shift, (rsum_nth h _ (0%nat, 0)), imap_length. apply rsum_ext. intros i Hi%in_seq_bounds.
  rewrite nth_imap by lia. unfold coord. f_equal. f_equal; [lia|]. f_equal. lia.
Qed.
Lemma prod_icoord (h : nat * R -> R) (x : list R) : rprod h (imap pair x) = Prod 1 (length x) (fun i => h ((i - 1)%nat, coord x i)).
Proof.
  rewrite Prod_rprod. replace (length x + 1 - 1)%nat with (length x) by lia. rewrite rprod_shift, (rprod_nth h _ (0%nat, 0)), imap_length. apply rprod_ext. intros i Hi%in_seq_bounds.
  rewrite nth_imap by lia. unfold coord. f_equal. f_equal; [lia|]. f_equal. lia.
Qed.
Lemma Sum_ext m n g h : (forall i, (m <= i <= n)%nat -> g i = h i) -> Sum m n g = Sum m n h.
Proof. intros H. rewrite !Sum_rsum. apply rsum_ext. intros i Hi%in_seq_bounds. apply H. lia. Qed.
Lemma Prod_ext m n g h : (forall i, (m <= i <= n)%nat -> g i = h i) -> Prod m n g = Prod m n h.
Proof. intros H. rewrite !Prod_rprod. apply rprod_ext. intros i Hi%in_seq_bounds. apply H. lia. Qed.
(** A loop over the indices 0 .. n-2 as a sum from 1 to n-1; over 1 .. n-1 as a sum from 2 to n *)
Lemma sum_seq0 (h : nat -> R) n : (1 <= n)%nat -> rsum h (seq 0 (n - 1)) = Sum 1 (n - 1) (fun i => h (i - 1)%nat).
Proof. intros Hn. rewrite Sum_rsum. replace (n - 1 + 1 - 1)%nat with (n - 1)%nat by lia. rewrite rsum_shift. apply rsum_ext. intros i _. f_equal. lia. Qed.
Lemma sum_seq1 (h : nat -> R) n : (1 <= n)%nat -> rsum h (seq 1 (n - 1)) = Sum 2 n (fun i => h (i - 1)%nat).
Proof. intros Hn. rewrite Sum_rsum. replace (n + 1 - 2)%nat with (n - 1)%nat by lia. rewrite (rsum_shift _ 1). apply rsum_ext. intros i _. f_equal. lia. Qed.
Lemma value_eq f x v w : value f x v -> v = w -> value f x w.
Proof. intros H <-. exact H. Qed.

Lemma sphere_formula x : (1 <= length x)%nat -> value sphere x (Sum 1 (length x) (fun i => coord x i ^ 2)).
Proof.
  intros Hx. eapply value_eq.
  - unfold value, sphere. rewrite (nonempty_map x Hx). cbn [mbind outcome_bind].
    rewrite (e_int 0). rewrite (sum_loop _ (fun a => a * a) Some); [reflexivity|]. intros a _. apply e_powi2.
  - cbv beta. rewrite sum_coord, Rplus_0_l. apply Sum_ext. intros. ring.
Qed.
Lemma sum_squares_formula x : (1 <= length x)%nat -> value sum_squares x (Sum 1 (length x) (fun i => INR i * coord x i ^ 2)).
Proof.
  intros Hx. eapply value_eq.
  - unfold value, sum_squares. rewrite (nonempty_map x Hx). cbn [mbind outcome_bind]. rewrite (e_int 0).
    rewrite (ilist_sum sum_squares (fun p => nmul (of_nat (p.1 + 1)) (powi p.2 2)) (fun p => INR (p.1 + 1) * (p.2 * p.2))) by (intros; cbn [wrap2 fst snd]; ev; reflexivity). reflexivity.
  - rewrite sum_icoord. apply Sum_ext. intros i Hi. cbn [fst snd]. replace (i - 1 + 1)%nat with i by lia. ring.
Qed.
Lemma sum_of_powers_formula x : (1 <= length x)%nat -> value sum_of_powers x (Sum 1 (length x) (fun i => Rabs (coord x i) ^ i)).
Proof.
  intros Hx. eapply value_eq; [apply sum_of_powers_value, Hx|]. rewrite sum_icoord. apply Sum_ext. intros i Hi. cbn [fst snd]. replace (i - 1 + 1)%nat with i by lia. reflexivity.
Qed.
Lemma powell_sum_formula x : value powell_sum x (Sum 1 (length x) (fun i => Rabs (coord x i) ^ i)).
Proof.
  eapply value_eq.
  - unfold value, powell_sum. rewrite (e_int 0).
    rewrite (ilist_sum sum_squares (fun p => powi (nabs p.2) (Z.of_nat (p.1 + 1))) (fun p => Rabs p.2 ^ (p.1 + 1))); [reflexivity|].
    intros. cbn [wrap2 fst snd]. rewrite e_abs, e_powi_nat. reflexivity.
  - rewrite sum_icoord. apply Sum_ext. intros i Hi. cbn [fst snd]. replace (i - 1 + 1)%nat with i by lia. reflexivity.
Qed.
Lemma rotated_hyper_ellipsoid_formula x : (1 <= length x)%nat ->
  value rotated_hyper_ellipsoid x (Sum 1 (length x) (fun i => Sum 1 i (fun j => coord x j ^ 2))).
Proof.
  intros Hx. eapply value_eq.
  - unfold value, rotated_hyper_ellipsoid. rewrite (nonempty_map x Hx). cbn [mbind outcome_bind]. rewrite (e_int 0).
    rewrite <- (map_id (seq 0 _)).
    assert (E : forall l c, foldl (fun result i => foldl (fun result x_j => nadd result (powi x_j 2)) result (take (i + 1) (map Some x))) (Some c) (map (fun i => i) l)
      = Some (c + rsum (fun i => rsum (fun a => a * a) (take (i + 1) x)) l)).
    { induction l as [|i l IH]; intros c; cbn [map foldl]; [cbn; f_equal; lra|].
      assert (Et : take (i + 1) (map Some x) = map Some (take (i + 1) x)) by apply firstn_map. rewrite Et.
      rewrite (sum_loop _ (fun a => a * a) Some) by (intros a _; apply e_powi2). rewrite IH. f_equal. cbn [rsum foldr]. unfold rsum. lra. }
    rewrite E, map_length. reflexivity.
  - cbv beta. rewrite Rplus_0_l, Sum_rsum. replace (length x + 1 - 1)%nat with (length x) by lia. rewrite rsum_shift. apply rsum_ext. intros i Hi%in_seq_bounds.
    rewrite sum_coord. rewrite take_length, Nat.min_l by lia. replace (i + 1)%nat with (S i) by lia. apply Sum_ext. intros j Hj. unfold coord.
    assert (E : nth (j - 1) (take (S i) x) 0 = nth (j - 1) x 0).
    { transitivity (nth (j - 1) (take (S i) x ++ drop (S i) x) 0); [|rewrite take_drop; reflexivity]. rewrite app_nth1 by (rewrite take_length; lia). reflexivity. }
    rewrite E. ring.
Qed.
Lemma rastrigin_formula x : (1 <= length x)%nat -> value rastrigin x (10 * INR (length x) + Sum 1 (length x) (fun i => coord x i ^ 2 - 10 * cos (2 * PI * coord x i))).
Proof.
  intros Hx. eapply value_eq.
  - unfold value, rastrigin. rewrite (nonempty_map x Hx). cbn [mbind outcome_bind].
    rewrite (e_int 0). rewrite (sum_loop _ (fun a => a * a - 10 * cos (2 * PI * a)) Some); [|intros a _; ev; reflexivity].
    ev. rewrite map_length. reflexivity.
  - cbv beta. rewrite sum_coord. rewrite (Sum_ext _ _ (fun i => coord x i * coord x i - 10 * cos (2 * PI * coord x i)) (fun i => coord x i ^ 2 - 10 * cos (2 * PI * coord x i))) by (intros; ring). lra.
Qed.
Lemma griewank_formula x : (1 <= length x)%nat ->
  value griewank x (Sum 1 (length x) (fun i => coord x i ^ 2 / 4000) - Prod 1 (length x) (fun i => cos (coord x i / R_sqrt.sqrt (INR i))) + 1).
Proof.
  intros Hx. eapply value_eq.
  - unfold value, griewank. rewrite (nonempty_map x Hx). cbn [mbind outcome_bind]. rewrite imap_wrap.
    rewrite (foldl_ext' _ (fun t (p : nat * option R) => (nadd t.1 (ndiv (powi p.2 2) (nlit 4000 1)), nmul t.2 (ncos (ndiv p.2 (nsqrt (of_nat (p.1 + 1)))))))) by (intros ? []; reflexivity).
    rewrite (e_int 0), (e_int 1).
    rewrite (sum_prod_loop _ _ (fun p : nat * R => p.2 * p.2 / 4000) (fun p => cos (p.2 / R_sqrt.sqrt (INR (p.1 + 1)))) wrap2).
    + cbv zeta beta iota. ev. reflexivity.
    + intros a _. cbn [wrap2 fst snd]. ev2. reflexivity.
    + intros a _. cbn [wrap2 fst snd]. assert (0 < INR (a.1 + 1)) by (apply lt_0_INR; lia). rewrite e_nat, e_sqrt by lra. rewrite e_div; [ev; reflexivity|].
      apply Rgt_not_eq. apply sqrt_lt_R0. exact H.
  - cbv beta. rewrite sum_icoord, prod_icoord. cbn [fst snd].
    rewrite (Sum_ext _ _ (fun i => coord x i * coord x i / 4000) (fun i => coord x i ^ 2 / 4000)) by (intros; unfold Rdiv; ring).
    rewrite (Prod_ext _ _ (fun i => cos (coord x i / R_sqrt.sqrt (INR (i - 1 + 1)))) (fun i => cos (coord x i / R_sqrt.sqrt (INR i)))) by (intros i Hi; replace (i - 1 + 1)%nat with i by lia; reflexivity).
    lra.
Qed.
Lemma ackley_formula x : (1 <= length x)%nat -> value ackley x
  (- 20 * exp (- (2 / 10) * R_sqrt.sqrt (1 / INR (length x) * Sum 1 (length x) (fun i => coord x i ^ 2))) - exp (1 / INR (length x) * Sum 1 (length x) (fun i => cos (2 * PI * coord x i))) + 20 + exp 1).
Proof.
  intros Hx. assert (P : 0 < INR (length x)) by (apply lt_0_INR; lia). eapply value_eq.
  - unfold value, ackley. rewrite (nonempty_map x Hx). cbn [mbind outcome_bind].
    rewrite (e_int 0). rewrite (pair_loop _ _ (fun a => a * a) (fun a => cos (2 * PI * a)) Some); [|intros a _; apply e_powi2|intros a _; ev; reflexivity].
    cbv zeta beta iota. rewrite map_length. ev. rewrite e_div by lra. ev. rewrite e_sqrt. { ev. reflexivity. }
    apply Rmult_le_pos; [rewrite Rplus_0_l; apply rsum_nonneg; intros; nn|]. left. apply Rdiv_lt_0_compat; lra.
  - cbv beta. rewrite !Rplus_0_l, !sum_coord. rewrite (Sum_ext _ _ (fun i => coord x i * coord x i) (fun i => coord x i ^ 2)) by (intros; ring).
    rewrite !(Rmult_comm (Sum _ _ _)). reflexivity.
Qed.
Lemma zakharov_formula x : (1 <= length x)%nat -> let s := Sum 1 (length x) (fun i => 5 / 10 * INR i * coord x i) in
  value zakharov x (Sum 1 (length x) (fun i => coord x i ^ 2) + s ^ 2 + s ^ 4).
Proof.
  intros Hx s. eapply value_eq.
  - unfold value, zakharov. rewrite (nonempty_map x Hx). cbn [mbind outcome_bind]. rewrite imap_wrap.
    rewrite (foldl_ext' _ (fun t (p : nat * option R) => (nadd t.1 (powi p.2 2), nadd t.2 (nmul (nmul (nlit 5 10) (of_nat (p.1 + 1))) p.2)))) by (intros ? []; reflexivity).
    rewrite (e_int 0). rewrite (pair_loop _ _ (fun p : nat * R => p.2 * p.2) (fun p => 5 / 10 * INR (p.1 + 1) * p.2) wrap2); [|intros a _; apply e_powi2|intros a _; ev; reflexivity].
    cbv zeta beta iota. ev. reflexivity.
  - cbv beta. rewrite !Rplus_0_l, !sum_icoord. cbn [fst snd]. 
    rewrite (Sum_ext _ _ (fun i => coord x i * coord x i) (fun i => coord x i ^ 2)) by (intros; ring).
    rewrite (Sum_ext _ _ (fun i => 5 / 10 * INR (i - 1 + 1) * coord x i) (fun i => 5 / 10 * INR i * coord x i)) by (intros i Hi; replace (i - 1 + 1)%nat with i by lia; reflexivity).
    fold s. ring.
Qed.
Lemma styblinski_tang_formula x : (1 <= length x)%nat -> value styblinski_tang x (Sum 1 (length x) (fun i => coord x i ^ 4 - 16 * coord x i ^ 2 + 5 * coord x i) / 2).
Proof.
  intros Hx. eapply value_eq.
  - unfold value, styblinski_tang. rewrite (nonempty_map x Hx). cbn [mbind outcome_bind]. cbv zeta.
    rewrite (e_int 0). rewrite (sum_loop _ (fun a => a * a * (a * a) - 16 * (a * a) + 5 * a) Some); [|intros a _; ev; reflexivity].
    ev. reflexivity.
  - cbv beta. rewrite sum_coord, Rplus_0_l. rewrite (Sum_ext _ _ _ (fun i => coord x i ^ 4 - 16 * coord x i ^ 2 + 5 * coord x i)) by (intros; ring). lra.
Qed.
Lemma schwefel_formula x : (1 <= length x)%nat ->
  value schwefel x (4189829 / 10000 * INR (length x) - Sum 1 (length x) (fun i => coord x i * sin (R_sqrt.sqrt (Rabs (coord x i))))).
Proof.
  intros Hx. unfold value, schwefel. rewrite (nonempty_map x Hx). cbn [mbind outcome_bind]. f_equal. rewrite map_length. ev. rewrite <- (sum_coord (fun a => a * sin (R_sqrt.sqrt (Rabs a)))).
  generalize (4189829 / 10000 * INR (length x)). clear Hx. induction x as [|a x IH]; intros c; cbn [map foldl].
  - unfold rsum. cbn. f_equal. lra.
  - rewrite e_abs, e_sqrt by apply Rabs_pos. ev. rewrite IH. f_equal. cbn [rsum foldr]. unfold rsum. lra.
Qed.
Lemma rosenbrock_formula x : (2 <= length x)%nat ->
  value rosenbrock x (Sum 1 (length x - 1) (fun i => 100 * (coord x (i + 1) - coord x i ^ 2) ^ 2 + (1 - coord x i) ^ 2)).
Proof.
  intros Hx. eapply value_eq.
  - unfold value, rosenbrock. rewrite (atleast_map x 2 Hx). cbn [mbind outcome_bind]. rewrite (e_int 0), map_length.
    rewrite (osum_loop _ (fun i => 100 * ((nth (i + 1) x 0 - nth i x 0 * nth i x 0) * (nth (i + 1) x 0 - nth i x 0 * nth i x 0)) + (1 - nth i x 0) * (1 - nth i x 0)));
      [reflexivity|]. intros r i Hi. apply in_seq_bounds in Hi. idx x. ev. reflexivity.
  - cbv beta. rewrite Rplus_0_l, sum_seq0 by lia. apply Sum_ext. intros i Hi. unfold coord. replace (i + 1 - 1)%nat with (i - 1 + 1)%nat by lia. ring.
Qed.
(** The published function weighs the i-th term with i; the code, whose index starts from 0, with i - 1. *)
Lemma dixon_price_formula x : (2 <= length x)%nat ->
  value dixon_price x ((coord x 1 - 1) ^ 2 + Sum 2 (length x) (fun i => INR (i - 1) * (2 * coord x i ^ 2 - coord x (i - 1)) ^ 2)).
Proof.
  intros Hx. eapply value_eq.
  - unfold value, dixon_price. rewrite (atleast_map x 2 Hx). cbn [mbind outcome_bind]. idx x. ev. rewrite map_length.
    rewrite (osum_loop _ (fun i => INR i * ((2 * (nth i x 0 * nth i x 0) - nth (i - 1) x 0) * (2 * (nth i x 0 * nth i x 0) - nth (i - 1) x 0))));
      [reflexivity|]. intros r i Hi. apply in_seq_bounds in Hi. idx x. ev. reflexivity.
  - cbv beta. rewrite sum_seq1 by lia. f_equal; [unfold coord; cbn [Nat.sub]; ring|]. apply Sum_ext. intros i Hi. unfold coord. ring.
Qed.
Lemma Sum_plus m n g h : Sum m n g + Sum m n h = Sum m n (fun i => g i + h i).
Proof. rewrite !Sum_rsum. unfold rsum. induction (seq m (n + 1 - m)) as [|i l IH]; cbn; lra. Qed.
Lemma Sum_opp m n g : - Sum m n g = Sum m n (fun i => - g i).
Proof. rewrite !Sum_rsum. unfold rsum. induction (seq m (n + 1 - m)) as [|i l IH]; cbn; lra. Qed.
Lemma Sum_first n g : (1 <= n)%nat -> Sum 1 n g = g 1%nat + Sum 2 n g.
Proof. intros Hn. rewrite !Sum_rsum. replace (n + 1 - 1)%nat with (S (n - 1)) by lia. replace (n + 1 - 2)%nat with (n - 1)%nat by lia. reflexivity. Qed.
Lemma trid_formula x : (2 <= length x)%nat ->
  value trid x (Sum 1 (length x) (fun i => (coord x i - 1) ^ 2) - Sum 2 (length x) (fun i => coord x i * coord x (i - 1))).
Proof.
  intros Hx. eapply value_eq; [apply trid_value, Hx|]. rewrite sum_seq1 by lia. rewrite Sum_first by lia.
  transitivity ((coord x 1 - 1) ^ 2 + (Sum 2 (length x) (fun i => (coord x i - 1) ^ 2) + - Sum 2 (length x) (fun i => coord x i * coord x (i - 1)))); [|ring].
  rewrite Sum_opp, Sum_plus. f_equal; [unfold coord; cbn [Nat.sub]; ring|]. apply Sum_ext. intros i Hi. unfold trid_term, coord. ring.
Qed.
Lemma michalewicz_formula x : (1 <= length x)%nat ->
  value michalewicz x (- Sum 1 (length x) (fun i => sin (coord x i) * sin (INR i * coord x i ^ 2 / PI) ^ 20)).
Proof.
  intros Hx. eapply value_eq.
  - unfold value, michalewicz. rewrite (nonempty_map x Hx). cbn [mbind outcome_bind]. rewrite (e_int 0). rewrite imap_wrap.
    assert (E : forall l c, foldl (fun (result : option R) '(index, x_curr) => nsub result (nmul (nsin x_curr) (powi (nsin (ndiv (nmul (of_nat (index + 1)%nat) (powi x_curr 2)) npi)) 20))) (Some c) (map wrap2 l)
      = Some (c - rsum (fun p : nat * R => sin p.2 * sin (INR (p.1 + 1) * (p.2 * p.2) / PI) ^ 20) l)).
    { induction l as [|[i a] l IH]; intros c; cbn [map foldl]; [unfold rsum; cbn; f_equal; lra|]. cbn [wrap2 fst snd]. ev. rewrite e_div by (pose proof PI_RGT_0; lra). ev.
      rewrite (e_powi_nat _ 20), e_mul, e_sub, IH. f_equal. cbn [rsum foldr fst snd]. unfold rsum. lra. }
    rewrite E. reflexivity.
  - cbv beta. rewrite sum_icoord. rewrite Rminus_0_l. f_equal. apply Sum_ext. intros i Hi. cbn [fst snd]. replace (i - 1 + 1)%nat with i by lia.
    replace (coord x i * coord x i) with (coord x i ^ 2) by ring. reflexivity.
Qed.
