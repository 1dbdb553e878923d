(** * Documented minima, last part *)
From Coq Require Import Lra Lia Psatz.
From Verif Require Export TfDoc4Proofs.
Open Scope R_scope.

Lemma giunta_below : value giunta [1; 1] 0.
Proof.
  unfold value, giunta. change (rassert _) with (Ok tt : outcome unit). cbn [mbind outcome_bind]. change (16 / 15)%Z with 1%Z.
  cbn [map foldl]. apply (f_equal (@Ok (option R))). ev. f_equal. replace (1 * 1 - 1) with 0 by lra. rewrite !Rmult_0_r, sin_0. lra.
Qed.
Lemma miele_cantrell_min : minimum_where_defined miele_cantrell (fun n => n = 4%nat) [0; 1; 1; 1] 0.
Proof.
  split; [reflexivity|]. split.
  - unfold value, miele_cantrell. run. ev. replace (1 - 1) with 0 by lra. rewrite e_tan by (rewrite cos_0; lra). ev. f_equal.
    rewrite sin_0, cos_0. replace (-1 * 0) with 0 by lra. rewrite exp_0. lra.
  - intros x v Hx. apply len4 in Hx as (a & b & c & d & ->). unfold value, miele_cantrell. intros H.
    assert (H2 : (powi (npowf nE (- # 1 * Some a) - Some b) 4 + # 100 * powi (Some b - Some c) 6 + powi (ntan (Some c - Some d)) 4 + powi (Some a) 8)%num = Some v)
      by (apply Ok_inj; exact H).
    clear H. revert H2. ev. destruct (Req_dec (cos (c - d)) 0) as [E|E].
    + assert (N : ntan (Some (c - d)) = None) by (cbn; rewrite E; destruct (Req_EM_T 0 0); [reflexivity|congruence]). rewrite N.
      change (powi (None : option R) 4) with (None : option R). rewrite add_none. discriminate.
    + rewrite e_tan by exact E. ev. intros [= <-]. nn.
Qed.
Lemma pen_holder_below x v : length x = 2%nat -> value pen_holder x v -> v < -1.
Proof.
  intros H. apply len2 in H as (a & b & ->). unfold value, pen_holder. intros H.
  assert (H2 : (- # 1 * nexp (powi (nabs (ncos (Some a) * ncos (Some b) * npowf nE (nabs (# 1 - npowf (powi (Some a) 2 + powi (Some b) 2) (lit 5 10 / npi))))) (-1)))%num = Some v)
    by (apply Ok_inj; exact H).
  clear H. revert H2. pose proof PI_gt3. ev. rewrite e_div by lra. rewrite e_powr; [|nn|apply Rdiv_lt_0_compat; lra]. ev. set (w := Rabs (_ * _ * _)).
  destruct (Req_dec w 0) as [->|Hw].
  - unfold powi at 1. rewrite e_int, powi_pos_R, Rmult_1_l, pow_ne_zero by lia. rewrite e_div0. discriminate.
  - rewrite e_powi_neg by exact Hw. change (Pos.to_nat 1) with 1%nat. rewrite pow_1. ev. intros [= <-].
    assert (0 < w) by (pose proof (Rabs_pos (cos a * cos b * exp (Rabs (1 - powr (a * a + b * b) (5 / 10 / PI))))); subst w; lra).
    assert (0 < 1 / w) by (apply Rdiv_lt_0_compat; lra). pose proof (exp_ineq1_le (1 / w)). lra.
Qed.
Lemma deb3_at0 n : (2 <= n)%nat -> value deb3 (constant n 0) (- (INR n / (8 * (INR n - 1)))).
Proof.
  intros Hn. unfold value, deb3. rewrite (nonempty_map (constant n 0)) by (rewrite repeat_length'; lia). cbn [mbind outcome_bind]. rewrite (e_int 0).
  rewrite (sum_loop _ (fun _ => 1 / 8) Some).
  - rewrite map_length, repeat_length'. ev. rewrite minus_INR by lia. cbn [INR]. assert (2 <= INR n) by (apply (le_INR 2); exact Hn). rewrite e_div by lra. ev.
    unfold constant. rewrite rsum_repeat. f_equal. f_equal. field. lra.
  - intros a Ha. apply in_constant in Ha. subst a. ev. rewrite e_powf0 by lra. ev. f_equal.
    replace (5 * PI * (0 - 5 / 100)) with (- (PI / 4)) by lra. rewrite sin_neg, sin_PI4.
    assert (S2 : R_sqrt.sqrt 2 * R_sqrt.sqrt 2 = 2) by (apply sqrt_def; lra). pose proof (sqrt_lt_R0 2 ltac:(lra)).
    set (s := R_sqrt.sqrt 2) in *. assert (I : 1 / s * (1 / s) = 1 / 2) by (rewrite <- S2; field; lra). 
    replace (- (1 / s) * - (1 / s) * - (1 / s) * (- (1 / s) * - (1 / s) * - (1 / s))) with (1 / s * (1 / s) * (1 / s * (1 / s)) * (1 / s * (1 / s))) by ring. rewrite I. lra.
Qed.
(** ** Power sum: the powers start at 0, so that at the origin the first sum is n and all others are 0 *)
Lemma power_sum_at0 (b : list R) : let n := length b in (1 <= n)%nat ->
  exists v, value (fun x => power_sum x (map Some b)) (constant n 0) v /\ (v = 0 <-> b = INR n :: constant (n - 1) 0).
Proof.
  intros n Hn. set (h := fun p : nat * R => ((if decide (p.1 = 0%nat) then INR n else 0) - p.2) * ((if decide (p.1 = 0%nat) then INR n else 0) - p.2)).
  exists (rsum h (imap pair b)). split.
  - unfold value, power_sum. rewrite rassert_true by (apply bool_decide_eq_true; rewrite !map_length, repeat_length'; reflexivity). cbn [mbind outcome_bind].
    apply (f_equal (@Ok (option R))). rewrite (e_int 0).
    rewrite (ilist_sum sum_squares (fun p => powi (nsub (foldl (fun sum j => nadd sum (powi j (Z.of_nat p.1))) (Some 0) (map Some (constant n 0))) p.2) 2) h); [reflexivity|].
    intros [i a]. cbn [wrap2 fst snd]. rewrite (sum_loop _ (fun c => c ^ i) Some) by (intros; apply e_powi_nat). ev. subst h. cbn [fst snd]. unfold constant. rewrite rsum_repeat.
    f_equal. destruct (decide (i = 0%nat)) as [->|Hi]; [rewrite pow_O|rewrite pow_ne_zero by exact Hi]; f_equal; lra.
  - assert (Z : forall l : list (nat * R), rsum h l = 0 <-> forall p, p ∈ l -> h p = 0).
    { assert (P : forall p, 0 <= h p) by (intros; subst h; cbv beta; nn). induction l as [|p l IH].
      - split; [intros _ p Hp; inversion Hp|reflexivity].
      - cbn [rsum foldr]. assert (0 <= rsum h l) by (apply rsum_nonneg; exact P). specialize (P p). fold (rsum h l). split.
        + intros E. assert (h p = 0) by lra. assert (F : rsum h l = 0) by lra. intros q Hq. inversion Hq; subst; [assumption|]. apply IH; assumption.
        + intros E. rewrite (E p) by constructor. rewrite (proj2 IH); [lra|]. intros q Hq. apply E. constructor. exact Hq. }
    rewrite Z. clear Z. subst h. cbv beta. destruct b as [|b0 b]; [cbn in Hn; lia|]. split.
    + intros H. f_equal.
      * specialize (H (0%nat, b0)). cbn [fst snd] in H. rewrite decide_True in H by reflexivity.
        assert (E : (INR n - b0) * (INR n - b0) = 0) by (apply H; cbn; constructor). apply Rmult_integral in E. lra.
      * subst n. cbn [length]. rewrite Nat.sub_succ, Nat.sub_0_r. apply list_eq. intros i. unfold constant. destruct (b !! i) as [c|] eqn:E.
        -- specialize (H (S i, c)). cbn [fst snd] in H. rewrite decide_False in H by lia.
           assert (F : (0 - c) * (0 - c) = 0). { apply H. apply elem_of_lookup_imap. exists (S i), c. split; [reflexivity|exact E]. }
           apply Rmult_integral in F. assert (c = 0) by lra. subst c. symmetry. apply lookup_lt_Some in E.
           assert (G : nth i (repeat 0 (length b)) 1 = 0) by (apply nth_constant; exact E).
           rewrite <- G at 2. apply nth_lookup_or_length_eq || idtac.
           destruct (lookup_lt_is_Some_2 (repeat 0 (length b)) i) as [y Hy]; [rewrite repeat_length; exact E|]. rewrite Hy. f_equal. apply nth_lookup_Some with (d := 1) in Hy. congruence.
        -- symmetry. apply lookup_ge_None_2. rewrite repeat_length. apply lookup_ge_None_1. exact E.
    + intros E p Hp. rewrite E in Hp. apply elem_of_lookup_imap in Hp as (i & y & -> & Hy). cbn [fst snd]. destruct i as [|i].
      * change (Some (INR n) = Some y) in Hy. assert (y = INR n) by congruence. rewrite decide_True by reflexivity. subst y. lra.
      * rewrite decide_False by lia. change (constant (n - 1) 0 !! i = Some y) in Hy. apply elem_of_list_lookup_2 in Hy. apply (in_constant 0) in Hy. subst y. lra.
Qed.
(** ** Approximate minima *)
Lemma zirilli_value a b : value zirilli [a; b] (25 / 100 * (a * a * (a * a)) - 5 / 10 * (a * a) + 1 / 10 * a + 5 / 10 * (b * b)).
Proof. val @zirilli. Qed.
Lemma zirilli_approx : (exists v, value zirilli [- (10465 / 10000); 0] v /\ Rabs (v - - (3523 / 10000)) <= 1 / 10000) /\
  (forall x, length x = 2%nat -> exists v, value zirilli x v /\ - (3524 / 10000) <= v).
Proof.
  split.
  - eexists. split; [apply zirilli_value|]. apply Rabs_le. lra.
  - intros x Hx. apply len2 in Hx as (a & b & ->). eexists. split; [apply zirilli_value|].
    pose proof (sqr_nonneg b). pose proof (sqr_nonneg ((a + 10465 / 10000) * (a / 2 - 10465 / 20000))). pose proof (sqr_nonneg (a + 10465 / 10000)). pose proof (sqr_nonneg (a + 10470 / 10000)). nra.
Qed.
Lemma zettl_value a b : value zettl [a; b] ((a * a + b * b - 2 * a) * (a * a + b * b - 2 * a) + 25 / 100 * a).
Proof. val @zettl. Qed.
Lemma zettl_approx : (exists v, value zettl [- (299 / 10000); 0] v /\ Rabs (v - - (3791 / 1000000)) <= 1 / 1000000) /\
  (forall x, length x = 2%nat -> exists v, value zettl x v /\ - (3792 / 1000000) <= v).
Proof.
  split.
  - eexists. split; [apply zettl_value|]. apply Rabs_le. lra.
  - intros x Hx. apply len2 in Hx as (a & b & ->). eexists. split; [apply zettl_value|]. set (s := a * a + b * b - 2 * a).
    destruct (Rle_dec 0 a) as [Ha|Ha]; [pose proof (sqr_nonneg s); lra|].
    assert (0 <= b * b) by nn. assert (Hs : a * a - 2 * a <= s) by (subst s; lra). assert (0 <= a * a - 2 * a) by nra.
    assert (Q : (a * a - 2 * a) * (a * a - 2 * a) <= s * s) by nra.
    assert (C : 0 <= (a + 299 / 10000) * (a + 299 / 10000) * (2 * (299 / 10000) - a)) by (apply Rmult_le_pos; [nn|lra]).
    pose proof (sqr_nonneg (a * a - 299 / 10000 * (299 / 10000))). pose proof (sqr_nonneg (a + 299 / 10000)). pose proof (sqr_nonneg (a + 300 / 10000)). nra.
Qed.
Lemma styblinski_tang_value x : (1 <= length x)%nat -> value styblinski_tang x ((0 + rsum (fun a => a * a * (a * a) - 16 * (a * a) + 5 * a) x) * (5 / 10)).
Proof.
  intros Hx. unfold value, styblinski_tang. rewrite (nonempty_map x Hx). cbn [mbind outcome_bind]. rewrite (e_int 0).
  rewrite (sum_loop _ (fun a => a * a * (a * a) - 16 * (a * a) + 5 * a) Some) by (intros; ev; reflexivity). cbv zeta. ev. reflexivity.
Qed.
Lemma styblinski_tang_approx n : (1 <= n)%nat ->
  (exists v, value styblinski_tang (constant n (- (2903534 / 1000000))) v /\ v < - (3916616 / 100000) * INR n) /\
  (forall x, length x = n -> exists v, value styblinski_tang x v /\ - (3916617 / 100000) * INR n <= v).
Proof.
  intros Hn. assert (1 <= INR n) by (apply (le_INR 1); exact Hn). split.
  - eexists. split; [apply styblinski_tang_value; rewrite repeat_length'; exact Hn|]. unfold constant. rewrite rsum_repeat. nra.
  - intros x Hx. eexists. split; [apply styblinski_tang_value; lia|].
    pose proof (rsum_ge (fun a => a * a * (a * a) - 16 * (a * a) + 5 * a) (- (783323399 / 10000000)) x) as B. cbv beta in B. rewrite Hx in B.
    assert (P : forall a, - (783323399 / 10000000) <= a * a * (a * a) - 16 * (a * a) + 5 * a).
    { intros a. pose proof (sqr_nonneg ((a + 2903534 / 1000000) * (a - 2903534 / 1000000))). pose proof (sqr_nonneg (a + 2903534 / 1000000)). nra. }
    specialize (B P). nra.
Qed.
