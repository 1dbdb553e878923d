(** * Documented minima that are not the minima of the code (continued) *)
From Coq Require Import Lra Lia Psatz.
From Verif Require Export TfDoc2Proofs.
Open Scope R_scope.

Lemma Ok_inj {A} (a b : A) : Ok a = Ok b -> a = b.
Proof. congruence. Qed.
(** ** Branin *)
Lemma PI_pow4 : 81 < PI * PI * (PI * PI).
Proof. pose proof PI_gt3. assert (9 < PI * PI) by nra. nra. Qed.
Lemma branin_default_at : exists v, value branin_default [- PI; 2275 / 1000] v /\ 10000 < v.
Proof.
  pose proof PI_gt3. pose proof PI_le4. pose proof PI_pow4. eexists. split.
  - unfold value, branin_default. cbv zeta.
    change (rassert (bool_decide (length (map Some [- PI; 2275 / 1000]) = 2%nat))) with (Ok tt : outcome unit). cbn [mbind outcome_bind]. 
    change (index (map Some [- PI; 2275 / 1000]) 0) with (Ok (Some (- PI))). change (index (map Some [- PI; 2275 / 1000]) 1) with (Ok (Some (2275 / 1000))). cbn [mbind outcome_bind].
    apply (f_equal (@Ok (option R))). ev2. reflexivity.
  - cbv beta. rewrite cos_neg, cos_PI. set (w := 2275 / 1000 - _ + _ - 6).
    assert (E : w = 2275 / 1000 - 51 / 40 * (PI * PI * (PI * PI)) - 5 - 6) by (subst w; field; lra). 
    assert (w < -110) by lra. nra.
Qed.
Lemma branin_rcos_at : exists v, value branin_rcos [- (32 / 10); 1253 / 100] v /\ 10000 < v.
Proof.
  pose proof PI_gt3. pose proof PI_le4. eexists. split; [val @branin_rcos|].
  pose proof (cos_le1 (- (32 / 10))). set (c := cos _) in *. set (w := 1253 / 100 - _ + _ - 6).
  assert (E : w = 1253 / 100 - 13056 / 1000 * (PI * PI) - 16 / PI - 6) by (subst w; field; lra).
  assert (0 < 16 / PI) by (apply Rdiv_lt_0_compat; lra). assert (9 < PI * PI) by nra. assert (w < -110) by lra.
  assert (-1 <= (1 - 1 / 8 * PI) * c) by nra. nra.
Qed.
(** ** Values of one sign *)
Lemma keane_nonneg x v : length x = 2%nat -> value keane x v -> 0 <= v.
Proof.
  intros H. apply len2 in H as (a & b & ->). unfold value, keane. refine (fun H => _). 
  change (Ok (powi (nsin (Some a - Some b)) 2 * powi (nsin (Some a + Some b)) 2 / nsqrt (powi (Some a) 2 + powi (Some b) 2))%num = Ok (Some v)) in H.
  apply Ok_inj in H. revert H. ev. rewrite e_sqrt by nn. set (r := R_sqrt.sqrt _). destruct (Req_dec r 0) as [->|Hr]; [rewrite e_div0; discriminate|].
  rewrite e_div by exact Hr. intros [= <-]. assert (0 < r) by (pose proof (sqrt_pos (a * a + b * b)); subst r; lra).
  apply le_div; [assumption|]. rewrite Rmult_0_l. nn.
Qed.
Lemma paviani_loop (x : list R) r s : 
  exists q, foldl (fun (t : option R * option R) arg => (t.1 + (powi (nln (arg - # 2)) 2 + powi (nln (# 10 - arg)) 2), t.2 * arg)%num) (Some r, Some 0) (map Some x) = (q, Some 0)
  /\ (forall v, q = Some v -> r <= v) /\ foldl (fun (t : option R * option R) arg => (t.1 + (powi (nln (arg - # 2)) 2 + powi (nln (# 10 - arg)) 2), t.2 * arg)%num) (None, Some s) (map Some x) = (None, Some (foldl Rmult s x)).
Proof.
  revert r s. induction x as [|a x IH]; intros r s.
  - exists (Some r). split; [reflexivity|]. split; [intros v [= ->]; lra|reflexivity].
  - cbn [map foldl fst snd]. destruct (nadd (Some r) _) as [r'|] eqn:E.
    + rewrite e_mul, Rmult_0_l. destruct (IH r' (s * a)) as (q & Hq & Hv & Hn). exists q. split; [exact Hq|]. split; [|rewrite e_mul; exact Hn].
      intros v Hqv. apply Hv in Hqv. revert E. ev.
      destruct (Rlt_dec 0 (a - 2)); [rewrite e_ln by assumption|cbn; destruct (Rlt_dec 0 (a - 2)); [contradiction|discriminate]].
      destruct (Rlt_dec 0 (10 - a)); [rewrite e_ln by assumption|cbn; destruct (Rlt_dec 0 (a - 2)); destruct (Rlt_dec 0 (10 - a)); try contradiction; discriminate].
      ev. intros [= <-]. pose proof (sqr_nonneg (ln (a - 2))). pose proof (sqr_nonneg (ln (10 - a))). lra.
    + exists None. rewrite !e_mul, Rmult_0_l. destruct (IH r 0) as (_ & _ & _ & Hn). destruct (IH r (s * a)) as (_ & _ & _ & Hn').
      split; [rewrite Hn; f_equal; f_equal|split; [discriminate|exact Hn']].
      clear. induction x as [|b x IH]; [reflexivity|]. cbn [foldl]. rewrite Rmult_0_l. exact IH.
Qed.
Lemma paviani_nonneg x v : length x = 10%nat -> value paviani x v -> 0 <= v.
Proof.
  intros H. unfold value, paviani. rewrite (rassert_true (bool_decide (length (map Some x) = 10%nat))) by (apply bool_decide_eq_true; rewrite map_length; exact H).
  cbn [mbind outcome_bind]. rewrite (e_int 0). destruct (paviani_loop x 0 0) as (q & -> & Hq & _). cbv beta iota zeta. intros E. apply Ok_inj in E. revert E.
  ev. rewrite e_powf0 by lra. destruct q as [q|]; [|discriminate]. ev. intros [= <-]. specialize (Hq q eq_refl). lra.
Qed.
Lemma schmidt_vetters_value a b c : value schmidt_vetters [a; b; c]
  (1 / (1 + (a - b) * (a - b)) + sin ((PI * b + c) / 2) + exp (((a + b) / 2 - 2) * ((a + b) / 2 - 2))).
Proof. val @schmidt_vetters. Qed.
Lemma schmidt_vetters_at : exists v, value schmidt_vetters [78547 / 100000; 78547 / 100000; 78547 / 100000] v /\ 33 / 10 < v.
Proof.
  eexists. split; [apply schmidt_vetters_value|]. set (t := (_ + _) / 2 - 2). pose proof (sin_le1 ((PI * (78547 / 100000) + 78547 / 100000) / 2)).
  replace (1 / (1 + (78547 / 100000 - 78547 / 100000) * (78547 / 100000 - 78547 / 100000))) with 1 by field.
  assert (T : 147 / 100 <= t * t) by (subst t; lra). pose proof (exp_ineq1_le (t * t / 3)).
  assert (E : exp (t * t) = exp (t * t / 3) * exp (t * t / 3) * exp (t * t / 3)) by (rewrite <- !exp_plus; f_equal; lra).
  assert (149 / 100 <= exp (t * t / 3)) by lra. set (e := exp (t * t / 3)) in *. assert (149 / 100 * (149 / 100) <= e * e) by nra. 
  assert (149 / 100 * (149 / 100) * (149 / 100) <= e * e * e) by nra. rewrite E. lra.
Qed.
Lemma schmidt_vetters_below : value schmidt_vetters [2; 2; - (3 * PI)] 1.
Proof.
  pose proof (schmidt_vetters_value 2 2 (- (3 * PI))) as V. replace ((PI * 2 + - (3 * PI)) / 2) with (- (PI / 2)) in V by lra.
  rewrite sin_neg, sin_PI2 in V. replace (((2 + 2) / 2 - 2) * ((2 + 2) / 2 - 2)) with 0 in V by lra. rewrite exp_0 in V.
  match type of V with value _ _ ?e => replace e with 1 in V by field end. exact V.
Qed.
Lemma testtube_holder_above x v : length x = 2%nat -> value testtube_holder x v -> -5 < v.
Proof.
  revert x v. eapply all2; [val @testtube_holder|]. intros a b. cbv beta. set (u := Rabs _).
  assert (U : 0 <= u <= 1 / 200).
  { subst u. split; [apply Rabs_pos|]. pose proof (cos_le1 (a * a + b * b)). apply Rabs_le. lra. }
  assert (exp u < 5 / 4).
  { pose proof (exp_ineq1_le (- u)) as E. rewrite exp_Ropp in E. pose proof (exp_pos u). assert (F : (1 - u) * exp u <= 1).
    { replace 1 with (/ exp u * exp u) at 2 by (field; lra). apply Rmult_le_compat_r; lra. } nra. }
  pose proof (exp_pos u). pose proof (sin_le1 a). pose proof (cos_le1 b). assert (-1 <= sin a * cos b <= 1) by nra. nra.
Qed.
Lemma trigonometric2_at n : (2 <= n)%nat -> value trigonometric2 (constant n (9 / 10)) (1 + INR n * cos (9 / 10)) /\ 1 < 1 + INR n * cos (9 / 10).
Proof.
  intros Hn. split.
  - unfold value, trigonometric2. rewrite atleast_map by (rewrite repeat_length'; exact Hn). cbn [mbind outcome_bind]. rewrite index_some by (rewrite repeat_length'; lia). cbn [mbind outcome_bind]. 
    rewrite nth_constant by lia. cbv zeta. rewrite (e_int 0). rewrite (sum_loop _ cos Some) by (intros; apply e_cos).
    rewrite (sum_loop _ (fun _ => 0) Some).
    + ev. f_equal. f_equal. unfold constant. rewrite !rsum_repeat. lra.
    + intros a Ha. apply in_constant in Ha. subst a. ev. f_equal. replace (9 / 10 - 9 / 10) with 0 by lra. rewrite Rmult_0_r, !Rmult_0_r, sin_0. lra.
  - assert (0 < cos (9 / 10)) by (apply cos_gt_0; pose proof PI_gt3; lra). assert (2 <= INR n) by (apply (le_INR 2); exact Hn). nra.
Qed.
Lemma e_powi_neg a p : a <> 0 -> powi (Some a) (Zneg p) = Some (1 / a ^ Pos.to_nat p).
Proof. intros H. unfold powi. rewrite e_int, powi_pos_R, Rmult_1_l. apply e_div. apply pow_nonzero, H. Qed.
Lemma exp_pow t n : exp t ^ n = exp (INR n * t).
Proof. induction n as [|n IH]; [cbn; rewrite Rmult_0_l, exp_0; reflexivity|]. rewrite <- tech_pow_Rmult, IH, <- exp_plus, S_INR. f_equal. lra. Qed.
Lemma exp2_at : exists v, value exp2 [1; 10] v /\ 0 < v.
Proof.
  eexists. split.
  - unfold value, exp2. run. rewrite (e_int 0). apply (nloop _ (fun i => (exp (- INR i / 10) - 1) * (exp (- INR i / 10) - 1))). intros i Hi. apply in_seq_bounds in Hi.
    assert (Z.quot (- Z.of_nat i) 10 = 0)%Z as -> by (apply Z.quot_small_iff; lia).
    assert (E : powi (Some (exp 1)) (- Z.of_nat i) = Some (exp (- INR i))).
    { destruct i as [|i]; [lia|]. change (- Z.of_nat (S i))%Z with (Zneg (Pos.of_succ_nat i)). rewrite (e_powi_neg (exp 1)) by (pose proof (exp_pos 1); lra). f_equal.
      rewrite SuccNat2Pos.id_succ, exp_pow, Rmult_1_r, exp_Ropp. unfold Rdiv. lra. }
    ev. rewrite E. change (powi (Some (exp 1)) 0) with (nlit (T := option R) 1 1). ev2. f_equal.
    replace (-1 * INR i * 1 / 10) with (- INR i / 10) by lra. replace (-1 * INR i * 10 / 10) with (- INR i) by lra. ring.
  - rewrite Rplus_0_l. cbn [seq rsum foldr].
    assert (P : forall t, t < 0 -> 0 < (exp t - 1) * (exp t - 1)) by (intros t Ht; assert (exp t < 1) by (rewrite <- exp_0; apply exp_increasing, Ht); nra).
    apply Rplus_lt_le_0_compat; [apply P; cbn; lra|]. repeat (apply Rplus_le_le_0_compat; [nn|]). lra.
Qed.
