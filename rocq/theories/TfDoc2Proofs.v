(** * Documented minima that are not the minima of the code (continued) *)
From Coq Require Import Lra Lia Psatz.
From Verif Require Export TfDocProofs.
Open Scope R_scope.

Lemma nloop {A} (g : A -> option R) (h : A -> R) l c : (forall i, i ∈ l -> g i = Some (h i)) ->
  foldl (fun r i => nadd r (g i)) (Some c) l = Some (c + rsum h l).
Proof. intros H. rewrite <- (map_id l) at 1. apply (sum_loop g h (fun i => i)). exact H. Qed.
Lemma rsum_ge_in {A} (h : A -> R) m l : (forall a, a ∈ l -> m <= h a) -> INR (length l) * m <= rsum h l.
Proof.
  induction l as [|a l IH]; intros H; [cbn; lra|]. cbn [length rsum foldr]. rewrite S_INR.
  assert (Ha := H a ltac:(constructor)). assert (INR (length l) * m <= rsum h l) by (apply IH; intros; apply H; constructor; assumption). unfold rsum in *. lra.
Qed.
Lemma exp_sum_ge2 t : 2 <= exp t + exp (- t).
Proof. pose proof (exp_ineq1_le t). pose proof (exp_ineq1_le (- t)). lra. Qed.
Lemma sq_ge a m : 0 <= m -> (m <= a \/ a <= - m) -> m * m <= a * a.
Proof. intros Hm [H|H]; nra. Qed.

(** ** Damavandi *)
Definition dama (a b : R) : R := sin (PI * (a - 2)) * sin (PI * (b - 2)) / (PI * PI) * (a - 2) * (b - 2).
Lemma damavandi_value a b : value damavandi [a; b]
  ((1 - dama a b * dama a b * (dama a b * dama a b) * dama a b) * (2 + (a - 7) * (a - 7) + 2 * ((b - 7) * (b - 7)))).
Proof.
  unfold value, damavandi. run. ev. pose proof PI_gt3. rewrite e_div by nra. ev. reflexivity.
Qed.
Lemma damavandi_at : value damavandi [-1; 1] 138.
Proof.
  pose proof (damavandi_value (-1) 1) as V. assert (E : dama (-1) 1 = 0).
  { unfold dama. replace (PI * (-1 - 2)) with (IZR (-3) * PI) by lra. rewrite sin_kpi. unfold Rdiv. lra. }
  rewrite E in V. match type of V with value _ _ ?e => replace e with 138 in V by lra end. exact V.
Qed.
Lemma sin_odd_half k : sin (PI * (INR k * 2 + 1 / 2)) = 1.
Proof. replace (PI * (INR k * 2 + 1 / 2)) with (PI / 2 + 2 * INR k * PI) by lra. rewrite sin_period. apply sin_PI2. Qed.
Lemma above b : exists k : nat, b < INR k.
Proof.
  destruct (archimed b) as [H _]. exists (Z.to_nat (up b)). rewrite INR_IZR_INZ. destruct (Z_le_gt_dec 0 (up b)).
  - rewrite Z2Nat.id by lia. exact H.
  - apply Rlt_le_trans with (IZR (up b)); [exact H|]. apply IZR_le. lia.
Qed.
Lemma damavandi_unbounded : unbounded_below damavandi 2.
Proof.
  intros b. destruct (below b) as (t & Ht & Hb). destruct (above (4 * t)) as (k & Hk).
  exists [2 + (INR k * 2 + 1 / 2); 2 + (INR k * 2 + 1 / 2)]. eexists. split; [reflexivity|]. split; [apply damavandi_value|].
  set (u := INR k * 2 + 1 / 2) in *. set (d := dama _ _).
  assert (E : d = u * u / (PI * PI)).
  { subst d. unfold dama. replace (2 + u - 2) with u by lra. subst u. rewrite sin_odd_half. field. pose proof PI_gt3. lra. }
  assert (Hd : 1 + t <= d).
  { rewrite E. pose proof PI_gt3. pose proof PI_le4. apply le_div; [nra|]. assert (PI * PI <= 16) by nra. assert (8 * t <= u) by (subst u; lra). 
    assert (64 * (t * t) <= u * u) by nra. assert (t <= t * t) by nra. nra. }
  set (q := 2 + _ + _). assert (2 <= q) by (subst q; pose proof (sqr_nonneg (2 + u - 7)); lra).
  assert (1 <= d * d * (d * d)) by (assert (1 <= d * d) by nra; nra). assert (1 + t <= d * d * (d * d) * d) by nra. nra.
Qed.

(** ** Biggs EXP *)
Lemma biggs_term t : 100 <= (0 - 5 * exp (- t) - 0 - 5 * exp t) * (0 - 5 * exp (- t) - 0 - 5 * exp t).
Proof. pose proof (exp_sum_ge2 t). nra. Qed.
Lemma cancel_sq p q t : q = exp (- t) -> 100 <= (p - 5 * q - p - 5 * exp t) * (p - 5 * q - p - 5 * exp t).
Proof. intros ->. pose proof (biggs_term t). lra. Qed.
Lemma tenth_exp i : exp (- (1 / 10) * INR i * 10) = exp (- INR i).
Proof. f_equal. lra. Qed.
Lemma biggs_exp2_at : exists v, value biggs_exp2 [1; 10] v /\ 1000 <= v.
Proof.
  eexists. split.
  - unfold value, biggs_exp2. run. rewrite (e_int 0). apply nloop. intros i _. ev. reflexivity.
  - rewrite Rplus_0_l. replace 1000 with (INR (length (seq 1 10)) * 100) by (cbn; lra).
    apply rsum_ge_in. intros i _. rewrite Rmult_1_r. apply cancel_sq, tenth_exp.
Qed.
Lemma biggs_exp3_at : exists v, value biggs_exp3 [1; 10; 5] v /\ 1000 <= v.
Proof.
  eexists. split.
  - unfold value, biggs_exp3. run. rewrite (e_int 0). apply nloop. intros i _. ev. reflexivity.
  - rewrite Rplus_0_l. replace 1000 with (INR (length (seq 1 10)) * 100) by (cbn; lra).
    apply rsum_ge_in. intros i _. rewrite Rmult_1_r. apply cancel_sq, tenth_exp.
Qed.
Lemma biggs_exp4_at : exists v, value biggs_exp4 [1; 10; 1; 5] v /\ 1000 <= v.
Proof.
  eexists. split.
  - unfold value, biggs_exp4. run. rewrite (e_int 0). apply nloop. intros i _. ev. reflexivity.
  - rewrite Rplus_0_l. replace 1000 with (INR (length (seq 1 10)) * 100) by (cbn; lra).
    apply rsum_ge_in. intros i _. rewrite Rmult_1_r, Rmult_1_l. apply cancel_sq, tenth_exp.
Qed.
Lemma biggs_term5 p q r s : 0 <= q -> 2 <= r -> s <= 1 -> 49 <= (p - 5 * q - p - 5 * r + 3 * s) * (p - 5 * q - p - 5 * r + 3 * s).
Proof. intros. nra. Qed.
Lemma biggs_r i e : (1 <= i)%nat -> 0 <= e -> 2 <= exp (INR i + e).
Proof. intros Hi He. assert (1 <= INR i) by (apply (le_INR 1); exact Hi). pose proof (exp_ineq1_le (INR i + e)). lra. Qed.
Lemma biggs_s i : exp (- (4 / 10) * INR i) <= 1.
Proof. apply exp_le1. pose proof (pos_INR i). lra. Qed.
Lemma biggs_exp5_at : exists v, value biggs_exp5 [1; 10; 1; 5; 4] v /\ 490 <= v.
Proof.
  eexists. split.
  - unfold value, biggs_exp5. run. rewrite (e_int 0). apply nloop. intros i _. ev. reflexivity.
  - rewrite Rplus_0_l. replace 490 with (INR (length (seq 1 10)) * 49) by (cbn; lra).
    apply rsum_ge_in. intros i Hi. apply in_seq_bounds in Hi. rewrite Rmult_1_r, Rmult_1_l. apply biggs_term5; [left; apply exp_pos| |apply biggs_s].
    apply biggs_r; [lia|]. pose proof (exp_pos (- (1 / 10) * 4)). lra.
Qed.
Lemma run6 (k : option R -> option R -> option R -> option R -> option R -> option R -> option R) a b c d e f :
  (_ ← rassert (bool_decide (length (map Some [a; b; c; d; e; f]) = 6%nat)); x1 ← index (map Some [a; b; c; d; e; f]) 0; x2 ← index (map Some [a; b; c; d; e; f]) 1;
   x3 ← index (map Some [a; b; c; d; e; f]) 2; x4 ← index (map Some [a; b; c; d; e; f]) 3; x5 ← index (map Some [a; b; c; d; e; f]) 4;
   x6 ← index (map Some [a; b; c; d; e; f]) 5; Ok (k x1 x2 x3 x4 x5 x6))
  = Ok (k (Some a) (Some b) (Some c) (Some d) (Some e) (Some f)).
Proof. reflexivity. Qed.
Lemma biggs_exp6_at : exists v, value biggs_exp6 [1; 10; 1; 5; 4; 3] v /\ 539 <= v.
Proof.
  eexists. split.
  - unfold value, biggs_exp6. refine (eq_trans (run6 _ _ _ _ _ _ _) _). cbv beta. apply (f_equal (@Ok (option R))).
    rewrite (e_int 0). apply nloop. intros i _. ev. reflexivity.
  - rewrite Rplus_0_l. replace 539 with (INR (length (seq 1 11)) * 49) by (cbn; lra).
    apply rsum_ge_in. intros i Hi. apply in_seq_bounds in Hi. rewrite Rmult_1_r, Rmult_1_l. apply biggs_term5; [left; apply exp_pos| |apply biggs_s].
    apply biggs_r; [lia|]. pose proof (exp_pos (- (1 / 10) * 4)). lra.
Qed.
Lemma box_betts_positive x v : length x = 3%nat -> value box_betts x v -> 0 < v.
Proof.
  revert x v. eapply all3.
  - intros a b c. unfold value, box_betts. run. rewrite (e_int 0). apply nloop. intros i _. ev. reflexivity.
  - intros a b c. cbv beta. cbn [seq rsum foldr].
    assert (P : forall p q r, 0 < (exp p + exp q + exp r) * (exp p + exp q + exp r)) by (intros p q r; pose proof (exp_pos p); pose proof (exp_pos q); pose proof (exp_pos r); nra).
    rewrite Rplus_0_l. repeat (apply Rplus_lt_le_0_compat; [apply P|]). assert (Q := P). 
    repeat first [apply Rplus_le_le_0_compat | apply Rle_refl | left; apply P].
Qed.
