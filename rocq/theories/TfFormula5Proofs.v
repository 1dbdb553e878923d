(** * The formulas computed by the remaining test functions *)
From Coq Require Import Lra Lia Psatz.
From Verif Require Export TfFormula4Proofs TfDoc3Proofs.
Open Scope R_scope.

Lemma seq_Sum a n (h : nat -> R) m : n = (m + 1 - a)%nat -> 0 + rsum h (seq a n) = Sum a m h.
Proof. intros ->. rewrite Sum_rsum. lra. Qed.
(** ** Fixed numbers of variables *)
Lemma biggs_exp2_formula : forall x1 x2, value biggs_exp2 [x1; x2] (Sum 1 10 (fun i =>
  (exp (- (1 / 10) * INR i * x1) - 5 * exp (- (1 / 10) * INR i * x2) - exp (- (1 / 10) * INR i) - 5 * exp (INR i)) ^ 2)).
Proof.
  intros. eapply value_eq.
  - unfold value, biggs_exp2. run. rewrite (e_int 0). apply nloop. intros i _. ev. reflexivity.
  - rewrite (seq_Sum 1 10 _ 10 eq_refl). apply Sum_ext. intros i _. cbv beta. rewrite pw2. reflexivity.
Qed.
Lemma biggs_exp3_formula : forall x1 x2 x3, value biggs_exp3 [x1; x2; x3] (Sum 1 10 (fun i =>
  (exp (- (1 / 10) * INR i * x1) - x3 * exp (- (1 / 10) * INR i * x2) - exp (- (1 / 10) * INR i) - 5 * exp (INR i)) ^ 2)).
Proof.
  intros. eapply value_eq.
  - unfold value, biggs_exp3. run. rewrite (e_int 0). apply nloop. intros i _. ev. reflexivity.
  - rewrite (seq_Sum 1 10 _ 10 eq_refl). apply Sum_ext. intros i _. cbv beta. rewrite pw2. reflexivity.
Qed.
Lemma biggs_exp4_formula : forall x1 x2 x3 x4, value biggs_exp4 [x1; x2; x3; x4] (Sum 1 10 (fun i =>
  (x3 * exp (- (1 / 10) * INR i * x1) - x4 * exp (- (1 / 10) * INR i * x2) - exp (- (1 / 10) * INR i) - 5 * exp (INR i)) ^ 2)).
Proof.
  intros. eapply value_eq.
  - unfold value, biggs_exp4. run. rewrite (e_int 0). apply nloop. intros i _. ev. reflexivity.
  - rewrite (seq_Sum 1 10 _ 10 eq_refl). apply Sum_ext. intros i _. cbv beta. rewrite pw2. reflexivity.
Qed.
Lemma biggs_exp5_formula : forall x1 x2 x3 x4 x5, value biggs_exp5 [x1; x2; x3; x4; x5] (Sum 1 10 (fun i =>
  (x3 * exp (- (1 / 10) * INR i * x1) - x4 * exp (- (1 / 10) * INR i * x2) - exp (- (1 / 10) * INR i)
   - 5 * exp (INR i + 3 * exp (- (1 / 10) * x5)) + 3 * exp (- (4 / 10) * INR i)) ^ 2)).
Proof.
  intros. eapply value_eq.
  - unfold value, biggs_exp5. run. rewrite (e_int 0). apply nloop. intros i _. ev. reflexivity.
  - rewrite (seq_Sum 1 10 _ 10 eq_refl). apply Sum_ext. intros i _. cbv beta. rewrite pw2. reflexivity.
Qed.
Lemma biggs_exp6_formula : forall x1 x2 x3 x4 x5 x6, value biggs_exp6 [x1; x2; x3; x4; x5; x6] (Sum 1 11 (fun i =>
  (x3 * exp (- (1 / 10) * INR i * x1) - x4 * exp (- (1 / 10) * INR i * x2) - exp (- (1 / 10) * INR i)
   - 5 * exp (INR i + x6 * exp (- (1 / 10) * x5)) + 3 * exp (- (4 / 10) * INR i)) ^ 2)).
Proof.
  intros. eapply value_eq.
  - unfold value, biggs_exp6. refine (eq_trans (run6 _ _ _ _ _ _ _) _). cbv beta. apply (f_equal (@Ok (option R))).
    rewrite (e_int 0). apply nloop. intros i _. ev. reflexivity.
  - rewrite (seq_Sum 1 11 _ 11 eq_refl). apply Sum_ext. intros i _. cbv beta. rewrite pw2. reflexivity.
Qed.
Lemma box_betts_formula : forall x1 x2 x3, value box_betts [x1; x2; x3] (Sum 0 2 (fun i =>
  (exp (- (1 / 10) * INR (i + 1) * x1) + exp (- (1 / 10) * INR (i + 1) * x2) + exp (x3 * (- (1 / 10) * INR i) - exp (- INR (i + 1)))) ^ 2)).
Proof.
  intros. eapply value_eq.
  - unfold value, box_betts. run. rewrite (e_int 0). apply nloop. intros i _. ev. reflexivity.
  - rewrite (seq_Sum 0 3 _ 2 eq_refl). apply Sum_ext. intros i _. cbv beta. rewrite pw2. replace (-1 * INR (i + 1)) with (- INR (i + 1)) by lra. reflexivity.
Qed.
Lemma exp2_formula : forall x1 x2, value exp2 [x1; x2] (Sum 1 9 (fun i =>
  (exp (- INR i * x1 / 10) - 5 * exp (- INR i * x2 / 10) - 1 + 5 * exp (- INR i)) ^ 2)).
Proof.
  intros x1 x2. eapply value_eq.
  - unfold value, exp2. run. rewrite (e_int 0). apply (nloop _ (fun i => (exp (- INR i * x1 / 10) - 5 * exp (- INR i * x2 / 10) - 1 + 5 * exp (- INR i)) ^ 2)). intros i Hi. apply in_seq_bounds in Hi.
    assert (Z.quot (- Z.of_nat i) 10 = 0)%Z as -> by (apply Z.quot_small_iff; lia).
    assert (E : powi (Some (exp 1)) (- Z.of_nat i) = Some (exp (- INR i))).
    { destruct i as [|i]; [lia|]. change (- Z.of_nat (S i))%Z with (Zneg (Pos.of_succ_nat i)). rewrite (e_powi_neg (exp 1)) by (pose proof (exp_pos 1); lra). f_equal.
      rewrite SuccNat2Pos.id_succ, exp_pow, Rmult_1_r, exp_Ropp. unfold Rdiv. lra. }
    ev. rewrite E. change (powi (Some (exp 1)) 0) with (nlit (T := option R) 1 1). ev2. f_equal. rewrite pw2.
    replace (-1 * INR i * x1 / 10) with (- INR i * x1 / 10) by lra. replace (-1 * INR i * x2 / 10) with (- INR i * x2 / 10) by lra. ring.
  - rewrite (seq_Sum 1 9 _ 9 eq_refl). reflexivity.
Qed.
Lemma e_min a b : nmin (Some a) (Some b) = Some (Rmin a b).
Proof. reflexivity. Qed.
Lemma brad_formula : forall x1 x2 x3, (forall i, (i <= 14)%nat -> INR (16 - i) * x2 + Rmin (INR i) (INR (16 - i)) * x3 <> 0) ->
  value brad [x1; x2; x3] (Sum 0 14 (fun i => ((14 / 100 - x1 - INR i) / (INR (16 - i) * x2 + Rmin (INR i) (INR (16 - i)) * x3)) ^ 2)).
Proof.
  intros x1 x2 x3 H. eapply value_eq.
  - unfold value, brad. run. cbv zeta. rewrite (e_int 0). apply (nloop _ (fun i => ((14 / 100 - x1 - INR i) / (INR (16 - i) * x2 + Rmin (INR i) (INR (16 - i)) * x3)) ^ 2)).
    intros i Hi. apply in_seq_bounds in Hi. rewrite !e_nat, e_min. ev. rewrite e_div by (apply H; lia). ev. f_equal. ring.
  - rewrite (seq_Sum 0 15 _ 14 eq_refl). reflexivity.
Qed.
Lemma devilliers_glasser2_formula : forall x1 x2 x3 x4 x5, 0 < x2 -> value devilliers_glasser2 [x1; x2; x3; x4; x5] (Sum 1 24 (fun i => let t := 1 / 10 * INR (i - 1) in
  (x1 * Rpower x2 t * tanh (x3 * t + sin (x4 * t)) * cos (t * exp x5)
   - 5381 / 100 * Rpower (127 / 100) t * tanh (3012 / 1000 * t + sin (213 / 100 * t)) * cos (exp (507 / 1000) * t)) ^ 2)).
Proof.
  intros x1 x2 x3 x4 x5 Hx. eapply value_eq.
  - unfold value, devilliers_glasser2. run. rewrite (e_int 0). apply nloop. intros i _. ev. rewrite !e_powf by lra. ev. reflexivity.
  - rewrite (seq_Sum 1 24 _ 24 eq_refl). apply Sum_ext. intros i _. cbv beta zeta. rewrite pw2, !Rmult_assoc. reflexivity.
Qed.
Lemma paviani_formula x : length x = 10%nat -> (forall i, (1 <= i <= 10)%nat -> 2 < coord x i < 10) ->
  value paviani x (Sum 1 10 (fun i => ln (coord x i - 2) ^ 2 + ln (10 - coord x i) ^ 2)).
Proof.
  intros Hx H. eapply value_eq.
  - unfold value, paviani. rewrite (rassert_true (bool_decide (length (map Some x) = 10%nat))) by (apply bool_decide_eq_true; rewrite map_length; exact Hx).
    cbn [mbind outcome_bind]. rewrite (e_int 0).
    assert (E : forall l c, (forall a, a ∈ l -> 2 < a < 10) -> foldl (fun (t : option R * option R) arg => (t.1 + (powi (nln (arg - # 2)) 2 + powi (nln (# 10 - arg)) 2), t.2 * arg)%num) (Some c, Some 0) (map Some l)
      = (Some (c + rsum (fun a => ln (a - 2) ^ 2 + ln (10 - a) ^ 2) l), Some 0)).
    { induction l as [|a l IH]; intros c Hl; cbn [map foldl fst snd]; [unfold rsum; cbn; rewrite Rplus_0_r; reflexivity|].
      assert (2 < a < 10) by (apply Hl; constructor).
      assert (E1 : (Some c + (powi (nln (Some a - # 2)) 2 + powi (nln (# 10 - Some a)) 2))%num = Some (c + (ln (a - 2) ^ 2 + ln (10 - a) ^ 2))) by (ev; rewrite !e_ln by lra; ev; f_equal; ring).
      rewrite E1, e_mul, Rmult_0_l, IH by (intros b Hb; apply Hl; constructor; exact Hb).
      f_equal. f_equal. cbn [rsum foldr]. unfold rsum. ring. }
    rewrite E; [cbv beta iota zeta; ev; rewrite e_powf0 by lra; ev; reflexivity|].
    intros a Ha. apply elem_of_list_lookup in Ha as [i Hi]. pose proof (lookup_lt_Some _ _ _ Hi) as Hl. apply nth_lookup_Some with (d := 0) in Hi.
    specialize (H (S i) ltac:(lia)). unfold coord in H. replace (S i - 1)%nat with i in H by lia. rewrite Hi in H. exact H.
  - rewrite Rplus_0_l, Rminus_0_r, sum_coord, Hx. reflexivity.
Qed.
Lemma pen_holder_formula : forall x1 x2, cos x1 <> 0 -> cos x2 <> 0 -> (x1 <> 0 \/ x2 <> 0) ->
  value pen_holder [x1; x2] (- exp (/ Rabs (cos x1 * cos x2 * exp (Rabs (1 - Rpower (x1 ^ 2 + x2 ^ 2) (1 / 2 / PI)))))).
Proof.
  intros x1 x2 H1 H2 H. assert (P : 0 < x1 * x1 + x2 * x2) by (destruct H; nra). eapply value_eq.
  - unfold value, pen_holder. run. ev. rewrite e_div by exact PI_nz. rewrite e_powf by exact P. ev. rewrite e_powi_neg.
    + ev. reflexivity.
    + apply Rabs_no_R0. pose proof (exp_pos (Rabs (1 - Rpower (x1 * x1 + x2 * x2) (5 / 10 / PI)))). repeat apply Rmult_integral_contrapositive_currified; try assumption. lra.
  - cbv beta. rewrite !pw2. replace (5 / 10) with (1 / 2) by lra. change (Pos.to_nat 1) with 1%nat. rewrite pow_1.
    set (q := Rabs (cos x1 * _ * _)). replace (1 / q) with (/ q) by (unfold Rdiv; lra). lra.
Qed.
Lemma ripple_exp a : a <> 1 -> 0 < 2 * ((a - 1) / (8 / 10) * ((a - 1) / (8 / 10))).
Proof. intros H. assert (a - 1 <> 0) by lra. set (t := (a - 1) / (8 / 10)). assert (t <> 0) by (unfold t; apply Rmult_integral_contrapositive_currified; [assumption|apply Rinv_neq_0_compat; lra]). nra. Qed.
Lemma ripple_loop (h : R -> R) (g : option R -> option R) a b : g (Some a) = Some (h a) -> g (Some b) = Some (h b) ->
  foldl (fun r y => nadd r (g y)) (Some 0) (map Some [a; b]) = Some (h a + h b).
Proof. intros Ha Hb. cbn [map foldl]. rewrite Ha, Hb, !e_add. f_equal. lra. Qed.
Lemma exp_m2ln q : 0 < q -> exp (- (2) * ln q) = / q ^ 2.
Proof. intros H. rewrite pw2. replace (- (2) * ln q) with (- (ln q + ln q)) by lra. rewrite exp_Ropp, exp_plus, !exp_ln by exact H. reflexivity. Qed.
(** e^(-2 ln (2 t²)) = 1 / (4 t⁴) with t = (x - 1) / 0.8 *)
Lemma ripple1_formula : forall x1 x2, x1 <> 1 -> x2 <> 1 ->
  let term a := - (sin (5 * PI * a) ^ 6 + 1 / 10 * cos (500 * PI * a) ^ 2) / (2 * ((a - 1) / (8 / 10)) ^ 2) ^ 2 in
  value ripple1 [x1; x2] (term x1 + term x2).
Proof.
  intros x1 x2 H1 H2 term. unfold value, ripple1. change (rassert _) with (@Ok unit tt). cbn [mbind outcome_bind]. apply (f_equal (@Ok (option R))). rewrite (e_int 0).
  apply (ripple_loop term (fun arg => _)).
  - ev. rewrite e_div by lra. ev. rewrite e_ln by (apply ripple_exp, H1). ev. f_equal. rewrite exp_m2ln by (apply ripple_exp, H1). unfold term. rewrite !pw6, !pw2. unfold Rdiv. ring.
  - ev. rewrite e_div by lra. ev. rewrite e_ln by (apply ripple_exp, H2). ev. f_equal. rewrite exp_m2ln by (apply ripple_exp, H2). unfold term. rewrite !pw6, !pw2. unfold Rdiv. ring.
Qed.
Lemma ripple25_formula : forall x1 x2, x1 <> 1 -> x2 <> 1 ->
  let term a := - sin (5 * PI * a) ^ 6 / (2 * ((a - 1) / (8 / 10)) ^ 2) ^ 2 in
  value ripple25 [x1; x2] (term x1 + term x2).
Proof.
  intros x1 x2 H1 H2 term. unfold value, ripple25. change (rassert _) with (@Ok unit tt). cbn [mbind outcome_bind]. apply (f_equal (@Ok (option R))). rewrite (e_int 0).
  apply (ripple_loop term (fun arg => _)).
  - ev. rewrite e_div by lra. ev. rewrite e_ln by (apply ripple_exp, H1). ev. f_equal. rewrite exp_m2ln by (apply ripple_exp, H1). unfold term. rewrite !pw6, !pw2. unfold Rdiv. ring.
  - ev. rewrite e_div by lra. ev. rewrite e_ln by (apply ripple_exp, H2). ev. f_equal. rewrite exp_m2ln by (apply ripple_exp, H2). unfold term. rewrite !pw6, !pw2. unfold Rdiv. ring.
Qed.

(** ** Any number of variables *)
Lemma coord_in x a : a ∈ x -> exists i, (1 <= i <= length x)%nat /\ a = coord x i.
Proof.
  intros Ha. apply elem_of_list_lookup in Ha as [i Hi]. pose proof (lookup_lt_Some _ _ _ Hi) as Hl. apply nth_lookup_Some with (d := 0) in Hi.
  exists (S i). split; [lia|]. unfold coord. replace (S i - 1)%nat with i by lia. congruence.
Qed.
Lemma pred_pos n : (2 <= n)%nat -> INR (n - 1) <> 0.
Proof. intros H. apply not_0_INR. lia. Qed.
Lemma deb1_formula x : (2 <= length x)%nat -> value deb1 x (- (1 / INR (length x - 1)) * Sum 1 (length x) (fun i => sin (5 * PI * coord x i) ^ 6)).
Proof.
  intros Hx. eapply value_eq.
  - unfold value, deb1. cbv zeta. rewrite (nonempty_map x) by lia. cbn [mbind outcome_bind]. rewrite (e_int 0). rewrite (sum_loop _ (fun a => sin (5 * PI * a) ^ 6) Some).
    + rewrite map_length. ev. rewrite e_div by (apply pred_pos, Hx). ev. reflexivity.
    + intros a _. ev. f_equal. ring.
  - cbv beta. rewrite Rplus_0_l, sum_coord. unfold Rdiv. ring.
Qed.
Lemma deb3_formula x : (2 <= length x)%nat -> (forall i, (1 <= i <= length x)%nat -> 0 < coord x i) ->
  value deb3 x (- (1 / INR (length x - 1)) * Sum 1 (length x) (fun i => sin (5 * PI * (Rpower (coord x i) (3 / 4) - 5 / 100)) ^ 6)).
Proof.
  intros Hx Hp. eapply value_eq.
  - unfold value, deb3. cbv zeta. rewrite (nonempty_map x) by lia. cbn [mbind outcome_bind]. rewrite (e_int 0). rewrite (sum_loop _ (fun a => sin (5 * PI * (Rpower a (3 / 4) - 5 / 100)) ^ 6) Some).
    + rewrite map_length. ev. rewrite e_div by (apply pred_pos, Hx). ev. reflexivity.
    + intros a Ha. apply coord_in in Ha as (i & Hi & ->). specialize (Hp i Hi). ev. rewrite e_powf by exact Hp. ev. f_equal. replace (75 / 100) with (3 / 4) by lra. ring.
  - cbv beta. rewrite Rplus_0_l, sum_coord. unfold Rdiv. ring.
Qed.
Lemma brown_formula x : (1 <= length x)%nat -> (forall i, (1 <= i <= length x)%nat -> coord x i <> 0) ->
  value brown x (Sum 1 (length x - 1) (fun i => Rpower (coord x i ^ 2) (coord x (i + 1) ^ 2 + 1) + Rpower (coord x (i + 1) ^ 2) (coord x i ^ 2 + 1))).
Proof.
  intros Hx Hp. eapply value_eq.
  - unfold value, brown. rewrite (nonempty_map x Hx). cbn [mbind outcome_bind]. rewrite (e_int 0), map_length.
    rewrite (osum_loop _ (fun i => Rpower (nth i x 0 * nth i x 0) (nth (i + 1) x 0 * nth (i + 1) x 0 + 1) + Rpower (nth (i + 1) x 0 * nth (i + 1) x 0) (nth i x 0 * nth i x 0 + 1)));
      [reflexivity|]. intros r i Hi. apply in_seq_bounds in Hi. idx x. ev.
    pose proof (Hp (i + 1)%nat ltac:(lia)) as H1. pose proof (Hp (i + 2)%nat ltac:(lia)) as H2. unfold coord in H1, H2. replace (i + 1 - 1)%nat with i in H1 by lia. replace (i + 2 - 1)%nat with (i + 1)%nat in H2 by lia.
    rewrite !e_powf by nra. ev. reflexivity.
  - cbv beta. rewrite Rplus_0_l, sum_seq0 by lia. apply Sum_ext. intros i Hi. unfold coord. replace (i + 1 - 1)%nat with (i - 1 + 1)%nat by lia. rewrite !pw2. reflexivity.
Qed.
Lemma sum_seq_inner (h : nat -> R) n : (3 <= n)%nat -> rsum h (seq 1 (n - 3)) = Sum 2 (n - 2) (fun i => h (i - 1)%nat).
Proof. intros Hn. rewrite Sum_rsum. replace (n - 2 + 1 - 2)%nat with (n - 3)%nat by lia. rewrite (rsum_shift _ 1). apply rsum_ext. intros i _. f_equal. lia. Qed.
Lemma pathological_formula x : (3 <= length x)%nat ->
  value pathological x (Sum 2 (length x - 2) (fun i => 1 / 2 + (sin (R_sqrt.sqrt (100 * coord x i ^ 2 + coord x (i + 1) ^ 2)) ^ 2 - 1 / 2)
    / (1 + 1 / 1000 * (coord x i ^ 2 - 2 * coord x i * coord x (i + 1) + coord x (i + 1) ^ 2) ^ 2))).
Proof.
  intros Hx. eapply value_eq.
  - unfold value, pathological. rewrite (atleast_map x 2) by lia. cbn [mbind outcome_bind]. rewrite (e_int 0), map_length.
    rewrite (osum_loop _ (fun i => 5 / 10 + (sin (R_sqrt.sqrt (100 * (nth i x 0 * nth i x 0) + nth (i + 1) x 0 * nth (i + 1) x 0)) ^ 2 - 5 / 10)
      / (1 + 1 / 1000 * (nth i x 0 * nth i x 0 - 2 * nth i x 0 * nth (i + 1) x 0 + nth (i + 1) x 0 * nth (i + 1) x 0) ^ 2))); [reflexivity|].
    intros r i Hi. apply in_seq_bounds in Hi. idx x. ev. rewrite e_sqrt by nn. ev. rewrite e_div.
    + ev. rewrite !pw2. reflexivity.
    + apply Rgt_not_eq, Rplus_lt_le_0_compat; [lra|nn].
  - cbv beta. rewrite Rplus_0_l, sum_seq_inner by exact Hx. apply Sum_ext. intros i Hi. unfold coord. replace (i + 1 - 1)%nat with (i - 1 + 1)%nat by lia. rewrite !pw2.
    replace (5 / 10) with (1 / 2) by lra. reflexivity.
Qed.
(** The published sum runs over the coordinates 4i-3, 4i-2, 4i-1, 4i; the code, whose indices start from 0, takes the next four. *)
Lemma powell_formula x : (3 < length x)%nat -> (length x mod 4 <> 0)%nat ->
  value powell x (Sum 1 (length x / 4) (fun i => (coord x (4 * i - 2) + 10 * coord x (4 * i - 1)) ^ 2 + 5 * (coord x (4 * i) - coord x (4 * i + 1)) ^ 2
    + (coord x (4 * i - 1) - 2 * coord x (4 * i)) ^ 4 + 10 * (coord x (4 * i - 2) - coord x (4 * i + 1)) ^ 4)).
Proof.
  intros Hx Hm. eapply value_eq.
  - unfold value, powell. rewrite (rassert_true (bool_decide (3 < length (map Some x))%nat)) by (apply bool_decide_eq_true; rewrite map_length; exact Hx).
    cbn [mbind outcome_bind]. rewrite (e_int 0), map_length.
    rewrite (osum_loop _ (fun i => (coord x (4 * i - 2) + 10 * coord x (4 * i - 1)) ^ 2 + 5 * (coord x (4 * i) - coord x (4 * i + 1)) ^ 2
    + (coord x (4 * i - 1) - 2 * coord x (4 * i)) ^ 4 + 10 * (coord x (4 * i - 2) - coord x (4 * i + 1)) ^ 4)); [reflexivity|].
    intros r i Hi. apply in_seq_bounds in Hi. pose proof (Nat.div_mod_eq (length x) 4). idx x. ev. unfold coord.
    replace (4 * i - 2 - 1)%nat with (4 * i - 3)%nat by lia. replace (4 * i - 1 - 1)%nat with (4 * i - 2)%nat by lia. replace (4 * i + 1 - 1)%nat with (4 * i)%nat by lia.
    rewrite !pw4, !pw2. reflexivity.
  - cbv beta. rewrite (seq_Sum 1 _ _ (length x / 4)) by lia. reflexivity.
Qed.
Lemma powell2_formula x : (3 < length x)%nat ->
  value powell2 x (Sum 1 (length x - 4) (fun i => (coord x i + 10 * coord x (i + 1)) ^ 2 + 5 * (coord x (i + 2) - coord x (i + 3)) ^ 2
    + (coord x (i + 1) - 2 * coord x (i + 2)) ^ 4 + (coord x i - coord x (i + 3)) ^ 4)).
Proof.
  intros Hx. eapply value_eq.
  - unfold value, powell2. rewrite (rassert_true (bool_decide (3 < length (map Some x))%nat)) by (apply bool_decide_eq_true; rewrite map_length; exact Hx).
    cbn [mbind outcome_bind]. rewrite (e_int 0), map_length.
    rewrite (osum_loop _ (fun i => (coord x i + 10 * coord x (i + 1)) ^ 2 + 5 * (coord x (i + 2) - coord x (i + 3)) ^ 2
    + (coord x (i + 1) - 2 * coord x (i + 2)) ^ 4 + (coord x i - coord x (i + 3)) ^ 4)); [reflexivity|].
    intros r i Hi. apply in_seq_bounds in Hi. idx x. ev. unfold coord.
    replace (i + 1 - 1)%nat with i by lia. replace (i + 2 - 1)%nat with (i + 1)%nat by lia. replace (i + 3 - 1)%nat with (i + 2)%nat by lia.
    rewrite !pw4, !pw2, Rmult_1_l. reflexivity.
  - cbv beta. rewrite (seq_Sum 1 _ _ (length x - 4)) by lia. reflexivity.
Qed.
Lemma power_sum_formula x b : length b = length x ->
  power_sum (map Some x) (map Some b) = Ok (Some (Sum 1 (length x) (fun i => (Sum 1 (length x) (fun j => coord x j ^ (i - 1)) - coord b i) ^ 2))).
Proof.
  intros H. unfold power_sum. rewrite (rassert_true (bool_decide (length (map Some b) = length (map Some x)))) by (apply bool_decide_eq_true; rewrite !map_length; exact H).
  cbn [mbind outcome_bind]. f_equal. rewrite (e_int 0).
  rewrite (ilist_sum sum_squares (fun p => powi (nsub (foldl (fun sum j => nadd sum (powi j (Z.of_nat p.1))) (Some 0) (map Some x)) p.2) 2)
    (fun p => (Sum 1 (length x) (fun j => coord x j ^ p.1) - p.2) ^ 2)).
  - rewrite sum_icoord, H. reflexivity.
  - intros [i c]. cbn [wrap2 fst snd]. rewrite (sum_loop _ (fun a => a ^ i) Some) by (intros; apply e_powi_nat). ev. rewrite Rplus_0_l, sum_coord, pw2. reflexivity.
Qed.
Lemma trigonometric1_formula x : (2 <= length x)%nat ->
  value trigonometric1 x (Sum 1 (length x) (fun i => (INR (length x) - Sum 1 (length x) (fun j => cos (coord x j)) + INR (i - 1) * (1 - cos (coord x i) - sin (coord x i))) ^ 2)).
Proof.
  intros Hx. eapply value_eq.
  - unfold value, trigonometric1. rewrite (atleast_map x 2 Hx). cbn [mbind outcome_bind]. cbv zeta. rewrite (e_int 0), map_length.
    rewrite (sum_loop _ cos Some) by reflexivity. rewrite Rplus_0_l, (sum_coord cos). set (S0 := Sum _ _ _).
    rewrite (ilist_sum sum_squares (fun p => powi (nadd (nsub (of_nat (length x)) (Some S0)) (nmul (of_nat p.1) (nsub (nsub (nlit 1 1) (ncos p.2)) (nsin p.2)))) 2)
      (fun p => (INR (length x) - S0 + INR p.1 * (1 - cos p.2 - sin p.2)) ^ 2)) by (intros; cbn [wrap2 fst snd]; ev; rewrite pw2; reflexivity). reflexivity.
  - rewrite sum_icoord. reflexivity.
Qed.
Lemma trigonometric2_formula x : (2 <= length x)%nat ->
  value trigonometric2 x (1 + Sum 1 (length x) (fun i => cos (coord x i))
    + Sum 1 (length x) (fun i => 8 * sin (7 * (coord x i - 9 / 10) ^ 2) ^ 2 + 6 * sin (14 * (coord x 1 - 9 / 10) ^ 2) ^ 2 + (coord x i - 9 / 10) ^ 2)).
Proof.
  intros Hx. eapply value_eq.
  - unfold value, trigonometric2. rewrite (atleast_map x 2 Hx). cbn [mbind outcome_bind]. idx x. cbv zeta. rewrite (e_int 0).
    rewrite (sum_loop _ cos Some) by reflexivity.
    rewrite (sum_loop _ (fun a => 8 * sin (7 * (a - 9 / 10) ^ 2) ^ 2 + 6 * sin (14 * (nth 0 x 0 - 9 / 10) ^ 2) ^ 2 + (a - 9 / 10) ^ 2) Some) by (intros; ev; rewrite !pw2; reflexivity).
    ev. reflexivity.
  - cbv beta. rewrite Rplus_0_l, (sum_coord cos), (sum_coord (fun a => _)). unfold coord. change (1 - 1)%nat with 0%nat. cbv beta. lra.
Qed.
(** The inner sum, written outside the loop over j in the published function, is the sum so far. *)
Lemma sargan_inner n dim val : forall (l : list (nat * R)) r s,
  foldl (fun (t : option R * option R) '(j, xj) => let innersum := if decide (dim <> j) then nadd t.2 (nmul (Some val) xj) else t.2 in
      (nadd t.1 (nmul (of_nat n) (nadd (powi (Some val) 2) (nmul (nlit 4 10) innersum))), innersum)) (Some r, Some s) (map wrap2 l)
  = (Some (r + rsum (fun k => INR n * (val ^ 2 + 4 / 10 * (s + rsum (fun p : nat * R => if decide (dim = p.1) then 0 else val * p.2) (take (S k) l)))) (seq 0 (length l))),
     Some (s + rsum (fun p : nat * R => if decide (dim = p.1) then 0 else val * p.2) l)).
Proof.
  induction l as [|[j a] l IH]; intros r s; [cbn; rewrite !Rplus_0_r; reflexivity|]. cbn [map foldl wrap2 fst snd]. cbv zeta.
  set (u := if decide (dim = j) then 0 else val * a).
  assert (E : (if decide (dim <> j) then nadd (Some s) (nmul (Some val) (Some a)) else Some s) = Some (s + u)).
  { unfold u. destruct (decide (dim = j)), (decide (dim <> j)); try contradiction; [rewrite Rplus_0_r; reflexivity|ev; reflexivity]. }
  rewrite E. clear E. 
  assert (E : nadd (Some r) (nmul (of_nat n) (nadd (powi (Some val) 2) (nmul (nlit 4 10) (Some (s + u))))) = Some (r + INR n * (val ^ 2 + 4 / 10 * (s + u)))) by (ev; rewrite pw2; reflexivity).
  rewrite E, IH. clear E IH. f_equal; f_equal.
  - cbn [length seq rsum foldr]. fold (rsum (fun k => INR n * (val ^ 2 + 4 / 10 * (s + rsum (fun p : nat * R => if decide (dim = p.1) then 0 else val * p.2) (take (S k) ((j, a) :: l))))) (seq 1 (length l))).
    rewrite rsum_shift. rewrite (rsum_ext _ (fun k => INR n * (val ^ 2 + 4 / 10 * (s + rsum (fun p : nat * R => if decide (dim = p.1) then 0 else val * p.2) (take (S (S k)) ((j, a) :: l))))))
      by (intros k _; cbn [take rsum foldr fst snd]; fold u; unfold rsum; ring).
    match goal with |- _ + rsum ?g ?m = _ => generalize (rsum g m) end. intros Q. change (take 1 ((j, a) :: l)) with [(j, a)]. cbn [rsum foldr fst snd]. fold u. ring.
  - cbn [rsum foldr fst snd]. fold u. unfold rsum. ring.
Qed.
Lemma rsum_take_Sum (g : nat * R -> R) x k : (k <= length x)%nat -> rsum g (take k (imap pair x)) = Sum 1 k (fun i => g ((i - 1)%nat, coord x i)).
Proof.
  intros Hk. rewrite (rsum_nth g _ (0%nat, 0)), take_length, imap_length, Nat.min_l by exact Hk. rewrite Sum_rsum. replace (k + 1 - 1)%nat with k by lia. rewrite rsum_shift. apply rsum_ext.
  intros i Hi%in_seq_bounds. unfold coord. replace (S i - 1)%nat with i by lia. f_equal. rewrite <- nth_imap by lia.
  transitivity (nth i (take k (imap pair x) ++ drop k (imap pair x)) (0%nat, 0)); [rewrite app_nth1 by (rewrite take_length, imap_length; lia); reflexivity|rewrite take_drop; reflexivity].
Qed.
Lemma sargan_formula x : let d := length x in
  value sargan x (Sum 1 d (fun i => Sum 1 d (fun j => INR d * (coord x i ^ 2 + 4 / 10 * Sum 1 j (fun k => if Nat.eq_dec k i then 0 else coord x i * coord x k))))).
Proof.
  intros d. unfold value, sargan. f_equal. rewrite (e_int 0), map_length, imap_wrap.
  assert (E : forall (l : list (nat * R)) r, foldl (fun (res : option R) '(dim, val) =>
    fst (foldl (fun t '(j, xj) => let innersum := if decide (dim <> j) then nadd t.2 (nmul val xj) else t.2 in
        (nadd t.1 (nmul (of_nat (length x)) (nadd (powi val 2) (nmul (nlit 4 10) innersum))), innersum)) (res, Some 0) (map wrap2 (imap pair x)))) (Some r) (map wrap2 l)
    = Some (r + rsum (fun q : nat * R => Sum 1 d (fun j => INR d * (q.2 ^ 2 + 4 / 10 * Sum 1 j (fun k => if Nat.eq_dec (k - 1)%nat q.1 then 0 else q.2 * coord x k)))) l)).
  { induction l as [|[i a] l IH]; intros r; cbn [map foldl wrap2 fst snd]; [cbn; rewrite Rplus_0_r; reflexivity|].
    rewrite sargan_inner. cbn [fst]. rewrite IH. f_equal. cbn [rsum foldr fst snd]. rewrite <- Rplus_assoc. f_equal. f_equal.
    rewrite imap_length. fold d. rewrite Sum_rsum. replace (d + 1 - 1)%nat with d by lia. rewrite rsum_shift. apply rsum_ext. intros k Hk%in_seq_bounds.
    rewrite Rplus_0_l, rsum_take_Sum by (unfold d in Hk; lia). f_equal. f_equal. f_equal. apply Sum_ext. intros m _. cbn [fst snd].
    destruct (decide (i = (m - 1)%nat)), (Nat.eq_dec (m - 1)%nat i); congruence. }
  rewrite E. f_equal. rewrite Rplus_0_l, sum_icoord. apply Sum_ext. intros i Hi. cbn [fst snd]. apply Sum_ext. intros j Hj. f_equal. f_equal. f_equal. apply Sum_ext. intros k Hk.
  destruct (Nat.eq_dec (k - 1)%nat (i - 1)%nat), (Nat.eq_dec k i); try reflexivity; lia.
Qed.
(** ** Gulf research: the first term takes the logarithm of 0 *)
Lemma none_loop {A} (g : A -> option R) (l : list A) : foldl (fun r a => nadd r (g a)) None l = None.
Proof. induction l as [|a l IH]; [reflexivity|]. exact IH. Qed.
Lemma gulf_research_undefined x : length x = 99%nat -> undefined_at gulf_research x.
Proof.
  intros Hx. destruct x as [|x1 x]; [discriminate|]. destruct x as [|x2 x]; [discriminate|]. destruct x as [|x3 x]; [discriminate|].
  unfold undefined_at, gulf_research. rewrite (rassert_true (bool_decide (length (map Some (x1 :: x2 :: x3 :: x)) = 99%nat))) by (apply bool_decide_eq_true; rewrite map_length; exact Hx).
  cbn [mbind outcome_bind]. rewrite (index_some (x1 :: x2 :: x3 :: x) 2) by (cbn; lia). cbn [mbind outcome_bind]. f_equal. cbn [map imap foldl].
  assert (E : nln (nmul (nlit 1 100) (of_nat 0)) = (None : option R)).
  { ev. replace (1 / 100 * INR 0) with 0 by (cbn; lra). cbn. unfold rln. cbn. destruct (Rlt_dec 0 0); [lra|reflexivity]. }
  rewrite E. clear E. match goal with |- foldl _ ?c _ = _ => replace c with (None : option R) end.
  - rewrite (foldl_ext' _ (fun r p => nadd r ((fun '(i, xi) => powi (nexp (ndiv (nmul (nneg (nlit 1 1)) (npowf (nadd (nlit 25 1) (npowf (nmul (nneg (nlit 50 1)) (nln (nmul (nlit 1 100) (of_nat i)))) (ndiv (nlit 1 1) (nlit 15 10)))) (Some (nth 2 (x1 :: x2 :: x3 :: x) 0)))) xi)) 2) p))) by (intros ? []; reflexivity).
    apply none_loop.
  - symmetry. ev. reflexivity.
Qed.
(** ** Langermann *)
(** The squared distance of x from the i-th (from 0) of the given points *)
Definition lm_dist (x : list R) (a : list (list R)) (i : nat) : R := Sum 1 (length x) (fun j => (coord x j - coord (nth i a []) j) ^ 2).
Lemma langermann_formula x m c a : (m < length c)%nat -> (m < length a)%nat -> (forall row, row ∈ a -> (length x <= length row)%nat) ->
  (forall i, (1 <= i <= m)%nat -> lm_dist x a i <> 0) ->
  langermann (map Some x) m (map Some c) (map (map Some) a)
  = Ok (Some (Sum 1 m (fun i => coord c (i + 1) * exp (- PI / lm_dist x a i) * cos (PI * lm_dist x a i)))).
Proof.
  intros Hc Ha Hr Hd. unfold langermann. rewrite (e_int 0).
  rewrite (osum_loop _ (fun i => coord c (i + 1) * exp (- PI / lm_dist x a i) * cos (PI * lm_dist x a i))).
  - rewrite (seq_Sum 1 _ _ m) by lia. reflexivity.
  - intros r i Hi%in_seq_bounds. rewrite imap_wrap.
    destruct (lookup_lt_is_Some_2 a i ltac:(lia)) as [row Hrow].
    assert (El : length x = length (imap (@pair nat R) x)) by (rewrite imap_length; reflexivity).
    assert (E : index (map (map Some) a) i = Ok (map Some row)).
    { unfold index. assert (L : map (map Some) a !! i = map Some <$> (a !! i)) by apply (list_lookup_fmap (map Some) a i). rewrite L, Hrow. reflexivity. }
    rewrite E. clear E. cbn [mbind outcome_bind].
    assert (En : nth i a [] = row) by (apply nth_lookup_Some, Hrow).
    assert (Hl : (length x <= length row)%nat) by (apply Hr; apply elem_of_list_lookup; eauto).
    assert (Ei : forall (l : list (nat * R)) s, (forall p, p ∈ l -> (p.1 < length row)%nat) -> ofold (fun (inner : option R) '(j, xj) => aij ← index (map Some row) j; Ok (nadd inner (powi (nsub xj aij) 2))) (Some s) (map wrap2 l)
      = Ok (Some (s + rsum (fun p : nat * R => (p.2 - nth p.1 row 0) ^ 2) l))).
    { induction l as [|[j b] l IH]; intros s Hs; cbn [map ofold wrap2 fst snd]; [cbn; rewrite Rplus_0_r; reflexivity|].
      rewrite (index_some row) by (apply (Hs (j, b)); constructor). cbn [mbind outcome_bind]. rewrite e_sub, e_powi2, e_add.
      rewrite IH by (intros p Hp; apply Hs; constructor; exact Hp). f_equal. f_equal. cbn [rsum foldr fst snd]. unfold rsum. ring. }
    rewrite Ei.
    2:{ intros [j b] Hp. apply elem_of_lookup_imap in Hp as (j' & b' & [= -> ->] & Hj). apply lookup_lt_Some in Hj. cbn. lia. }
    cbn [mbind outcome_bind]. rewrite (index_some c) by lia. cbn [mbind outcome_bind].
    assert (Dd : 0 + rsum (fun p : nat * R => (p.2 - nth p.1 row 0) ^ 2) (imap pair x) = lm_dist x a i).
    { rewrite Rplus_0_l, sum_icoord. unfold lm_dist. rewrite En. reflexivity. }
    rewrite Dd. specialize (Hd i ltac:(lia)). ev. rewrite e_div by exact Hd. ev. f_equal. f_equal. unfold coord. replace (i + 1 - 1)%nat with i by lia.
    replace (-1 * PI / lm_dist x a i) with (- PI / lm_dist x a i) by (unfold Rdiv; ring). ring.
Qed.
Lemma ofold_panic {A B} (f : A -> B -> outcome A) l : (forall s b, f s b <> Diverge) -> (exists b, b ∈ l /\ forall s, f s b = Panic) -> forall s, ofold f s l = Panic.
Proof.
  intros Hn. induction l as [|b l IH]; intros (b0 & Hb & Hp) s; [inversion Hb|]. cbn [ofold]. destruct (f s b) as [s'| |] eqn:E.
  - cbn. apply IH. exists b0. split; [|exact Hp]. apply elem_of_cons in Hb as [->|Hb]; [|exact Hb]. rewrite Hp in E. discriminate.
  - reflexivity.
  - destruct (Hn _ _ E).
Qed.
Lemma ofold_live {A B} (f : A -> B -> outcome A) l : (forall s b, f s b <> Diverge) -> forall s, ofold f s l <> Diverge.
Proof. intros Hn. induction l as [|b l IH]; intros s; cbn [ofold]; [discriminate|]. destruct (f s b) eqn:E; cbn; [apply IH|discriminate|destruct (Hn _ _ E)]. Qed.
Lemma index_live {A} (l : list A) i : index l i <> Diverge.
Proof. unfold index. destruct (l !! i); discriminate. Qed.
Lemma langermann_panics x m c a : (1 <= m)%nat -> length c = m -> langermann (T := option R) x m c a = Panic.
Proof.
  intros Hm Hc. unfold langermann.
  assert (Hi : forall i inner, ofold (fun (inner : option R) '(j, xj) => ai ← index a i; aij ← index ai j; Ok (nadd inner (powi (nsub xj aij) 2))) inner (imap pair x) <> Diverge).
  { intros i inner. apply ofold_live. intros s [j b]. destruct (index a i) as [ai| |] eqn:E; cbn; [|discriminate|destruct (index_live _ _ E)].
    destruct (index ai j) eqn:E'; cbn; [discriminate|discriminate|destruct (index_live _ _ E')]. }
  apply ofold_panic.
  - intros s i. destruct (ofold _ _ (imap pair x)) eqn:E; cbn; [|discriminate|destruct (Hi _ _ E)]. destruct (index c i) eqn:E'; cbn; [discriminate|discriminate|destruct (index_live _ _ E')].
  - exists m. split; [apply elem_of_seq; lia|]. intros s. destruct (ofold _ _ (imap pair x)) eqn:E; cbn; [|reflexivity|destruct (Hi _ _ E)].
    assert (index c m = Panic) as -> by (unfold index; rewrite lookup_ge_None_2 by lia; reflexivity). reflexivity.
Qed.
