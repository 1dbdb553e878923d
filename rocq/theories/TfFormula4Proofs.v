(** * Points at which test functions differ from the published functions of the same name *)
From Coq Require Import Lra Lia Psatz.
From Verif Require Export TfFormula3Proofs.
Open Scope R_scope.

Lemma wolfe_formula x1 x2 x3 : x1 <> 0 \/ x2 <> 0 -> value wolfe [x1; x2; x3] (Rpower (x1 ^ 2 + x2 ^ 2 - x1 * x2) (75 / 100) + x3).
Proof.
  intros H. eapply value_eq.
  - unfold value, wolfe. run. ev. rewrite e_powf; [ev; reflexivity|]. pose proof (sq_pos _ _ H). pose proof (sqr_nonneg (x1 - x2)). lra.
  - change (4 / 3)%Z with 1%Z. rewrite !pw2. ring.
Qed.
Ltac at_point H := eexists; split; [exact H|].
Lemma six_hump_camel_differs : exists v, value six_hump_camel [-1; 0] v /\ v <> (4 - 21 / 10 * (-1) ^ 2 + (-1) ^ 4 / 3) * (-1) ^ 2 + -1 * 0 + (- 4 + 4 * 0 ^ 2) * 0 ^ 2.
Proof. at_point (six_hump_camel_formula (-1) 0). lra. Qed.
Lemma inv_pi_small : 0 < / PI < 1 / 3.
Proof. pose proof PI_gt3. split; [apply Rinv_0_lt_compat; lra|]. apply Rmult_lt_reg_r with PI; [lra|]. rewrite Rinv_l by lra. lra. Qed.
Lemma branin_default_differs : exists v, value branin_default [0; 6] v /\ v <> (6 - 51 / 10 / (4 * PI ^ 2) * 0 ^ 2 + 5 / PI * 0 - 6) ^ 2 + 10 * (1 - 1 / (8 * PI)) * cos 0 + 10.
Proof.
  at_point (branin_default_formula 0 6). rewrite cos_0. pose proof PI_gt3. pose proof inv_pi_small. replace (1 / (8 * PI)) with (1 / 8 * / PI) by (field; lra). lra.
Qed.
Lemma branin_rcos_differs : exists v, value branin_rcos [0; 6] v /\ v <> (6 - 51 / 10 / (4 * PI ^ 2) * 0 ^ 2 + 5 / PI * 0 - 6) ^ 2 + 10 * (1 - 1 / (8 * PI)) * cos 0 + 10.
Proof.
  at_point (branin_rcos_formula 0 6). rewrite cos_0. pose proof PI_gt3. pose proof inv_pi_small. replace (1 / (8 * PI)) with (1 / 8 * / PI) by (field; lra). lra.
Qed.
Lemma branin_rcos2_differs : exists v, value branin_rcos2 [0; PI] v /\
  v <> (PI - 51 / 10 / (4 * PI ^ 2) * 0 ^ 2 + 5 / PI * 0 - 6) ^ 2 + 10 * (1 - 1 / (8 * PI)) * cos 0 * cos PI * ln (0 ^ 2 + PI ^ 2 + 1) + 10.
Proof.
  at_point (branin_rcos2_formula 0 PI). rewrite cos_0, cos_PI. pose proof PI_gt3 as HP. pose proof inv_pi_small. replace (1 / (8 * PI)) with (1 / 8 * / PI) by (field; lra).
  assert (HL : 0 < ln (0 ^ 2 + PI ^ 2 + 1)) by (rewrite <- ln_1; apply ln_increasing; nra).
  intros E. assert (HE : (PI - / PI) * ln (0 ^ 2 + PI ^ 2 + 1) = 0) by nra. apply Rmult_integral in HE. lra.
Qed.
Lemma half_pi_sin : sin (PI * (5 / 2 - 2)) = 1.
Proof. replace (PI * (5 / 2 - 2)) with (PI / 2) by lra. apply sin_PI2. Qed.
Lemma damavandi_differs : exists v, value damavandi [5 / 2; 5 / 2] v /\
  v <> (1 - Rabs (sin (PI * (5 / 2 - 2)) * sin (PI * (5 / 2 - 2)) / (PI ^ 2 * (5 / 2 - 2) * (5 / 2 - 2))) ^ 5) * (2 + (5 / 2 - 7) ^ 2 + 2 * (5 / 2 - 7) ^ 2).
Proof.
  at_point (damavandi_formula (5 / 2) (5 / 2)). rewrite half_pi_sin. pose proof inv_pi_small as [I1 I2]. pose proof PI_gt3.
  replace (1 * 1 / PI ^ 2 * (5 / 2 - 2) * (5 / 2 - 2)) with (1 / 4 * (/ PI * / PI)) by (field; lra).
  replace (1 * 1 / (PI ^ 2 * (5 / 2 - 2) * (5 / 2 - 2))) with (4 * (/ PI * / PI)) by (field; lra).
  set (p := / PI * / PI). assert (0 < p) by (unfold p; nra). rewrite Rabs_pos_eq by lra.
  intros E. assert (Hp : p ^ 5 = 0); [|pose proof (pow_lt p 5 H0); lra]. nra.
Qed.
Lemma deckkers_aarts_differs : exists v, value deckkers_aarts [0; 1] v /\ v <> 100000 * 0 ^ 2 + 1 ^ 2 - (0 ^ 2 + 1 ^ 2) ^ 2 + 1 / 100000 * (0 ^ 2 + 1 ^ 2) ^ 4.
Proof. at_point (deckkers_aarts_formula 0 1). lra. Qed.
Lemma sin_small_pos a : 0 < a -> a < 3 -> 0 < sin a.
Proof. intros. apply sin_gt_0; [assumption|pose proof PI_gt3; lra]. Qed.
Lemma giunta_differs : let g t := sin (16 / 15 * t - 1) + sin (16 / 15 * t - 1) ^ 2 + 2 / 100 * sin (4 * (16 / 15 * t - 1)) in
  exists v, value giunta [1; 1] v /\ v <> 6 / 10 + (g 1 + g 1).
Proof.
  intros g. at_point (giunta_formula 1 1). replace (1 - 1) with 0 by ring. rewrite Rmult_0_r, sin_0. unfold g.
  pose proof (sin_small_pos (16 / 15 * 1 - 1) ltac:(lra) ltac:(lra)). pose proof (sin_small_pos (4 * (16 / 15 * 1 - 1)) ltac:(lra) ltac:(lra)). nra.
Qed.
Lemma gramacy_lee_differs : exists v, gramacy_lee (Some (1 / 20)) = Ok (Some v) /\ v <> sin (10 * PI * (1 / 20)) / (2 * (1 / 20)) + (1 / 20 - 1) ^ 4.
Proof.
  at_point (gramacy_lee_formula (1 / 20)). replace (10 * PI * (1 / 20)) with (PI / 2) by lra. rewrite sin_PI2. lra.
Qed.
Lemma quadratic_differs : exists v, value quadratic [0; 1] v /\
  v <> - (380384 / 100) - 13808 / 100 * 0 - 23292 / 100 * 1 + 12808 / 100 * 0 ^ 2 + 20364 / 100 * 1 ^ 2 + 18225 / 100 * 0 * 1.
Proof. at_point (quadratic_formula 0 1). lra. Qed.
Lemma rosenbrock_modified_differs : exists v, value rosenbrock_modified [-1; 0] v /\
  v <> 74 + 100 * (0 - (-1) ^ 2) ^ 2 + (1 - -1) ^ 2 - 400 * exp (- ((-1 + 1) ^ 2 + (0 + 1) ^ 2) / (1 / 10)).
Proof.
  at_point (rosenbrock_modified_formula (-1) 0).
  replace (- (-1 + 1) ^ 2 + (0 + 1) ^ 2 / (1 / 10)) with 10 by field. replace (- ((-1 + 1) ^ 2 + (0 + 1) ^ 2) / (1 / 10)) with (- 10) by field.
  pose proof (exp_ineq1_le 10). pose proof (exp_le1 (- 10) ltac:(lra)). lra.
Qed.
Lemma rump_differs : exists v, value rump [1; 2] v /\
  v <> (33375 / 100 - 1 ^ 2) * 2 ^ 6 + 1 ^ 2 * (11 * 1 ^ 2 * 2 ^ 2 - 121 * 2 ^ 4 - 2) + 55 / 10 * 2 ^ 8 + 1 / (2 * 2).
Proof. at_point (rump_formula 1 2). lra. Qed.
Lemma schaffer_n3_differs : let a := R_sqrt.sqrt (PI / 2) in
  exists v, value schaffer_n3 [a; 0] v /\ v <> 1 / 2 + (sin (cos (Rabs (a ^ 2 - 0 ^ 2))) ^ 2 - 1 / 2) / (1 + 1 / 1000 * (a ^ 2 + 0 ^ 2)) ^ 2.
Proof.
  intros a. at_point (schaffer_n3_formula a 0). pose proof PI_gt3. pose proof PI_le4.
  replace (a ^ 2) with (PI / 2) by (unfold a; rewrite pow2_sqrt; lra).
  replace (PI / 2 - 0 ^ 2) with (PI / 2) by lra. replace (PI / 2 + 0 ^ 2) with (PI / 2) by lra.
  rewrite Rabs_pos_eq by lra. rewrite cos_PI2, sin_0. set (s := PI / 2). assert (3 / 2 < s <= 2) by (unfold s; lra).
  intros E. assert (E2 : / (1 + 1 / 1000 * s ^ 2) = / (1 + 1 / 1000 * s) ^ 2) by (unfold Rdiv in *; lra).
  apply (f_equal Rinv) in E2. rewrite !Rinv_inv in E2. nra.
Qed.
Lemma schmidt_vetters_differs : exists v, value schmidt_vetters [1; 1; 0] v /\ v <> 1 / (1 + (1 - 1) ^ 2) + sin ((PI * 1 + 0) / 2) + exp (((1 + 1) / 1 - 2) ^ 2).
Proof.
  at_point (schmidt_vetters_formula 1 1 0). replace (((1 + 1) / 2 - 2) ^ 2) with 1 by field. replace (((1 + 1) / 1 - 2) ^ 2) with 0 by field.
  rewrite exp_0. pose proof (exp_ineq1_le 1). lra.
Qed.
Lemma testtube_holder_differs : exists v, value testtube_holder [PI / 2; 0] v /\ v <> - 4 * sin (PI / 2) * cos 0 * exp (Rabs (cos (((PI / 2) ^ 2 + 0 ^ 2) / 200))).
Proof.
  at_point (testtube_holder_formula (PI / 2) 0). rewrite sin_PI2, cos_0. set (s := (PI / 2) ^ 2 + 0 ^ 2). pose proof PI_gt3. pose proof PI_le4.
  assert (0 < s / 200 <= 2 / 100) by (unfold s; nra).
  assert (1 / 2 < cos (s / 200)) by (rewrite <- cos_PI3; apply cos_decreasing_1; lra).
  intros E. assert (E2 : exp (Rabs (cos s / 200)) = exp (Rabs (cos (s / 200)))) by lra. apply exp_inv in E2.
  rewrite (Rabs_pos_eq (cos (s / 200))) in E2 by lra. pose proof (cos_le1 s). assert (Rabs (cos s / 200) <= 1 / 200); [|lra]. apply Rabs_le. lra.
Qed.
Lemma ursem_waves_differs : exists v, value ursem_waves [0; 0] v /\
  v <> - (9 / 10) * 0 ^ 2 + (0 ^ 2 - 45 / 10 * 0 ^ 2) * 0 * 0 + 47 / 10 * cos (3 * 0 - 0 ^ 2 * (2 + 0)) * sin (25 / 10 * PI * 0).
Proof.
  at_point (ursem_waves_formula 0 0). replace (3 * 0 - 0 ^ 2 * (2 + 0)) with 0 by ring. replace (25 / 10 * PI * 0) with 0 by ring. rewrite sin_0, cos_0.
  replace (25 / 10 * PI) with (PI / 2 + 2 * INR 1 * PI) by (cbn; lra). rewrite sin_period, sin_PI2. lra.
Qed.
Lemma wayburn_seader2_differs : exists v, value wayburn_seader2 [0; 0] v /\ v <> (1613 / 1000 - 4 * (0 - 3125 / 10000) ^ 2 - 4 * (0 - 1625 / 1000) ^ 2) ^ 2 + (0 - 1) ^ 2.
Proof. at_point (wayburn_seader2_formula 0 0). lra. Qed.
Lemma wolfe_differs : exists v, value wolfe [1; 0; 0] v /\ v <> 4 / 3 * Rpower (1 ^ 2 + 0 ^ 2 - 1 * 0) (75 / 100) + 0.
Proof.
  at_point (wolfe_formula 1 0 0 ltac:(left; lra)). replace (1 ^ 2 + 0 ^ 2 - 1 * 0) with 1 by ring. unfold Rpower. rewrite ln_1, Rmult_0_r, exp_0. lra.
Qed.
Lemma vss_formula x1 x2 : 0 < cos x2 -> value vss [x1; x2] (x1 ^ 2 - 100 * cos x1 ^ 2 - 100 * cos (x1 ^ 2 / 30) + x2 ^ 2 - 100 * Rpower (cos x2) (2 - 100 * cos (x2 ^ 2 / 30))).
Proof.
  intros H. eapply value_eq.
  - unfold value, vss. run. ev2. rewrite e_powf by exact H. ev2. reflexivity.
  - cbv beta. replace (x2 ^ 2) with (x2 * x2) by ring. replace (x1 ^ 2) with (x1 * x1) by ring. ring.
Qed.
Lemma vss_differs : exists v, value vss [0; 0] v /\ v <> 0 ^ 2 - 100 * cos 0 ^ 2 - 100 * cos (0 ^ 2 / 30) + 0 ^ 2 - 100 * cos 0 ^ 2 - 100 * cos (0 ^ 2 / 30).
Proof.
  eexists. split.
  - unfold value, vss. run. ev2. rewrite cos_0, e_powf by lra. ev2. reflexivity.
  - replace (0 * 0 / 30) with 0 by field. replace (0 ^ 2 / 30) with 0 by field. rewrite !cos_0. unfold Rpower. rewrite ln_1. match goal with |- context [exp (?a * 0)] => replace (a * 0) with 0 by ring end. rewrite exp_0. lra.
Qed.
(** ** Any dimension *)
Lemma salomon_formula x : value salomon x (let s := Sum 1 (length x) (fun i => coord x i ^ 2) in 1 - cos (2 * PI * s) + 1 / 10 * R_sqrt.sqrt s).
Proof.
  eapply value_eq.
  - unfold value, salomon. cbv zeta. rewrite (e_int 0). rewrite (sum_loop _ (fun a => a * a) Some); [|intros a _; apply e_powi2].
    ev. rewrite e_sqrt by (rewrite Rplus_0_l; apply rsum_nonneg; intros; apply sqr_nonneg). ev. reflexivity.
  - cbv zeta. rewrite Rplus_0_l, (sum_coord (fun a => a * a)). rewrite (Sum_ext _ _ (fun i => coord x i ^ 2) (fun i => coord x i * coord x i)) by (intros; ring). reflexivity.
Qed.
Lemma salomon_differs : exists v, value salomon [1 / 2] v /\
  v <> (let s := Sum 1 1 (fun i => coord [1 / 2] i ^ 2) in 1 - cos (2 * PI * R_sqrt.sqrt s) + 1 / 10 * R_sqrt.sqrt s).
Proof.
  at_point (salomon_formula [1 / 2]). cbn [length]. assert (E : Sum 1 1 (fun i => coord [1 / 2] i ^ 2) = 1 / 2 * (1 / 2)) by (unfold Sum, coord; cbn; lra).
  cbv zeta. rewrite E, sqrt_square by lra. replace (2 * PI * (1 / 2 * (1 / 2))) with (PI / 2) by lra. replace (2 * PI * (1 / 2)) with PI by lra.
  rewrite cos_PI2, cos_PI. lra.
Qed.
Ltac coord_sum f h := eapply value_eq;
  [unfold value, f; rewrite (e_int 0); rewrite (sum_loop _ h Some); [reflexivity|intros; ev2; reflexivity]
  |cbv beta; rewrite sum_coord, Rplus_0_l; apply Sum_ext; intros; try reflexivity; try ring].
Lemma alpine_formula x : value alpine x (Sum 1 (length x) (fun i => Rabs (coord x i * sin (coord x i) + 1 / 10 * coord x i))).
Proof. coord_sum @alpine (fun a => Rabs (a * sin a + a / 10)). f_equal. lra. Qed.
Lemma schumer_steiglitz_formula x : value schumer_steiglitz x (Sum 1 (length x) (fun i => coord x i ^ 4)).
Proof. coord_sum @schumer_steiglitz (fun a => a * a * (a * a)). Qed.
Lemma quintic_formula x : value quintic x (Sum 1 (length x) (fun i => let a := coord x i in Rabs (a ^ 5 - 3 * a ^ 4 + 4 * a ^ 3 + 2 * a ^ 2 - 10 * a - 4))).
Proof.
  coord_sum @quintic (fun a => Rabs (a * a * (a * a) * a - 3 * (a * a * (a * a)) + 4 * (a * a * a) + 2 * (a * a) - 10 * a - 4)). cbv zeta. f_equal. ring.
Qed.
Lemma chung_reynolds_formula x : value chung_reynolds x (Sum 1 (length x) (fun i => coord x i ^ 2) ^ 2).
Proof.
  eapply value_eq.
  - unfold value, chung_reynolds. rewrite (e_int 0). rewrite (sum_loop _ (fun a => a * a) Some); [|intros; apply e_powi2]. cbv zeta. ev. reflexivity.
  - cbv beta. rewrite Rplus_0_l, (sum_coord (fun a => a * a)), pw2. rewrite (Sum_ext _ _ (fun i => coord x i ^ 2) (fun i => coord x i * coord x i)) by (intros; ring). reflexivity.
Qed.
Lemma exponential_formula x : value exponential x (- exp (- (1 / 2) * Sum 1 (length x) (fun i => coord x i ^ 2))).
Proof.
  eapply value_eq.
  - unfold value, exponential. rewrite (e_int 0). rewrite (sum_loop _ (fun a => a * a) Some); [|intros; apply e_powi2]. cbv zeta. ev. reflexivity.
  - cbv beta. rewrite Rplus_0_l, (sum_coord (fun a => a * a)). rewrite (Sum_ext _ _ (fun i => coord x i ^ 2) (fun i => coord x i * coord x i)) by (intros; ring).
    replace (5 / 10) with (1 / 2) by lra. lra.
Qed.
Lemma cosine_mixture_formula x : value cosine_mixture x (- (1 / 10) * Sum 1 (length x) (fun i => cos (5 * PI * coord x i)) - Sum 1 (length x) (fun i => coord x i ^ 2)).
Proof.
  eapply value_eq; [apply cosine_mixture_value|]. rewrite !Rplus_0_l, (sum_coord (fun a => a * a)), (sum_coord (fun a => cos (5 * PI * a))).
  rewrite (Sum_ext _ _ (fun i => coord x i ^ 2) (fun i => coord x i * coord x i)) by (intros; ring). reflexivity.
Qed.
Lemma qing_formula x k : qing (map Some x) (Some k) = Ok (Some (Sum 1 (length x) (fun i => (coord x i ^ 2 - k) ^ 2))).
Proof.
  unfold qing. rewrite (e_int 0). rewrite (sum_loop _ (fun a => (a * a - k) * (a * a - k)) Some); [|intros; ev; reflexivity].
  f_equal. f_equal. rewrite Rplus_0_l, (sum_coord (fun a => (a * a - k) * (a * a - k))). apply Sum_ext. intros. ring.
Qed.
Lemma csendes_formula x : (forall i, (1 <= i <= length x)%nat -> coord x i <> 0) -> value csendes x (Sum 1 (length x) (fun i => coord x i ^ 6 * (2 + sin (1 / coord x i)))).
Proof.
  intros H. eapply value_eq.
  - unfold value, csendes. rewrite (e_int 0). rewrite (sum_loop _ (fun a => a * a * a * (a * a * a) * (2 + sin (1 / a))) Some); [reflexivity|].
    intros a Ha. apply elem_of_list_lookup in Ha as [i Hi]. pose proof (lookup_lt_Some _ _ _ Hi) as Hl. apply nth_lookup_Some with (d := 0) in Hi.
    specialize (H (S i) ltac:(lia)). unfold coord in H. replace (S i - 1)%nat with i in H by lia. rewrite Hi in H. ev. rewrite e_div by exact H. ev. reflexivity.
  - rewrite Rplus_0_l, (sum_coord (fun a => a * a * a * (a * a * a) * (2 + sin (1 / a)))). apply Sum_ext. intros. ring.
Qed.
Lemma xin_she_yang_2_formula x : (1 <= length x)%nat -> value xin_she_yang_2 x (Sum 1 (length x) (fun i => Rabs (coord x i)) * exp (- Sum 1 (length x) (fun i => sin (coord x i ^ 2)))).
Proof.
  intros Hx. eapply value_eq.
  - unfold value, xin_she_yang_2. rewrite (nonempty_map x Hx). cbn [mbind outcome_bind]. rewrite (e_int 0).
    rewrite (pair_loop _ _ Rabs (fun a => sin (a * a)) Some); [|reflexivity|intros; ev; reflexivity]. cbv beta iota zeta. ev. reflexivity.
  - rewrite !Rplus_0_l, (sum_coord Rabs), (sum_coord (fun a => sin (a * a))).
    rewrite (Sum_ext _ _ (fun i => sin (coord x i ^ 2)) (fun i => sin (coord x i * coord x i))) by (intros; f_equal; ring). reflexivity.
Qed.
Lemma levy_formula x : (1 <= length x)%nat -> let w i := 1 + (coord x i - 1) / 4 in let d := length x in
  value levy x (sin (PI * w 1%nat) ^ 2 + Sum 1 (d - 1) (fun i => (w i - 1) ^ 2 * (1 + 10 * sin (PI * w i + 1) ^ 2)) + (w d - 1) ^ 2 * (1 + sin (2 * PI * w d) ^ 2)).
Proof.
  intros Hx w d. eapply value_eq.
  - unfold value, levy. rewrite (nonempty_map x Hx). cbn [mbind outcome_bind]. rewrite map_length, !(index_some x) by lia. cbn [mbind outcome_bind]. cbv zeta.
    rewrite (firstn_map Some). ev2.
    rewrite (sum_loop (fun x_i => nmul (powi (nsub (nadd (Some 1) (ndiv (nsub x_i (Some 1)) (Some 4))) (Some 1)) 2) (nadd (Some 1) (nmul (Some 10) (powi (nsin (nadd (nmul (Some PI) (nadd (Some 1) (ndiv (nsub x_i (Some 1)) (Some 4)))) (Some 1))) 2))))
      (fun a => let t := 1 + (a - 1) / 4 in (t - 1) * (t - 1) * (1 + 10 * (sin (PI * t + 1) * sin (PI * t + 1)))) Some); [|intros; ev2; reflexivity].
    ev2. reflexivity.
  - cbv zeta. rewrite (sum_coord (fun a => _)). 
    replace (length (take (length x - 1) x)) with (d - 1)%nat by (rewrite take_length; unfold d; lia).
    set (A := Sum _ _ _). rewrite (Sum_ext 1 (d - 1) (fun i => (w i - 1) ^ 2 * _) (fun i => let t := 1 + (coord (take (length x - 1) x) i - 1) / 4 in (t - 1) * (t - 1) * (1 + 10 * (sin (PI * t + 1) * sin (PI * t + 1))))).
    + subst A. unfold w, coord, d. rewrite !pw2. reflexivity.
    + intros i Hi. unfold w, coord. cbv zeta. rewrite !pw2. replace (nth (i - 1) (take (length x - 1) x) 0) with (nth (i - 1) x 0); [reflexivity|].
      rewrite <- (take_drop (length x - 1) x) at 1. rewrite app_nth1; [reflexivity|]. rewrite take_length. unfold d in *. lia.
Qed.
