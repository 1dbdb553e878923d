(** * More formulas: three to five variables, one variable, and functions that differ from the published ones *)
From Coq Require Import Lra Lia Psatz.
From Verif Require Export TfFormula2Proofs TfDoc2Proofs TfDoc3Proofs.
Open Scope R_scope.

Lemma bartels_conn_formula x1 x2 x3 : value bartels_conn [x1; x2; x3] (Rabs (x1 ^ 2 + x2 ^ 2 + x1 * x2) + Rabs (sin x1) + Rabs (cos x2)).
Proof. eapply value_eq; [val2 @bartels_conn; reflexivity|]. shut. Qed.
Lemma colville_formula x1 x2 x3 x4 : value colville [x1; x2; x3; x4]
  (100 * (x1 ^ 2 - x2) ^ 2 + (x1 - 1) ^ 2 + (x3 - 1) ^ 2 + 90 * (x3 ^ 2 - x4) ^ 2 + 101 / 10 * ((x2 - 1) ^ 2 + (x4 - 1) ^ 2) + 198 / 10 * (x2 - 1) * (x4 - 1)).
Proof. eapply value_eq; [val2 @colville; reflexivity|]. shut. Qed.
Lemma dolan_formula x1 x2 x3 x4 x5 : value dolan [x1; x2; x3; x4; x5]
  ((x1 + 17 / 10 * x2) * sin x1 - 15 / 10 * x3 - 1 / 10 * x4 * cos (x4 + x5 - x1) + 2 / 10 * x5 ^ 2 - x2 - 1).
Proof. eapply value_eq; [val2 @dolan; reflexivity|]. shut. Qed.
Lemma miele_cantrell_formula x1 x2 x3 x4 : cos (x3 - x4) <> 0 -> value miele_cantrell [x1; x2; x3; x4]
  ((exp (- x1) - x2) ^ 4 + 100 * (x2 - x3) ^ 6 + tan (x3 - x4) ^ 4 + x1 ^ 8).
Proof.
  intros H. eapply value_eq.
  - unfold value, miele_cantrell. run. ev. rewrite e_tan by exact H. ev. reflexivity.
  - unfold tan. shut.
Qed.
Lemma sq_pos a b : a <> 0 \/ b <> 0 -> 0 < a * a + b * b.
Proof. intros [H|H]; [pose proof (Rsqr_pos_lt a H) as Hs; pose proof (sqr_nonneg b)|pose proof (Rsqr_pos_lt b H) as Hs; pose proof (sqr_nonneg a)]; unfold Rsqr in Hs; lra. Qed.
Lemma keane_formula x1 x2 : x1 <> 0 \/ x2 <> 0 -> value keane [x1; x2] (sin (x1 - x2) ^ 2 * sin (x1 + x2) ^ 2 / R_sqrt.sqrt (x1 ^ 2 + x2 ^ 2)).
Proof.
  intros H%sq_pos. eapply value_eq.
  - unfold value, keane. run. ev2. rewrite e_div by (apply Rgt_not_eq, sqrt_lt_R0, H). reflexivity.
  - rewrite !pw2. reflexivity.
Qed.
Lemma forrester_formula x : forrester_et_al (Some x) = Ok (Some ((6 * x - 2) ^ 2 * sin (12 * x - 4))).
Proof. unfold forrester_et_al. ev. rewrite pw2. reflexivity. Qed.
Lemma branin_formula a b c r s t x1 x2 :
  branin [Some x1; Some x2] (Some a) (Some b) (Some c) (Some r) (Some s) (Some t) = Ok (Some (a * (x2 - b * x1 ^ 2 + c * x1 - r) ^ 2 + s * (1 - t) * cos x1 + s)).
Proof. unfold branin. change (Some <$> [x1; x2]) with [Some x1; Some x2]. cbn [length]. cbn [bool_decide]. refine (eq_trans (run2 _ x1 x2) _). ev. rewrite !pw2. reflexivity. Qed.

(** ** Functions that differ from the published ones *)
Lemma six_hump_camel_formula : forall x1 x2, value six_hump_camel [x1; x2] ((4 - 21 / 10 * x1 ^ 2 + x1 ^ 3 / 3) * x1 ^ 2 + x1 * x2 + (- 4 + 4 * x2 ^ 2) * x2 ^ 2).
Proof. formula @six_hump_camel. Qed.
Lemma branin_default_formula : forall x1 x2, value branin_default [x1; x2] ((x2 - 51 / 10 / 4 * PI ^ 2 * x1 ^ 2 + 5 / PI * x1 - 6) ^ 2 + 10 * (1 - 1 / 8 * PI) * cos x1 + 10).
Proof.
  intros x1 x2. eapply value_eq.
  - unfold value, branin_default. cbv zeta.
    refine (eq_trans (run2 (fun a b => nadd (nadd (nmul (nlit 1 1) (powi (nsub (nadd (nsub b (nmul (nmul (ndiv (nlit 51 10) (nlit 4 1)) (powi npi 2)) (powi a 2))) (nmul (ndiv (nlit 5 1) npi) a)) (nlit 6 1)) 2)) (nmul (nmul (nlit 10 1) (nsub (nlit 1 1) (nmul (ndiv (nlit 1 1) (nlit 8 1)) npi))) (ncos a))) (nlit 10 1)) x1 x2) _).
    cbv beta. apply (f_equal (@Ok (option R))). ev2. rewrite e_div by exact PI_nz. ev2. reflexivity.
  - cbv beta. rewrite !pw2. ring.
Qed.
Lemma branin_rcos_formula : forall x1 x2, value branin_rcos [x1; x2] ((x2 - 51 / 10 / 4 * PI ^ 2 * x1 ^ 2 + 5 / PI * x1 - 6) ^ 2 + 10 * (1 - 1 / 8 * PI) * cos x1 + 10).
Proof. intros x1 x2. eapply value_eq; [val2 @branin_rcos; reflexivity|]. cbv beta. rewrite !pw2. field. exact PI_nz. Qed.
Lemma branin_rcos2_formula : forall x1 x2, value branin_rcos2 [x1; x2]
  ((x2 - 51 / 10 / 4 * PI ^ 2 * x1 ^ 2 + 5 / PI * x1 - 6) ^ 2 + 10 * (1 - 1 / 8 * PI) * cos x1 * cos x2 * ln (x1 ^ 2 + x2 ^ 2 + 1) + 10).
Proof.
  intros x1 x2. eapply value_eq.
  - val2 @branin_rcos2. rewrite e_ln by (pose proof (sqr_nonneg x1); pose proof (sqr_nonneg x2); lra). ev2. reflexivity.
  - cbv beta. rewrite !pw2. field. exact PI_nz.
Qed.
Lemma damavandi_formula : forall x1 x2, value damavandi [x1; x2]
  ((1 - (sin (PI * (x1 - 2)) * sin (PI * (x2 - 2)) / PI ^ 2 * (x1 - 2) * (x2 - 2)) ^ 5) * (2 + (x1 - 7) ^ 2 + 2 * (x2 - 7) ^ 2)).
Proof. intros x1 x2. eapply value_eq; [apply damavandi_value|]. unfold dama. cbv beta. field. exact PI_nz. Qed.
Lemma deckkers_aarts_formula : forall x1 x2, value deckkers_aarts [x1; x2] (100000 * x1 ^ 2 + x2 ^ 2 - (x1 ^ 2 + x2 ^ 2) ^ 2).
Proof. intros x1 x2. eapply value_eq; [val2 @deckkers_aarts; reflexivity|]. change (1 / 100000)%Z with 0%Z. cbv beta. ring. Qed.
Lemma giunta_formula : forall x1 x2, value giunta [x1; x2]
  ((sin (x1 - 1) + (x1 - 1) ^ 2 + 2 / 100 * sin (4 * (x1 - 1))) + (sin (x2 - 1) + (x2 - 1) ^ 2 + 2 / 100 * sin (4 * (x2 - 1)))).
Proof.
  intros x1 x2. eapply value_eq.
  - unfold value, giunta. change (16 / 15)%Z with 1%Z. cbn [mbind outcome_bind rassert bool_decide length map decide]. cbn. reflexivity.
  - cbv beta. change (1 / 1) with (1 / 1). unfold Rdiv. rewrite Rinv_1, !Rmult_1_r. rewrite !Rmult_1_l, !pw2. ring.
Qed.
Lemma gramacy_lee_formula x : gramacy_lee (Some x) = Ok (Some (sin (10 * PI * x) / 2 * x + (x - 1) ^ 4)).
Proof. unfold gramacy_lee. ev2. rewrite pw4. reflexivity. Qed.
Lemma quadratic_formula : forall x1 x2, value quadratic [x1; x2] (- (380384 / 100) - 13808 / 100 * x1 - 23292 / 100 * x2 + 12808 / 100 * x1 ^ 2 + 2364 / 100 * x2 ^ 2 + 18225 / 100 * x1 * x2).
Proof. formula @quadratic. Qed.
Lemma rosenbrock_modified_formula : forall x1 x2, value rosenbrock_modified [x1; x2]
  (74 + 100 * (x2 - x1 ^ 2) ^ 2 + (1 - x2) ^ 2 - 400 * exp (- (x1 + 1) ^ 2 + (x2 + 1) ^ 2 / (1 / 10))).
Proof. formula @rosenbrock_modified. Qed.
Lemma rump_formula : forall x1 x2, value rump [x1; x2]
  ((33375 / 100 - x1 ^ 2) * x2 ^ 6 + x1 ^ 2 * (11 * x1 ^ 2 * x2 ^ 2 - 121 * x2 ^ 4 - 2) + 55 / 10 * x2 ^ 8 + x1 / 2 * x2).
Proof. formula @rump. Qed.
Lemma schaffer_n3_formula : forall x1 x2, value schaffer_n3 [x1; x2] (1 / 2 + (sin (cos (Rabs (x1 ^ 2 - x2 ^ 2))) ^ 2 - 1 / 2) / (1 + 1 / 1000 * (x1 ^ 2 + x2 ^ 2) ^ 2)).
Proof. formula @schaffer_n3. Qed.
Lemma schmidt_vetters_formula x1 x2 x3 : value schmidt_vetters [x1; x2; x3] (1 / (1 + (x1 - x2) ^ 2) + sin ((PI * x2 + x3) / 2) + exp (((x1 + x2) / 2 - 2) ^ 2)).
Proof. eapply value_eq; [apply schmidt_vetters_value|]. rewrite !pw2. reflexivity. Qed.
Lemma testtube_holder_formula : forall x1 x2, value testtube_holder [x1; x2] (- 4 * sin x1 * cos x2 * exp (Rabs (cos (x1 ^ 2 + x2 ^ 2) / 200))).
Proof. formula @testtube_holder. Qed.
Lemma ursem_waves_formula : forall x1 x2, value ursem_waves [x1; x2]
  (- (9 / 10) * x1 ^ 2 + x1 * x2 * (x2 ^ 2 - 45 / 10 * x2 ^ 2) + 47 / 10 * cos (3 * x1 - x2 ^ 2 * (2 + x1)) * sin (25 / 10 * PI)).
Proof. formula @ursem_waves. Qed.
Lemma wayburn_seader2_formula : forall x1 x2, value wayburn_seader2 [x1; x2]
  ((1613 / 1000 - 4 * (x1 - 3125 / 10000) ^ 2 - 4 * (x2 - 1625 / 1000) ^ 2) ^ 2 + (x1 - 2) ^ 2).
Proof. formula @wayburn_seader2. Qed.
(** The further functions of two variables *)
Lemma bukin_2_formula : forall x1 x2, value bukin_2 [x1; x2] (100 * (x2 - 1 / 100 * x1 ^ 2 + 1) + 1 / 100 * (x1 + 10) ^ 2).
Proof. formula @bukin_2. Qed.
Lemma chen_bird_formula : forall x1 x2, value chen_bird [x1; x2]
  (- (1 / 1000) / ((1 / 1000) ^ 2 + (x1 - 4 / 10 * x2 + 1 / 10) ^ 2) - 1 / 1000 / ((1 / 1000) ^ 2 + (2 * x1 + x2 - 15 / 10) ^ 2)).
Proof. intros x1 x2. eapply value_eq; [val @chen_bird|]. cbv beta. rewrite !pw2. reflexivity. Qed.
Lemma chen_v_formula : forall x1 x2, value chen_v [x1; x2]
  (- (1 / 1000) / ((1 / 1000) ^ 2 + (x1 ^ 2 + x2 ^ 2 - 1) ^ 2) - 1 / 1000 / ((1 / 1000) ^ 2 + (x1 ^ 2 + x2 ^ 2 - 5 / 10) ^ 2) - 1 / 1000 / ((1 / 1000) ^ 2 + (x1 ^ 2 - x2 ^ 2) ^ 2)).
Proof. intros x1 x2. eapply value_eq; [val @chen_v|]. cbv beta. rewrite !pw2. reflexivity. Qed.
Lemma holder_table2_formula : forall x1 x2, value holder_table2 [x1; x2] (- Rabs (cos x1 * cos x2 * exp (Rabs (1 - R_sqrt.sqrt (x1 ^ 2 + x2 ^ 2) / PI)))).
Proof. intros x1 x2. eapply value_eq; [val2 @holder_table2; reflexivity|]. cbv beta. rewrite !pw2. ring. Qed.
Lemma holder_table3_formula : forall x1 x2, value holder_table3 [x1; x2] (- Rabs (cos x1 * cos x2 * exp ((1 - R_sqrt.sqrt (x1 ^ 2 + x2 ^ 2) / PI) ^ 2)) / 30).
Proof.
  intros x1 x2. eapply value_eq; [val2 @holder_table3; reflexivity|]. cbv beta. rewrite !pw2. set (e := (1 - _ / PI)%R).
  rewrite (Rabs_pos_eq (e * e)) by apply sqr_nonneg. unfold Rdiv. rewrite (Rabs_mult _ (/ 30)), (Rabs_pos_eq (/ 30)) by lra. ring.
Qed.
Lemma schaffer_n1_formula : forall x1 x2, value schaffer_n1 [x1; x2] (1 / 2 + (sin (x1 ^ 2 + x2 ^ 2) ^ 2 - 1 / 2) / (1 + 1 / 1000 * (x1 ^ 2 + x2 ^ 2))).
Proof. formula @schaffer_n1. Qed.
Lemma trecanni_formula : forall x1 x2, value trecanni [x1; x2] (x1 ^ 4 - 4 * x1 ^ 3 + 4 * x1 + x2 ^ 2).
Proof. formula @trecanni. Qed.
Lemma ursem3_formula : forall x1 x2, value ursem3 [x1; x2]
  (- sin (22 / 10 * PI * x1 + 1 / 2 * PI) * (2 - Rabs x1 / 2) * (3 - Rabs x1 / 2) - sin (22 / 10 * PI * x2 + 1 / 2 * PI) * (2 - Rabs x2 / 2) * (3 - Rabs x2 / 2)).
Proof. formula @ursem3. Qed.
