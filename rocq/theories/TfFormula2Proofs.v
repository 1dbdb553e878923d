(** * The test functions of a fixed number of variables compute the published formulas *)
From Coq Require Import Lra Lia Psatz.
From Verif Require Export TfFormulaProofs TfDocProofs.
Open Scope R_scope.

Lemma pw2 a : a ^ 2 = a * a. Proof. ring. Qed.
Lemma pw3 a : a ^ 3 = a * a * a. Proof. ring. Qed.
Lemma pw4 a : a ^ 4 = a * a * (a * a). Proof. ring. Qed.
Lemma pw6 a : a ^ 6 = a * a * a * (a * a * a). Proof. ring. Qed.
Lemma pw8 a : a ^ 8 = a * a * (a * a) * (a * a * (a * a)). Proof. ring. Qed.
(** Arguments of transcendental functions that are equal become the same. *)
Ltac unify_args := repeat match goal with
  | |- context [?f ?a] => lazymatch f with sin => idtac | cos => idtac | exp => idtac | Rabs => idtac | R_sqrt.sqrt => idtac end;
      match goal with |- context [f ?b] => first [constr_eq a b; fail 1 | replace b with a by (first [ring | field; pi_ok | lra])] end
  end
with pi_ok := pose proof PI_RGT_0; lra.
Ltac shut := rewrite ?pw2, ?pw3, ?pw4, ?pw6, ?pw8; try reflexivity; unify_args; first [ring | field; pi_ok | lra | nra].
Ltac formula f := intros x1 x2; eapply value_eq; [val f|cbv beta; shut].

Lemma adijman_formula : forall x1 x2, value adijman [x1; x2] (cos x1 * sin x2 - x1 / (x2 ^ 2 + 1)).
Proof. formula @adijman. Qed.
Lemma beale_formula : forall x1 x2, value beale [x1; x2] ((15 / 10 - x1 + x1 * x2) ^ 2 + (225 / 100 - x1 + x1 * x2 ^ 2) ^ 2 + (2625 / 1000 - x1 + x1 * x2 ^ 3) ^ 2).
Proof. formula @beale. Qed.
Lemma bird_formula : forall x1 x2, value bird [x1; x2] (sin x1 * exp ((1 - cos x2) ^ 2) + cos x2 * exp ((1 - sin x1) ^ 2) + (x1 - x2) ^ 2).
Proof. formula @bird. Qed.
Lemma bohachevsky_n1_formula : forall x1 x2, value bohachevsky_n1 [x1; x2] (x1 ^ 2 + 2 * x2 ^ 2 - 3 / 10 * cos (3 * PI * x1) - 4 / 10 * cos (4 * PI * x2) + 7 / 10).
Proof. formula @bohachevsky_n1. Qed.
Lemma bohachevsky_n2_formula : forall x1 x2, value bohachevsky_n2 [x1; x2] (x1 ^ 2 + 2 * x2 ^ 2 - 3 / 10 * cos (3 * PI * x1) * cos (4 * PI * x2) + 3 / 10).
Proof. formula @bohachevsky_n2. Qed.
Lemma bohachevsky_n3_formula : forall x1 x2, value bohachevsky_n3 [x1; x2] (x1 ^ 2 + 2 * x2 ^ 2 - 3 / 10 * cos (3 * PI * x1 + 4 * PI * x2) + 3 / 10).
Proof. formula @bohachevsky_n3. Qed.
Lemma booth_formula : forall x1 x2, value booth [x1; x2] ((x1 + 2 * x2 - 7) ^ 2 + (2 * x1 + x2 - 5) ^ 2).
Proof. formula @booth. Qed.
Lemma brent_formula : forall x1 x2, value brent [x1; x2] ((x1 + 10) ^ 2 + (x2 + 10) ^ 2 + exp (- x1 ^ 2 - x2 ^ 2)).
Proof. formula @brent. Qed.
Lemma bukin_4_formula : forall x1 x2, value bukin_4 [x1; x2] (100 * x2 ^ 2 + 1 / 100 * Rabs (x1 + 10)).
Proof. formula @bukin_4. Qed.
Lemma bukin_n6_formula : forall x1 x2, value bukin_n6 [x1; x2] (100 * R_sqrt.sqrt (Rabs (x2 - 1 / 100 * x1 ^ 2)) + 1 / 100 * Rabs (x1 + 10)).
Proof. formula @bukin_n6. Qed.
Lemma three_hump_camel_formula : forall x1 x2, value three_hump_camel [x1; x2] (2 * x1 ^ 2 - 105 / 100 * x1 ^ 4 + x1 ^ 6 / 6 + x1 * x2 + x2 ^ 2).
Proof. formula @three_hump_camel. Qed.
Lemma cube_formula : forall x1 x2, value cube [x1; x2] (100 * (x2 - x1 ^ 3) ^ 2 + (1 - x1) ^ 2).
Proof. formula @cube. Qed.
Lemma easom_formula : forall x1 x2, value easom [x1; x2] (- cos x1 * cos x2 * exp (- (x1 - PI) ^ 2 - (x2 - PI) ^ 2)).
Proof. formula @easom. Qed.
Lemma eavd_formula : forall x1 x2, value eavd [x1; x2] ((x1 ^ 2 + x2 - 10) ^ 2 + (x1 + x2 ^ 2 - 7) ^ 2 + (x1 ^ 2 + x2 ^ 3 - 1) ^ 2).
Proof. formula @eavd. Qed.
Lemma egg_crate_formula : forall x1 x2, value egg_crate [x1; x2] (x1 ^ 2 + x2 ^ 2 + 25 * (sin x1 ^ 2 + sin x2 ^ 2)).
Proof. formula @egg_crate. Qed.
Lemma eggholder_formula : forall x1 x2, value eggholder [x1; x2] (- (x2 + 47) * sin (R_sqrt.sqrt (Rabs (x2 + x1 / 2 + 47))) - x1 * sin (R_sqrt.sqrt (Rabs (x1 - (x2 + 47))))).
Proof. formula @eggholder. Qed.
Lemma freudenstein_roth_formula : forall x1 x2, value freudenstein_roth [x1; x2] ((x1 - 13 + ((5 - x2) * x2 - 2) * x2) ^ 2 + (x1 - 29 + ((x2 + 1) * x2 - 14) * x2) ^ 2).
Proof. formula @freudenstein_roth. Qed.
Lemma goldstein_price_formula : forall x1 x2, value goldstein_price [x1; x2] ((1 + (x1 + x2 + 1) ^ 2 * (19 - 14 * x1 + 3 * x1 ^ 2 - 14 * x2 + 6 * x1 * x2 + 3 * x2 ^ 2)) * (30 + (2 * x1 - 3 * x2) ^ 2 * (18 - 32 * x1 + 12 * x1 ^ 2 + 48 * x2 - 36 * x1 * x2 + 27 * x2 ^ 2))).
Proof. formula @goldstein_price. Qed.
Lemma himmelblau_formula : forall x1 x2, value himmelblau [x1; x2] ((x1 ^ 2 + x2 - 11) ^ 2 + (x1 + x2 ^ 2 - 7) ^ 2).
Proof. formula @himmelblau. Qed.
Lemma hosaki_formula : forall x1 x2, value hosaki [x1; x2] ((1 - 8 * x1 + 7 * x1 ^ 2 - 7 / 3 * x1 ^ 3 + 1 / 4 * x1 ^ 4) * x2 ^ 2 * exp (- x2)).
Proof. formula @hosaki. Qed.
Lemma leon_formula : forall x1 x2, value leon [x1; x2] (100 * (x2 - x1 ^ 2) ^ 2 + (1 - x1) ^ 2).
Proof. formula @leon. Qed.
Lemma levy_n13_formula : forall x1 x2, value levy_n13 [x1; x2] (sin (3 * PI * x1) ^ 2 + (x1 - 1) ^ 2 * (1 + sin (3 * PI * x2) ^ 2) + (x2 - 1) ^ 2 * (1 + sin (2 * PI * x2) ^ 2)).
Proof. formula @levy_n13. Qed.
Lemma matyas_formula : forall x1 x2, value matyas [x1; x2] (26 / 100 * (x1 ^ 2 + x2 ^ 2) - 48 / 100 * x1 * x2).
Proof. formula @matyas. Qed.
Lemma mcormick_formula : forall x1 x2, value mcormick [x1; x2] (sin (x1 + x2) + (x1 - x2) ^ 2 - 15 / 10 * x1 + 25 / 10 * x2 + 1).
Proof. formula @mcormick. Qed.
Lemma parsopoulos_formula : forall x1 x2, value parsopoulos [x1; x2] (cos x1 ^ 2 + sin x2 ^ 2).
Proof. formula @parsopoulos. Qed.
Lemma periodic_formula : forall x1 x2, value periodic [x1; x2] (1 + sin x1 ^ 2 + sin x2 ^ 2 - 1 / 10 * exp (- (x1 ^ 2 + x2 ^ 2))).
Proof. formula @periodic. Qed.
Lemma price1_formula : forall x1 x2, value price1 [x1; x2] ((Rabs x1 - 5) ^ 2 + (Rabs x2 - 5) ^ 2).
Proof. formula @price1. Qed.
Lemma price2_formula : forall x1 x2, value price2 [x1; x2] (1 + sin x1 ^ 2 + sin x2 ^ 2 - 1 / 10 * exp (- x1 ^ 2 - x2 ^ 2)).
Proof. formula @price2. Qed.
Lemma price3_formula : forall x1 x2, value price3 [x1; x2] (100 * (x2 - x1 ^ 2) ^ 2 + 6 * (64 / 10 * (x2 - 1 / 2) ^ 2 - x1 - 6 / 10) ^ 2).
Proof. formula @price3. Qed.
Lemma price4_formula : forall x1 x2, value price4 [x1; x2] ((2 * x1 ^ 3 * x2 - x2 ^ 3) ^ 2 + (6 * x1 - x2 ^ 2 + x2) ^ 2).
Proof. formula @price4. Qed.
Lemma rotated_ellipse_formula : forall x1 x2, value rotated_ellipse [x1; x2] (7 * x1 ^ 2 - 6 * R_sqrt.sqrt 3 * x1 * x2 + 13 * x2 ^ 2).
Proof. formula @rotated_ellipse. Qed.
Lemma rotated_ellipse2_formula : forall x1 x2, value rotated_ellipse2 [x1; x2] (x1 ^ 2 - x1 * x2 + x2 ^ 2).
Proof. formula @rotated_ellipse2. Qed.
Lemma schaffer_n2_formula : forall x1 x2, value schaffer_n2 [x1; x2] (1 / 2 + (sin (x1 ^ 2 - x2 ^ 2) ^ 2 - 1 / 2) / (1 + 1 / 1000 * (x1 ^ 2 + x2 ^ 2)) ^ 2).
Proof. formula @schaffer_n2. Qed.
Lemma schaffer_n4_formula : forall x1 x2, value schaffer_n4 [x1; x2] (1 / 2 + (cos (sin (Rabs (x1 ^ 2 - x2 ^ 2))) ^ 2 - 1 / 2) / (1 + 1 / 1000 * (x1 ^ 2 + x2 ^ 2)) ^ 2).
Proof. formula @schaffer_n4. Qed.
Lemma trefethen_formula : forall x1 x2, value trefethen [x1; x2] (exp (sin (50 * x1)) + sin (60 * exp x2) + sin (70 * sin x1) + sin (sin (80 * x2)) - sin (10 * (x1 + x2)) + 1 / 4 * (x1 ^ 2 + x2 ^ 2)).
Proof. formula @trefethen. Qed.
Lemma ursem1_formula : forall x1 x2, value ursem1 [x1; x2] (- sin (2 * x1 - 1 / 2 * PI) - 3 * cos x2 - 1 / 2 * x1).
Proof. formula @ursem1. Qed.
Lemma ursem4_formula : forall x1 x2, value ursem4 [x1; x2] (- 3 * sin (1 / 2 * PI * x1 + 1 / 2 * PI) * (2 - R_sqrt.sqrt (x1 ^ 2 + x2 ^ 2)) / 4).
Proof. formula @ursem4. Qed.
Lemma wayburn_seader1_formula : forall x1 x2, value wayburn_seader1 [x1; x2] ((x1 ^ 6 + x2 ^ 4 - 17) ^ 2 + (2 * x1 + x2 - 4) ^ 2).
Proof. formula @wayburn_seader1. Qed.
Lemma wayburn_seader3_formula : forall x1 x2, value wayburn_seader3 [x1; x2] (2 * x1 ^ 3 / 3 - 8 * x1 ^ 2 + 33 * x1 - x1 * x2 + 5 + ((x1 - 4) ^ 2 + (x2 - 5) ^ 2 - 4) ^ 2).
Proof. formula @wayburn_seader3. Qed.
Lemma zettl_formula : forall x1 x2, value zettl [x1; x2] ((x1 ^ 2 + x2 ^ 2 - 2 * x1) ^ 2 + 1 / 4 * x1).
Proof. formula @zettl. Qed.
Lemma zirilli_formula : forall x1 x2, value zirilli [x1; x2] (1 / 4 * x1 ^ 4 - 1 / 2 * x1 ^ 2 + 1 / 10 * x1 + 1 / 2 * x2 ^ 2).
Proof. formula @zirilli. Qed.
Lemma ackley3_formula : forall x1 x2, value ackley3 [x1; x2] (200 * exp (- (2 / 100) * R_sqrt.sqrt (x1 ^ 2 + x2 ^ 2)) + 5 * exp (cos (3 * x1) + sin (3 * x2))).
Proof. formula @ackley3. Qed.

Lemma PI_nz : PI <> 0. Proof. pose proof PI_RGT_0. lra. Qed.
Ltac val2 f := intros; unfold value, f; run; ev2; repeat (first [rewrite e_div by exact PI_nz | rewrite e_div by (apply Rgt_not_eq, Rplus_lt_le_0_compat; [lra|nn])]; ev2).
Lemma drop_wave_formula : forall x1 x2, value drop_wave [x1; x2] (- (1 + cos (12 * R_sqrt.sqrt (x1 ^ 2 + x2 ^ 2))) / (1 / 2 * (x1 ^ 2 + x2 ^ 2) + 2)).
Proof.
  intros x1 x2. eapply value_eq; [val @drop_wave|]. cbv beta. rewrite !pw2. pose proof (sqr_nonneg x1). pose proof (sqr_nonneg x2). unfold Rdiv. f_equal; [ring|f_equal; lra].
Qed.
Lemma holder_table_formula : forall x1 x2, value holder_table [x1; x2] (- Rabs (sin x1 * cos x2 * exp (Rabs (1 - R_sqrt.sqrt (x1 ^ 2 + x2 ^ 2) / PI)))).
Proof. intros x1 x2. eapply value_eq; [val2 @holder_table; reflexivity|]. cbv beta. rewrite !pw2. ring. Qed.
Lemma cross_in_tray_formula : forall x1 x2, value cross_in_tray [x1; x2] (- (1 / 10000) * Rpower (Rabs (sin x1 * sin x2 * exp (Rabs (100 - R_sqrt.sqrt (x1 ^ 2 + x2 ^ 2) / PI))) + 1) (1 / 10)).
Proof.
  intros x1 x2. eapply value_eq.
  - val2 @cross_in_tray. rewrite e_powf; [ev2; reflexivity|]. pose proof (Rabs_pos (sin x1 * sin x2 * exp (Rabs (100 - R_sqrt.sqrt (x1 * x1 + x2 * x2) / PI)))). lra.
  - cbv beta. rewrite !pw2. reflexivity.
Qed.
Lemma chichinadze_formula : forall x1 x2, value chichinadze [x1; x2] (x1 ^ 2 - 12 * x1 + 11 + 10 * cos (PI / 2 * x1) + 8 * sin (5 * PI / 2 * x1) - R_sqrt.sqrt (1 / 5) * exp (- (1 / 2) * (x2 - 1 / 2) ^ 2)).
Proof.
  intros x1 x2. eapply value_eq.
  - val2 @chichinadze. rewrite e_powf by lra. ev2. reflexivity.
  - cbv beta. replace (5 / 10) with (/ 2) by lra. rewrite Rpower_sqrt by lra. replace (2 / 10) with (1 / 5) by lra. shut.
Qed.
Lemma jennrich_sampson_formula : forall x1 x2, value jennrich_sampson [x1; x2] (Sum 1 10 (fun i => (2 + 2 * INR i - (exp (INR i * x1) + exp (INR i * x2))) ^ 2)).
Proof.
  intros x1 x2. eapply value_eq.
  - unfold value, jennrich_sampson. run. rewrite (e_int 0).
    rewrite <- (map_id (seq 1 10)). rewrite (sum_loop _ (fun i => (2 + 2 * INR i - (exp (INR i * x1) + exp (INR i * x2))) ^ 2) (fun i => i)); [reflexivity|].
    intros i _. ev. f_equal. ring.
  - rewrite Sum_rsum, Rplus_0_l. reflexivity.
Qed.
Lemma shubert_formula : forall x1 x2, value shubert [x1; x2] (Sum 1 5 (fun i => INR i * cos (INR (i + 1) * x1 + INR i)) * Sum 1 5 (fun i => INR i * cos (INR (i + 1) * x2 + INR i))).
Proof.
  intros x1 x2. eapply value_eq.
  - unfold value, shubert. refine (eq_trans (run2 (fun x1 x2 => let '(y1, y2) := foldl (fun t i => (nadd t.1 (nmul (of_nat i) (ncos (nadd (nmul (of_nat (i + 1)%nat) x1) (of_nat i)))), nadd t.2 (nmul (of_nat i) (ncos (nadd (nmul (of_nat (i + 1)%nat) x2) (of_nat i)))))) (nlit 0 1, nlit 0 1) (seq 1 5) in nmul y1 y2) _ _) _).
    apply (f_equal (@Ok (option R))). rewrite (e_int 0). rewrite <- (map_id (seq 1 5)).
    rewrite (pair_loop _ _ (fun i => INR i * cos (INR (i + 1) * x1 + INR i)) (fun i => INR i * cos (INR (i + 1) * x2 + INR i)) (fun i => i)); [|intros; ev; reflexivity|intros; ev; reflexivity].
    cbv beta iota zeta. ev. reflexivity.
  - rewrite !Sum_rsum, !Rplus_0_l. reflexivity.
Qed.
