(** * Property theorems: formulas of the test functions (C108, C109) *)
From Coq Require Import Lra Lia Psatz.
From Verif Require Import TfSpec TfFormula4Proofs.
Open Scope R_scope.

(** In the theorems the functions are computed over the real numbers ([num_R] of TfSpec); [value f x v] says that f, called with x, returns v. *)

(** ** C108: the published formulas *)
Theorem C108_two_variables :
  forall x1 x2 : R,
  value adijman [x1; x2] (cos x1 * sin x2 - x1 / (x2 ^ 2 + 1)) /\
  value beale [x1; x2] ((15 / 10 - x1 + x1 * x2) ^ 2 + (225 / 100 - x1 + x1 * x2 ^ 2) ^ 2 + (2625 / 1000 - x1 + x1 * x2 ^ 3) ^ 2) /\
  value bird [x1; x2] (sin x1 * exp ((1 - cos x2) ^ 2) + cos x2 * exp ((1 - sin x1) ^ 2) + (x1 - x2) ^ 2) /\
  value bohachevsky_n1 [x1; x2] (x1 ^ 2 + 2 * x2 ^ 2 - 3 / 10 * cos (3 * PI * x1) - 4 / 10 * cos (4 * PI * x2) + 7 / 10) /\
  value bohachevsky_n2 [x1; x2] (x1 ^ 2 + 2 * x2 ^ 2 - 3 / 10 * cos (3 * PI * x1) * cos (4 * PI * x2) + 3 / 10) /\
  value bohachevsky_n3 [x1; x2] (x1 ^ 2 + 2 * x2 ^ 2 - 3 / 10 * cos (3 * PI * x1 + 4 * PI * x2) + 3 / 10) /\
  value booth [x1; x2] ((x1 + 2 * x2 - 7) ^ 2 + (2 * x1 + x2 - 5) ^ 2) /\
  value brent [x1; x2] ((x1 + 10) ^ 2 + (x2 + 10) ^ 2 + exp (- x1 ^ 2 - x2 ^ 2)) /\
  value bukin_4 [x1; x2] (100 * x2 ^ 2 + 1 / 100 * Rabs (x1 + 10)) /\
  value bukin_n6 [x1; x2] (100 * R_sqrt.sqrt (Rabs (x2 - 1 / 100 * x1 ^ 2)) + 1 / 100 * Rabs (x1 + 10)) /\
  value three_hump_camel [x1; x2] (2 * x1 ^ 2 - 105 / 100 * x1 ^ 4 + x1 ^ 6 / 6 + x1 * x2 + x2 ^ 2) /\
  value chichinadze [x1; x2] (x1 ^ 2 - 12 * x1 + 11 + 10 * cos (PI / 2 * x1) + 8 * sin (5 * PI / 2 * x1) - R_sqrt.sqrt (1 / 5) * exp (- (1 / 2) * (x2 - 1 / 2) ^ 2)) /\
  value cross_in_tray [x1; x2] (- (1 / 10000) * Rpower (Rabs (sin x1 * sin x2 * exp (Rabs (100 - R_sqrt.sqrt (x1 ^ 2 + x2 ^ 2) / PI))) + 1) (1 / 10)) /\
  value cube [x1; x2] (100 * (x2 - x1 ^ 3) ^ 2 + (1 - x1) ^ 2) /\
  value drop_wave [x1; x2] (- (1 + cos (12 * R_sqrt.sqrt (x1 ^ 2 + x2 ^ 2))) / (1 / 2 * (x1 ^ 2 + x2 ^ 2) + 2)) /\
  value easom [x1; x2] (- cos x1 * cos x2 * exp (- (x1 - PI) ^ 2 - (x2 - PI) ^ 2)) /\
  value eavd [x1; x2] ((x1 ^ 2 + x2 - 10) ^ 2 + (x1 + x2 ^ 2 - 7) ^ 2 + (x1 ^ 2 + x2 ^ 3 - 1) ^ 2) /\
  value egg_crate [x1; x2] (x1 ^ 2 + x2 ^ 2 + 25 * (sin x1 ^ 2 + sin x2 ^ 2)) /\
  value eggholder [x1; x2] (- (x2 + 47) * sin (R_sqrt.sqrt (Rabs (x2 + x1 / 2 + 47))) - x1 * sin (R_sqrt.sqrt (Rabs (x1 - (x2 + 47))))) /\
  value freudenstein_roth [x1; x2] ((x1 - 13 + ((5 - x2) * x2 - 2) * x2) ^ 2 + (x1 - 29 + ((x2 + 1) * x2 - 14) * x2) ^ 2) /\
  value goldstein_price [x1; x2] ((1 + (x1 + x2 + 1) ^ 2 * (19 - 14 * x1 + 3 * x1 ^ 2 - 14 * x2 + 6 * x1 * x2 + 3 * x2 ^ 2)) * (30 + (2 * x1 - 3 * x2) ^ 2 * (18 - 32 * x1 + 12 * x1 ^ 2 + 48 * x2 - 36 * x1 * x2 + 27 * x2 ^ 2))) /\
  value himmelblau [x1; x2] ((x1 ^ 2 + x2 - 11) ^ 2 + (x1 + x2 ^ 2 - 7) ^ 2) /\
  value holder_table [x1; x2] (- Rabs (sin x1 * cos x2 * exp (Rabs (1 - R_sqrt.sqrt (x1 ^ 2 + x2 ^ 2) / PI)))) /\
  value hosaki [x1; x2] ((1 - 8 * x1 + 7 * x1 ^ 2 - 7 / 3 * x1 ^ 3 + 1 / 4 * x1 ^ 4) * x2 ^ 2 * exp (- x2)) /\
  value jennrich_sampson [x1; x2] (Sum 1 10 (fun i => (2 + 2 * INR i - (exp (INR i * x1) + exp (INR i * x2))) ^ 2)) /\
  value leon [x1; x2] (100 * (x2 - x1 ^ 2) ^ 2 + (1 - x1) ^ 2) /\
  value levy_n13 [x1; x2] (sin (3 * PI * x1) ^ 2 + (x1 - 1) ^ 2 * (1 + sin (3 * PI * x2) ^ 2) + (x2 - 1) ^ 2 * (1 + sin (2 * PI * x2) ^ 2)) /\
  value matyas [x1; x2] (26 / 100 * (x1 ^ 2 + x2 ^ 2) - 48 / 100 * x1 * x2) /\
  value mcormick [x1; x2] (sin (x1 + x2) + (x1 - x2) ^ 2 - 15 / 10 * x1 + 25 / 10 * x2 + 1) /\
  value parsopoulos [x1; x2] (cos x1 ^ 2 + sin x2 ^ 2) /\
  value periodic [x1; x2] (1 + sin x1 ^ 2 + sin x2 ^ 2 - 1 / 10 * exp (- (x1 ^ 2 + x2 ^ 2))) /\
  value price1 [x1; x2] ((Rabs x1 - 5) ^ 2 + (Rabs x2 - 5) ^ 2) /\
  value price2 [x1; x2] (1 + sin x1 ^ 2 + sin x2 ^ 2 - 1 / 10 * exp (- x1 ^ 2 - x2 ^ 2)) /\
  value price3 [x1; x2] (100 * (x2 - x1 ^ 2) ^ 2 + 6 * (64 / 10 * (x2 - 1 / 2) ^ 2 - x1 - 6 / 10) ^ 2) /\
  value price4 [x1; x2] ((2 * x1 ^ 3 * x2 - x2 ^ 3) ^ 2 + (6 * x1 - x2 ^ 2 + x2) ^ 2) /\
  value rotated_ellipse [x1; x2] (7 * x1 ^ 2 - 6 * R_sqrt.sqrt 3 * x1 * x2 + 13 * x2 ^ 2) /\
  value rotated_ellipse2 [x1; x2] (x1 ^ 2 - x1 * x2 + x2 ^ 2) /\
  value schaffer_n2 [x1; x2] (1 / 2 + (sin (x1 ^ 2 - x2 ^ 2) ^ 2 - 1 / 2) / (1 + 1 / 1000 * (x1 ^ 2 + x2 ^ 2)) ^ 2) /\
  value schaffer_n4 [x1; x2] (1 / 2 + (cos (sin (Rabs (x1 ^ 2 - x2 ^ 2))) ^ 2 - 1 / 2) / (1 + 1 / 1000 * (x1 ^ 2 + x2 ^ 2)) ^ 2) /\
  value shubert [x1; x2] (Sum 1 5 (fun i => INR i * cos (INR (i + 1) * x1 + INR i)) * Sum 1 5 (fun i => INR i * cos (INR (i + 1) * x2 + INR i))) /\
  value trefethen [x1; x2] (exp (sin (50 * x1)) + sin (60 * exp x2) + sin (70 * sin x1) + sin (sin (80 * x2)) - sin (10 * (x1 + x2)) + 1 / 4 * (x1 ^ 2 + x2 ^ 2)) /\
  value ursem1 [x1; x2] (- sin (2 * x1 - 1 / 2 * PI) - 3 * cos x2 - 1 / 2 * x1) /\
  value ursem4 [x1; x2] (- 3 * sin (1 / 2 * PI * x1 + 1 / 2 * PI) * (2 - R_sqrt.sqrt (x1 ^ 2 + x2 ^ 2)) / 4) /\
  value wayburn_seader1 [x1; x2] ((x1 ^ 6 + x2 ^ 4 - 17) ^ 2 + (2 * x1 + x2 - 4) ^ 2) /\
  value wayburn_seader3 [x1; x2] (2 * x1 ^ 3 / 3 - 8 * x1 ^ 2 + 33 * x1 - x1 * x2 + 5 + ((x1 - 4) ^ 2 + (x2 - 5) ^ 2 - 4) ^ 2) /\
  value zettl [x1; x2] ((x1 ^ 2 + x2 ^ 2 - 2 * x1) ^ 2 + 1 / 4 * x1) /\
  value zirilli [x1; x2] (1 / 4 * x1 ^ 4 - 1 / 2 * x1 ^ 2 + 1 / 10 * x1 + 1 / 2 * x2 ^ 2) /\
  value ackley3 [x1; x2] (200 * exp (- (2 / 100) * R_sqrt.sqrt (x1 ^ 2 + x2 ^ 2)) + 5 * exp (cos (3 * x1) + sin (3 * x2))).
Proof.
  intros x1 x2. repeat split.
  - exact (adijman_formula x1 x2).
  - exact (beale_formula x1 x2).
  - exact (bird_formula x1 x2).
  - exact (bohachevsky_n1_formula x1 x2).
  - exact (bohachevsky_n2_formula x1 x2).
  - exact (bohachevsky_n3_formula x1 x2).
  - exact (booth_formula x1 x2).
  - exact (brent_formula x1 x2).
  - exact (bukin_4_formula x1 x2).
  - exact (bukin_n6_formula x1 x2).
  - exact (three_hump_camel_formula x1 x2).
  - exact (chichinadze_formula x1 x2).
  - exact (cross_in_tray_formula x1 x2).
  - exact (cube_formula x1 x2).
  - exact (drop_wave_formula x1 x2).
  - exact (easom_formula x1 x2).
  - exact (eavd_formula x1 x2).
  - exact (egg_crate_formula x1 x2).
  - exact (eggholder_formula x1 x2).
  - exact (freudenstein_roth_formula x1 x2).
  - exact (goldstein_price_formula x1 x2).
  - exact (himmelblau_formula x1 x2).
  - exact (holder_table_formula x1 x2).
  - exact (hosaki_formula x1 x2).
  - exact (jennrich_sampson_formula x1 x2).
  - exact (leon_formula x1 x2).
  - exact (levy_n13_formula x1 x2).
  - exact (matyas_formula x1 x2).
  - exact (mcormick_formula x1 x2).
  - exact (parsopoulos_formula x1 x2).
  - exact (periodic_formula x1 x2).
  - exact (price1_formula x1 x2).
  - exact (price2_formula x1 x2).
  - exact (price3_formula x1 x2).
  - exact (price4_formula x1 x2).
  - exact (rotated_ellipse_formula x1 x2).
  - exact (rotated_ellipse2_formula x1 x2).
  - exact (schaffer_n2_formula x1 x2).
  - exact (schaffer_n4_formula x1 x2).
  - exact (shubert_formula x1 x2).
  - exact (trefethen_formula x1 x2).
  - exact (ursem1_formula x1 x2).
  - exact (ursem4_formula x1 x2).
  - exact (wayburn_seader1_formula x1 x2).
  - exact (wayburn_seader3_formula x1 x2).
  - exact (zettl_formula x1 x2).
  - exact (zirilli_formula x1 x2).
  - exact (ackley3_formula x1 x2).
Qed.
Print Assumptions C108_two_variables.

(** One, three, four and five variables; keane and miele_cantrell wherever the quotient is defined; branin with any parameters.
    bartels_conn insists on three coordinates and ignores the third. *)
Theorem C108_other_numbers_of_variables :
  (forall x, forrester_et_al (Some x) = Ok (Some ((6 * x - 2) ^ 2 * sin (12 * x - 4)))) /\
  (forall x1 x2, x1 <> 0 \/ x2 <> 0 -> value keane [x1; x2] (sin (x1 - x2) ^ 2 * sin (x1 + x2) ^ 2 / R_sqrt.sqrt (x1 ^ 2 + x2 ^ 2))) /\
  (forall a b c r s t x1 x2, value (fun x => branin x (Some a) (Some b) (Some c) (Some r) (Some s) (Some t)) [x1; x2]
     (a * (x2 - b * x1 ^ 2 + c * x1 - r) ^ 2 + s * (1 - t) * cos x1 + s)) /\
  (forall x1 x2 x3, value bartels_conn [x1; x2; x3] (Rabs (x1 ^ 2 + x2 ^ 2 + x1 * x2) + Rabs (sin x1) + Rabs (cos x2))) /\
  (forall x1 x2 x3 x4, value colville [x1; x2; x3; x4]
     (100 * (x1 ^ 2 - x2) ^ 2 + (x1 - 1) ^ 2 + (x3 - 1) ^ 2 + 90 * (x3 ^ 2 - x4) ^ 2 + 101 / 10 * ((x2 - 1) ^ 2 + (x4 - 1) ^ 2) + 198 / 10 * (x2 - 1) * (x4 - 1))) /\
  (forall x1 x2 x3 x4, cos (x3 - x4) <> 0 -> value miele_cantrell [x1; x2; x3; x4] ((exp (- x1) - x2) ^ 4 + 100 * (x2 - x3) ^ 6 + tan (x3 - x4) ^ 4 + x1 ^ 8)) /\
  (forall x1 x2 x3 x4 x5, value dolan [x1; x2; x3; x4; x5]
     ((x1 + 17 / 10 * x2) * sin x1 - 15 / 10 * x3 - 1 / 10 * x4 * cos (x4 + x5 - x1) + 2 / 10 * x5 ^ 2 - x2 - 1)).
Proof.
  exact (conj forrester_formula (conj keane_formula (conj branin_formula (conj bartels_conn_formula (conj colville_formula (conj miele_cantrell_formula dolan_formula)))))).
Qed.
Print Assumptions C108_other_numbers_of_variables.

(** Any number of coordinates (beyond those of C79): coordinates counted from 1. *)
Theorem C108_any_dimension :
  forall x : list R, let d := length x in let X := coord x in
  value alpine x (Sum 1 d (fun i => Rabs (X i * sin (X i) + 1 / 10 * X i))) /\
  value schumer_steiglitz x (Sum 1 d (fun i => X i ^ 4)) /\
  value quintic x (Sum 1 d (fun i => Rabs (X i ^ 5 - 3 * X i ^ 4 + 4 * X i ^ 3 + 2 * X i ^ 2 - 10 * X i - 4))) /\
  value chung_reynolds x (Sum 1 d (fun i => X i ^ 2) ^ 2) /\
  value exponential x (- exp (- (1 / 2) * Sum 1 d (fun i => X i ^ 2))) /\
  value cosine_mixture x (- (1 / 10) * Sum 1 d (fun i => cos (5 * PI * X i)) - Sum 1 d (fun i => X i ^ 2)) /\
  (forall k, value (fun x => qing x (Some k)) x (Sum 1 d (fun i => (X i ^ 2 - k) ^ 2))) /\
  ((forall i, (1 <= i <= d)%nat -> X i <> 0) -> value csendes x (Sum 1 d (fun i => X i ^ 6 * (2 + sin (1 / X i))))) /\
  ((1 <= d)%nat -> value xin_she_yang_2 x (Sum 1 d (fun i => Rabs (X i)) * exp (- Sum 1 d (fun i => sin (X i ^ 2))))) /\
  (let w i := 1 + (X i - 1) / 4 in
   (1 <= d)%nat -> value levy x (sin (PI * w 1%nat) ^ 2 + Sum 1 (d - 1) (fun i => (w i - 1) ^ 2 * (1 + 10 * sin (PI * w i + 1) ^ 2)) + (w d - 1) ^ 2 * (1 + sin (2 * PI * w d) ^ 2))).
Proof.
  intros x d X. exact (conj (alpine_formula x) (conj (schumer_steiglitz_formula x) (conj (quintic_formula x) (conj (chung_reynolds_formula x) (conj (exponential_formula x)
    (conj (cosine_mixture_formula x) (conj (qing_formula x) (conj (csendes_formula x) (conj (xin_she_yang_2_formula x) (levy_formula x)))))))))).
Qed.
Print Assumptions C108_any_dimension.
(** Functions on whose formula publications do not agree: this is the one of the code. *)
Theorem C108_further_formulas :
  forall x1 x2 : R,
  value bukin_2 [x1; x2] (100 * (x2 - 1 / 100 * x1 ^ 2 + 1) + 1 / 100 * (x1 + 10) ^ 2) /\
  value chen_bird [x1; x2] (- (1 / 1000) / ((1 / 1000) ^ 2 + (x1 - 4 / 10 * x2 + 1 / 10) ^ 2) - 1 / 1000 / ((1 / 1000) ^ 2 + (2 * x1 + x2 - 15 / 10) ^ 2)) /\
  value chen_v [x1; x2] (- (1 / 1000) / ((1 / 1000) ^ 2 + (x1 ^ 2 + x2 ^ 2 - 1) ^ 2) - 1 / 1000 / ((1 / 1000) ^ 2 + (x1 ^ 2 + x2 ^ 2 - 5 / 10) ^ 2) - 1 / 1000 / ((1 / 1000) ^ 2 + (x1 ^ 2 - x2 ^ 2) ^ 2)) /\
  value holder_table2 [x1; x2] (- Rabs (cos x1 * cos x2 * exp (Rabs (1 - R_sqrt.sqrt (x1 ^ 2 + x2 ^ 2) / PI)))) /\
  value holder_table3 [x1; x2] (- Rabs (cos x1 * cos x2 * exp ((1 - R_sqrt.sqrt (x1 ^ 2 + x2 ^ 2) / PI) ^ 2)) / 30) /\
  value schaffer_n1 [x1; x2] (1 / 2 + (sin (x1 ^ 2 + x2 ^ 2) ^ 2 - 1 / 2) / (1 + 1 / 1000 * (x1 ^ 2 + x2 ^ 2))) /\
  value trecanni [x1; x2] (x1 ^ 4 - 4 * x1 ^ 3 + 4 * x1 + x2 ^ 2) /\
  value ursem3 [x1; x2] (- sin (22 / 10 * PI * x1 + 1 / 2 * PI) * (2 - Rabs x1 / 2) * (3 - Rabs x1 / 2) - sin (22 / 10 * PI * x2 + 1 / 2 * PI) * (2 - Rabs x2 / 2) * (3 - Rabs x2 / 2)).
Proof.
  intros x1 x2. repeat split.
  - exact (bukin_2_formula x1 x2).
  - exact (chen_bird_formula x1 x2).
  - exact (chen_v_formula x1 x2).
  - exact (holder_table2_formula x1 x2).
  - exact (holder_table3_formula x1 x2).
  - exact (schaffer_n1_formula x1 x2).
  - exact (trecanni_formula x1 x2).
  - exact (ursem3_formula x1 x2).
Qed.
Print Assumptions C108_further_formulas.
Example C108_nonvacuous :
  value booth [1; 2] 5 /\ value himmelblau [3; 2] 0 /\ value colville [0; 0; 0; 0] 42 /\ value schumer_steiglitz [1; 2] 17.
Proof.
  split; [eapply value_eq; [exact (booth_formula 1 2)|lra]|]. split; [eapply value_eq; [exact (himmelblau_formula 3 2)|lra]|].
  split; [eapply value_eq; [exact (colville_formula 0 0 0 0)|lra]|]. eapply value_eq; [exact (schumer_steiglitz_formula [1; 2])|]. unfold Sum, coord. cbn. lra.
Qed.

(** ** C109: functions that are not the published ones *)
(** What the code computes instead *)
Theorem C109_formulas_of_the_code :
  forall x1 x2 : R,
  value six_hump_camel [x1; x2] ((4 - 21 / 10 * x1 ^ 2 + x1 ^ 3 / 3) * x1 ^ 2 + x1 * x2 + (- 4 + 4 * x2 ^ 2) * x2 ^ 2) /\
  (let b := (x2 - 51 / 10 / 4 * PI ^ 2 * x1 ^ 2 + 5 / PI * x1 - 6) ^ 2 in
   value branin_default [x1; x2] (b + 10 * (1 - 1 / 8 * PI) * cos x1 + 10) /\
   value branin_rcos [x1; x2] (b + 10 * (1 - 1 / 8 * PI) * cos x1 + 10) /\
   value branin_rcos2 [x1; x2] (b + 10 * (1 - 1 / 8 * PI) * cos x1 * cos x2 * ln (x1 ^ 2 + x2 ^ 2 + 1) + 10)) /\
  value damavandi [x1; x2] ((1 - (sin (PI * (x1 - 2)) * sin (PI * (x2 - 2)) / PI ^ 2 * (x1 - 2) * (x2 - 2)) ^ 5) * (2 + (x1 - 7) ^ 2 + 2 * (x2 - 7) ^ 2)) /\
  value deckkers_aarts [x1; x2] (100000 * x1 ^ 2 + x2 ^ 2 - (x1 ^ 2 + x2 ^ 2) ^ 2) /\
  (let g t := sin (t - 1) + (t - 1) ^ 2 + 2 / 100 * sin (4 * (t - 1)) in value giunta [x1; x2] (g x1 + g x2)) /\
  gramacy_lee (Some x1) = Ok (Some (sin (10 * PI * x1) / 2 * x1 + (x1 - 1) ^ 4)) /\
  value quadratic [x1; x2] (- (380384 / 100) - 13808 / 100 * x1 - 23292 / 100 * x2 + 12808 / 100 * x1 ^ 2 + 2364 / 100 * x2 ^ 2 + 18225 / 100 * x1 * x2) /\
  value rosenbrock_modified [x1; x2] (74 + 100 * (x2 - x1 ^ 2) ^ 2 + (1 - x2) ^ 2 - 400 * exp (- (x1 + 1) ^ 2 + (x2 + 1) ^ 2 / (1 / 10))) /\
  value rump [x1; x2] ((33375 / 100 - x1 ^ 2) * x2 ^ 6 + x1 ^ 2 * (11 * x1 ^ 2 * x2 ^ 2 - 121 * x2 ^ 4 - 2) + 55 / 10 * x2 ^ 8 + x1 / 2 * x2) /\
  value schaffer_n3 [x1; x2] (1 / 2 + (sin (cos (Rabs (x1 ^ 2 - x2 ^ 2))) ^ 2 - 1 / 2) / (1 + 1 / 1000 * (x1 ^ 2 + x2 ^ 2) ^ 2)) /\
  (forall x3, value schmidt_vetters [x1; x2; x3] (1 / (1 + (x1 - x2) ^ 2) + sin ((PI * x2 + x3) / 2) + exp (((x1 + x2) / 2 - 2) ^ 2))) /\
  value testtube_holder [x1; x2] (- 4 * sin x1 * cos x2 * exp (Rabs (cos (x1 ^ 2 + x2 ^ 2) / 200))) /\
  value ursem_waves [x1; x2] (- (9 / 10) * x1 ^ 2 + x1 * x2 * (x2 ^ 2 - 45 / 10 * x2 ^ 2) + 47 / 10 * cos (3 * x1 - x2 ^ 2 * (2 + x1)) * sin (25 / 10 * PI)) /\
  value wayburn_seader2 [x1; x2] ((1613 / 1000 - 4 * (x1 - 3125 / 10000) ^ 2 - 4 * (x2 - 1625 / 1000) ^ 2) ^ 2 + (x1 - 2) ^ 2) /\
  (forall x3, x1 <> 0 \/ x2 <> 0 -> value wolfe [x1; x2; x3] (Rpower (x1 ^ 2 + x2 ^ 2 - x1 * x2) (75 / 100) + x3)) /\
  (0 < cos x2 -> value vss [x1; x2] (x1 ^ 2 - 100 * cos x1 ^ 2 - 100 * cos (x1 ^ 2 / 30) + x2 ^ 2 - 100 * Rpower (cos x2) (2 - 100 * cos (x2 ^ 2 / 30)))) /\
  (forall x, value salomon x (let s := Sum 1 (length x) (fun i => coord x i ^ 2) in 1 - cos (2 * PI * s) + 1 / 10 * R_sqrt.sqrt s)) /\
  (forall x, Forall (fun a => 0 <= a) x -> value alpine2 x 0).
Proof.
  intros x1 x2. split; [exact (six_hump_camel_formula x1 x2)|].
  split; [exact (conj (branin_default_formula x1 x2) (conj (branin_rcos_formula x1 x2) (branin_rcos2_formula x1 x2)))|].
  exact (conj (damavandi_formula x1 x2) (conj (deckkers_aarts_formula x1 x2) (conj (giunta_formula x1 x2) (conj (gramacy_lee_formula x1) (conj (quadratic_formula x1 x2)
    (conj (rosenbrock_modified_formula x1 x2) (conj (rump_formula x1 x2) (conj (schaffer_n3_formula x1 x2) (conj (schmidt_vetters_formula x1 x2) (conj (testtube_holder_formula x1 x2)
    (conj (ursem_waves_formula x1 x2) (conj (wayburn_seader2_formula x1 x2) (conj (wolfe_formula x1 x2) (conj (vss_formula x1 x2) (conj salomon_formula alpine2_zero))))))))))))))).
Qed.
Print Assumptions C109_formulas_of_the_code.

(** The published functions, and that the code's are others *)
Theorem C109_not_the_published_functions :
  Forall (fun '(f, p) => exists x1 x2 v, value f [x1; x2] v /\ v <> p x1 x2) (
    (six_hump_camel, fun x1 x2 => (4 - 21 / 10 * x1 ^ 2 + x1 ^ 4 / 3) * x1 ^ 2 + x1 * x2 + (- 4 + 4 * x2 ^ 2) * x2 ^ 2) ::
    (branin_default, fun x1 x2 => (x2 - 51 / 10 / (4 * PI ^ 2) * x1 ^ 2 + 5 / PI * x1 - 6) ^ 2 + 10 * (1 - 1 / (8 * PI)) * cos x1 + 10) ::
    (branin_rcos, fun x1 x2 => (x2 - 51 / 10 / (4 * PI ^ 2) * x1 ^ 2 + 5 / PI * x1 - 6) ^ 2 + 10 * (1 - 1 / (8 * PI)) * cos x1 + 10) ::
    (branin_rcos2, fun x1 x2 => (x2 - 51 / 10 / (4 * PI ^ 2) * x1 ^ 2 + 5 / PI * x1 - 6) ^ 2 + 10 * (1 - 1 / (8 * PI)) * cos x1 * cos x2 * ln (x1 ^ 2 + x2 ^ 2 + 1) + 10) ::
    (damavandi, fun x1 x2 => (1 - Rabs (sin (PI * (x1 - 2)) * sin (PI * (x2 - 2)) / (PI ^ 2 * (x1 - 2) * (x2 - 2))) ^ 5) * (2 + (x1 - 7) ^ 2 + 2 * (x2 - 7) ^ 2)) ::
    (deckkers_aarts, fun x1 x2 => 100000 * x1 ^ 2 + x2 ^ 2 - (x1 ^ 2 + x2 ^ 2) ^ 2 + 1 / 100000 * (x1 ^ 2 + x2 ^ 2) ^ 4) ::
    (giunta, fun x1 x2 => let g t := sin (16 / 15 * t - 1) + sin (16 / 15 * t - 1) ^ 2 + 2 / 100 * sin (4 * (16 / 15 * t - 1)) in 6 / 10 + (g x1 + g x2)) ::
    (quadratic, fun x1 x2 => - (380384 / 100) - 13808 / 100 * x1 - 23292 / 100 * x2 + 12808 / 100 * x1 ^ 2 + 20364 / 100 * x2 ^ 2 + 18225 / 100 * x1 * x2) ::
    (rosenbrock_modified, fun x1 x2 => 74 + 100 * (x2 - x1 ^ 2) ^ 2 + (1 - x1) ^ 2 - 400 * exp (- ((x1 + 1) ^ 2 + (x2 + 1) ^ 2) / (1 / 10))) ::
    (rump, fun x1 x2 => (33375 / 100 - x1 ^ 2) * x2 ^ 6 + x1 ^ 2 * (11 * x1 ^ 2 * x2 ^ 2 - 121 * x2 ^ 4 - 2) + 55 / 10 * x2 ^ 8 + x1 / (2 * x2)) ::
    (schaffer_n3, fun x1 x2 => 1 / 2 + (sin (cos (Rabs (x1 ^ 2 - x2 ^ 2))) ^ 2 - 1 / 2) / (1 + 1 / 1000 * (x1 ^ 2 + x2 ^ 2)) ^ 2) ::
    (testtube_holder, fun x1 x2 => - 4 * sin x1 * cos x2 * exp (Rabs (cos ((x1 ^ 2 + x2 ^ 2) / 200)))) ::
    (ursem_waves, fun x1 x2 => - (9 / 10) * x1 ^ 2 + (x2 ^ 2 - 45 / 10 * x2 ^ 2) * x1 * x2 + 47 / 10 * cos (3 * x1 - x2 ^ 2 * (2 + x1)) * sin (25 / 10 * PI * x1)) ::
    (vss, fun x1 x2 => x1 ^ 2 - 100 * cos x1 ^ 2 - 100 * cos (x1 ^ 2 / 30) + x2 ^ 2 - 100 * cos x2 ^ 2 - 100 * cos (x2 ^ 2 / 30)) ::
    (wayburn_seader2, fun x1 x2 => (1613 / 1000 - 4 * (x1 - 3125 / 10000) ^ 2 - 4 * (x2 - 1625 / 1000) ^ 2) ^ 2 + (x2 - 1) ^ 2) :: [] : list ((list (option R) -> outcome (option R)) * (R -> R -> R))) /\
  (exists x v, gramacy_lee (Some x) = Ok (Some v) /\ v <> sin (10 * PI * x) / (2 * x) + (x - 1) ^ 4) /\
  (exists x1 x2 x3 v, value schmidt_vetters [x1; x2; x3] v /\ v <> 1 / (1 + (x1 - x2) ^ 2) + sin ((PI * x2 + x3) / 2) + exp (((x1 + x2) / x2 - 2) ^ 2)) /\
  (exists x1 x2 x3 v, value wolfe [x1; x2; x3] v /\ v <> 4 / 3 * Rpower (x1 ^ 2 + x2 ^ 2 - x1 * x2) (75 / 100) + x3) /\
  (exists x v, value salomon x v /\ v <> (let s := Sum 1 (length x) (fun i => coord x i ^ 2) in 1 - cos (2 * PI * R_sqrt.sqrt s) + 1 / 10 * R_sqrt.sqrt s)).
Proof.
  split; [repeat (apply List.Forall_cons; [|]); [..|apply List.Forall_nil]|].
  - exists (-1), (0). exact six_hump_camel_differs.
  - exists (0), (6). exact branin_default_differs.
  - exists (0), (6). exact branin_rcos_differs.
  - exists (0), (PI). exact branin_rcos2_differs.
  - exists ((5 / 2)), ((5 / 2)). exact damavandi_differs.
  - exists (0), (1). exact deckkers_aarts_differs.
  - exists (1), (1). exact giunta_differs.
  - exists (0), (1). exact quadratic_differs.
  - exists (-1), (0). exact rosenbrock_modified_differs.
  - exists (1), (2). exact rump_differs.
  - exists ((R_sqrt.sqrt (PI / 2))), (0). exact schaffer_n3_differs.
  - exists ((PI / 2)), (0). exact testtube_holder_differs.
  - exists (0), (0). exact ursem_waves_differs.
  - exists (0), (0). exact vss_differs.
  - exists (0), (0). exact wayburn_seader2_differs.
  - split; [exists (1 / 20); exact gramacy_lee_differs|]. split; [exists 1, 1, 0; exact schmidt_vetters_differs|].
    split; [exists 1, 0, 0; exact wolfe_differs|]. exists [1 / 2]. exact salomon_differs.
Qed.
Print Assumptions C109_not_the_published_functions.
Example C109_nonvacuous : value six_hump_camel [-1; 0] (47 / 30) /\ value wolfe [1; 0; 0] 1 /\ value deckkers_aarts [0; 1] 0.
Proof.
  split; [eapply value_eq; [exact (six_hump_camel_formula (-1) 0)|lra]|].
  split; [|eapply value_eq; [exact (deckkers_aarts_formula 0 1)|lra]].
  eapply value_eq; [exact (wolfe_formula 1 0 0 ltac:(left; lra))|]. replace (1 ^ 2 + 0 ^ 2 - 1 * 0) with 1 by ring. unfold Rpower. rewrite ln_1, Rmult_0_r, exp_0. lra.
Qed.
