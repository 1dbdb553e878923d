(** * Property theorem: the constants of the firefly algorithm (C50, C67) *)
From Verif Require Import F64R FfModel.
From Coq Require Import Reals Lra Lia.
From Coquelicot Require Import Coquelicot.
Open Scope R_scope.

Lemma exp_derivatives n x : is_derive_n exp n x (exp x).
Proof.
  revert x. induction n as [|n IH]; intros x; [reflexivity|]. cbn. apply (is_derive_ext exp); [intros t; symmetry; apply is_derive_n_unique; exact (IH t)|]. exact (is_derive_exp x).
Qed.
Lemma euler_bounds : sum_f_R0 (fun m => / INR (fact m)) 20 < exp 1 < sum_f_R0 (fun m => / INR (fact m)) 20 + 3 / INR (fact 21).
Proof.
  destruct (Taylor_Lagrange exp 20 0 1 Rlt_0_1) as (z & Hz & E); [intros t _ k _; destruct k as [|k]; [exact I|]; exists (exp t); exact (exp_derivatives (Datatypes.S k) t)|].
  assert (S : sum_f_R0 (fun m => (1 - 0) ^ m / INR (fact m) * Derive_n exp m 0) 20 = sum_f_R0 (fun m => / INR (fact m)) 20).
  { apply sum_eq. intros i _. rewrite Rminus_0_r, pow1. rewrite (is_derive_n_unique _ _ _ _ (exp_derivatives i 0)), exp_0. unfold Rdiv. ring. }
  rewrite S in E. rewrite (is_derive_n_unique _ _ _ _ (exp_derivatives 21 z)), Rminus_0_r, pow1 in E. rewrite E.
  assert (P : 0 < / INR (fact 21)) by (apply Rinv_0_lt_compat, lt_0_INR, lt_O_fact). pose proof (exp_pos z). pose proof exp_le_3. pose proof (exp_increasing z 1 ltac:(lra)).
  unfold Rdiv. rewrite Rmult_1_l. split; [nra|]. apply Rplus_lt_compat_l. rewrite (Rmult_comm (/ _)). apply Rmult_lt_compat_r; lra.
Qed.
Lemma fact_step n : INR (fact (Datatypes.S n)) = INR (Datatypes.S n) * INR (fact n).
Proof. rewrite <- mult_INR. reflexivity. Qed.

(** The literals 0.01, 0.97 and 0.99 are the doubles nearest to these numbers, the base of the powers is a double nearest to Euler's number. *)
Theorem C50_constants :
  f_0_01 = fdiv f1 (f_of_nat 100) /\ f_0_97 = fdiv (f_of_nat 97) (f_of_nat 100) /\ f_0_99 = fdiv (f_of_nat 99) (f_of_nat 100) /\
  fvalid f_E /\ ffinite f_E = true /\ Rabs (f2r f_E - exp 1) <= / 2 ^ 52.
Proof.
  split; [vm_compute; reflexivity|]. split; [vm_compute; reflexivity|]. split; [vm_compute; reflexivity|]. split; [reflexivity|]. split; [reflexivity|].
  assert (V : f_E = S754_finite false 6121026514868073 (-51)) by (vm_compute; reflexivity). rewrite V.
  assert (f2r (S754_finite false 6121026514868073 (-51)) = IZR 6121026514868073 * / IZR 2251799813685248) as -> by reflexivity.
  replace (2 ^ 52) with (IZR 4503599627370496) by (rewrite pow_IZR; reflexivity).
  pose proof euler_bounds as [L U]. cbn [sum_f_R0] in L, U. assert (F0 : INR (fact 0) = 1) by reflexivity.
  assert (F1 : INR (fact 1) = 1) by (rewrite fact_step, F0, INR_IZR_INZ; change (Z.of_nat 1) with 1%Z; lra).
  assert (F2 : INR (fact 2) = 2) by (rewrite fact_step, F1, INR_IZR_INZ; change (Z.of_nat 2) with 2%Z; lra).
  assert (F3 : INR (fact 3) = 6) by (rewrite fact_step, F2, INR_IZR_INZ; change (Z.of_nat 3) with 3%Z; lra).
  assert (F4 : INR (fact 4) = 24) by (rewrite fact_step, F3, INR_IZR_INZ; change (Z.of_nat 4) with 4%Z; lra).
  assert (F5 : INR (fact 5) = 120) by (rewrite fact_step, F4, INR_IZR_INZ; change (Z.of_nat 5) with 5%Z; lra).
  assert (F6 : INR (fact 6) = 720) by (rewrite fact_step, F5, INR_IZR_INZ; change (Z.of_nat 6) with 6%Z; lra).
  assert (F7 : INR (fact 7) = 5040) by (rewrite fact_step, F6, INR_IZR_INZ; change (Z.of_nat 7) with 7%Z; lra).
  assert (F8 : INR (fact 8) = 40320) by (rewrite fact_step, F7, INR_IZR_INZ; change (Z.of_nat 8) with 8%Z; lra).
  assert (F9 : INR (fact 9) = 362880) by (rewrite fact_step, F8, INR_IZR_INZ; change (Z.of_nat 9) with 9%Z; lra).
  assert (F10 : INR (fact 10) = 3628800) by (rewrite fact_step, F9, INR_IZR_INZ; change (Z.of_nat 10) with 10%Z; lra).
  assert (F11 : INR (fact 11) = 39916800) by (rewrite fact_step, F10, INR_IZR_INZ; change (Z.of_nat 11) with 11%Z; lra).
  assert (F12 : INR (fact 12) = 479001600) by (rewrite fact_step, F11, INR_IZR_INZ; change (Z.of_nat 12) with 12%Z; lra).
  assert (F13 : INR (fact 13) = 6227020800) by (rewrite fact_step, F12, INR_IZR_INZ; change (Z.of_nat 13) with 13%Z; lra).
  assert (F14 : INR (fact 14) = 87178291200) by (rewrite fact_step, F13, INR_IZR_INZ; change (Z.of_nat 14) with 14%Z; lra).
  assert (F15 : INR (fact 15) = 1307674368000) by (rewrite fact_step, F14, INR_IZR_INZ; change (Z.of_nat 15) with 15%Z; lra).
  assert (F16 : INR (fact 16) = 20922789888000) by (rewrite fact_step, F15, INR_IZR_INZ; change (Z.of_nat 16) with 16%Z; lra).
  assert (F17 : INR (fact 17) = 355687428096000) by (rewrite fact_step, F16, INR_IZR_INZ; change (Z.of_nat 17) with 17%Z; lra).
  assert (F18 : INR (fact 18) = 6402373705728000) by (rewrite fact_step, F17, INR_IZR_INZ; change (Z.of_nat 18) with 18%Z; lra).
  assert (F19 : INR (fact 19) = 121645100408832000) by (rewrite fact_step, F18, INR_IZR_INZ; change (Z.of_nat 19) with 19%Z; lra).
  assert (F20 : INR (fact 20) = 2432902008176640000) by (rewrite fact_step, F19, INR_IZR_INZ; change (Z.of_nat 20) with 20%Z; lra).
  assert (F21 : INR (fact 21) = 51090942171709440000) by (rewrite fact_step, F20, INR_IZR_INZ; change (Z.of_nat 21) with 21%Z; lra).
  rewrite F0, F1, F2, F3, F4, F5, F6, F7, F8, F9, F10, F11, F12, F13, F14, F15, F16, F17, F18, F19, F20 in L. rewrite F0, F1, F2, F3, F4, F5, F6, F7, F8, F9, F10, F11, F12, F13, F14, F15, F16, F17, F18, F19, F20, F21 in U.
  apply Rabs_le. split; lra.
Qed.
Print Assumptions C50_constants.
