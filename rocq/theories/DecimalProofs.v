(** * Decimal literals: the nearest binary64 numbers *)
From Verif Require Import BuilderModel FfModel F64R.
From Coq Require Import Reals Lra Lia.
Open Scope R_scope.

Lemma decimal (c : f64) (a b : nat) : c = fdiv (f_of_nat a) (f_of_nat b) -> (a <= 1000)%nat -> (0 < b <= 1000)%nat -> f2r c = rnd (INR a / INR b).
Proof.
  intros -> Ha [Hb Hb']. destruct (f_of_nat_exact a ltac:(lia)) as (Va & Fa & Ea). destruct (f_of_nat_exact b ltac:(lia)) as (Vb & Fb & Eb).
  destruct (f_of_nat_exact 1000 ltac:(lia)) as (Vk & Fk & Ek).
  assert (Pb : 1 <= INR b) by (apply (le_INR 1); lia). assert (Pa : 0 <= INR a) by apply pos_INR. assert (Pk : INR a <= INR 1000) by (apply le_INR, Ha).
  assert (Q0 : 0 <= INR a / INR b) by (apply Rmult_le_pos; [exact Pa|left; apply Rinv_0_lt_compat; lra]).
  assert (Q1 : INR a / INR b <= INR 1000).
  { apply Rle_trans with (INR a); [|exact Pk]. apply Rmult_le_reg_r with (INR b); [lra|]. unfold Rdiv. rewrite Rmult_assoc, Rinv_l, Rmult_1_r by lra. nra. }
  rewrite <- Ea, <- Eb in *. apply (fdiv_R (f_of_nat a) (f_of_nat b) Va Vb Fa); [lra|].
  rewrite Rabs_pos_eq; [|rewrite <- rnd_0; apply rnd_le; exact Q0].
  apply Rle_lt_trans with (f2r (f_of_nat 1000)); [rewrite <- (rnd_id _ Vk); apply rnd_le; rewrite Ek; exact Q1|]. apply Rle_lt_trans with (Rabs (f2r (f_of_nat 1000))); [apply Rle_abs|]. apply f2r_bound; assumption.
Qed.
Lemma preset_literals : f2r f_0_2 = rnd (2 / 10) /\ f2r f_0_05 = rnd (5 / 100).
Proof.
  split.
  - rewrite (decimal f_0_2 2 10 eq_refl ltac:(lia) ltac:(lia)). f_equal. cbn [INR]. lra.
  - rewrite (decimal f_0_05 5 100 eq_refl ltac:(lia) ltac:(lia)). f_equal. rewrite !INR_IZR_INZ. reflexivity.
Qed.
Lemma ff_literals : f2r f_0_01 = rnd (1 / 100) /\ f2r f_0_97 = rnd (97 / 100) /\ f2r f_0_99 = rnd (99 / 100).
Proof.
  split; [|split].
  - rewrite (decimal f_0_01 1 100 eq_refl ltac:(lia) ltac:(lia)). f_equal. rewrite !INR_IZR_INZ. reflexivity.
  - rewrite (decimal f_0_97 97 100 eq_refl ltac:(lia) ltac:(lia)). f_equal. rewrite !INR_IZR_INZ. reflexivity.
  - rewrite (decimal f_0_99 99 100 eq_refl ltac:(lia) ltac:(lia)). f_equal. rewrite !INR_IZR_INZ. reflexivity.
Qed.
