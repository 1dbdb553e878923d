(** * The shares of the population that the job shop program keeps and renews *)
From Verif Require Export F64R JsspMainSpec.
From Coq Require Import Reals Lra.
From Flocq Require Import Core BinarySingleNaN.
Local Existing Instances Hfexp HNE Hprec53 Hmax1024.
Open Scope nat_scope.

Lemma rnd_16th m : (0 <= m < 2 ^ 53)%Z -> rnd (IZR m / 16) = (IZR m / 16)%R.
Proof.
  intros H. apply round_generic; [apply HNE|]. assert (E : (IZR m / 16 = F2R (Float radix2 m (-4)))%R). { unfold F2R. cbn [Fnum Fexp]. change (bpow radix2 (-4)) with (/ 16)%R. reflexivity. }
  rewrite E. apply (generic_format_FLT radix2 (-1074) 53). exists (Float radix2 m (-4)); [reflexivity| |]; cbn [Fnum Fexp]; [|lia]. change (2 ^ 53)%Z with 9007199254740992%Z in H. change (radix2 ^ 53)%Z with 9007199254740992%Z. lia.
Qed.
Lemma share_div rate D n : fvalid rate -> ffinite rate = true -> 5 <= D <= 10 -> n <= 2 ^ 50 ->
  (/ INR D <= f2r rate)%R -> (f2r rate <= / INR D + / INR D * / 2 ^ 54)%R -> part rate n = n / D.
Proof.
  intros Vr Fr HD Hn Lo Hi. assert (Hn' : (Z.of_nat n <= 2 ^ 50)%Z). { apply inj_le in Hn. rewrite Nat2Z.inj_pow in Hn. exact Hn. } clear Hn.
  destruct (f_of_nat_exact n ltac:(lia)) as (Vn & Fn & En). pose proof (Nat.div_mod n D ltac:(lia)) as Edm. pose proof (Nat.mod_upper_bound n D ltac:(lia)) as Hm. set (q := n / D) in *. set (t := n mod D) in *.
  assert (DR : (5 <= INR D <= 10)%R). { split; [change 5%R with (IZR (Z.of_nat 5))|change 10%R with (IZR (Z.of_nat 10))]; rewrite <- INR_IZR_INZ; apply le_INR; lia. }
  assert (ER : (INR n = INR D * INR q + INR t)%R) by (rewrite Edm, plus_INR, mult_INR; reflexivity). assert (TR : (0 <= INR t <= INR D - 1)%R). { split; [apply pos_INR|]. replace (INR D - 1)%R with (INR (D - 1)); [apply le_INR; lia|]. rewrite minus_INR by lia. reflexivity. }
  assert (NR : (0 <= INR n <= 2 ^ 50)%R). { split; [apply pos_INR|]. rewrite INR_IZR_INZ. replace (2 ^ 50)%R with (IZR (2 ^ 50)) by (rewrite (pow_IZR 2 50); reflexivity). apply IZR_le, Hn'. }
  assert (Hid : (/ INR D * INR D = 1)%R) by (apply Rinv_l; lra). assert (ID : (/ 10 <= / INR D <= / 5)%R) by (split; apply Rinv_le_contravar; lra).
  assert (Q0 : (INR q <= f2r rate * INR n)%R). { apply Rle_trans with (/ INR D * INR n)%R; [|apply Rmult_le_compat_r; lra]. rewrite ER. rewrite Rmult_plus_distr_l, <- Rmult_assoc, Hid. assert (0 <= / INR D * INR t)%R by (apply Rmult_le_pos; lra). lra. }
  assert (Q1 : (f2r rate * INR n <= INR q + 15 / 16)%R).
  { apply Rle_trans with ((/ INR D + / INR D * / 2 ^ 54) * INR n)%R; [apply Rmult_le_compat_r; lra|]. assert (P1 : (/ INR D * INR n = INR q + / INR D * INR t)%R) by (rewrite ER, Rmult_plus_distr_l, <- Rmult_assoc, Hid; ring).
    assert (P2 : (/ INR D * INR t <= 9 / 10)%R). { apply Rle_trans with (/ INR D * (INR D - 1))%R; [apply Rmult_le_compat_l; lra|]. rewrite Rmult_minus_distr_l, Hid. lra. }
    assert (P3 : (/ INR D * / 2 ^ 54 * INR n <= 1 / 80)%R). { apply Rle_trans with (/ 5 * / 2 ^ 54 * 2 ^ 50)%R; [|lra]. apply Rmult_le_compat; [|lra| |lra]; [apply Rmult_le_pos; lra|apply Rmult_le_compat_r; lra]. }
    rewrite Rmult_plus_distr_r, P1. lra. }
  assert (Hq : (Z.of_nat q <= 2 ^ 48)%Z) by (assert (5 * q <= n) by nia; lia).
  set (m := (16 * Z.of_nat q + 15)%Z). assert (Em : (IZR m / 16 = INR q + 15 / 16)%R) by (unfold m; rewrite plus_IZR, mult_IZR, <- INR_IZR_INZ; field).
  assert (Up : (rnd (f2r rate * INR n) <= INR q + 15 / 16)%R). { rewrite <- Em, <- rnd_16th by (unfold m; lia). apply rnd_le. rewrite Em. exact Q1. }
  assert (Dn : (INR q <= rnd (f2r rate * INR n))%R). { destruct (f_of_nat_exact q ltac:(lia)) as (Vq & _ & Eq). rewrite <- Eq, <- (rnd_id _ Vq). apply rnd_le. rewrite Eq. exact Q0. }
  assert (Q2 : (0 <= INR q <= 2 ^ 48)%R). { split; [apply pos_INR|]. rewrite INR_IZR_INZ. replace (2 ^ 48)%R with (IZR (2 ^ 48)) by (rewrite (pow_IZR 2 48); reflexivity). apply IZR_le, Hq. }
  destruct (fmul_R rate (f_of_nat n) Vr Vn Fr Fn) as [Ef Ff].
  { rewrite En. rewrite Rabs_pos_eq by lra. apply Rle_lt_trans with (bpow radix2 60); [|apply bpow_lt; lia]. change (bpow radix2 60) with (IZR (2 ^ 60)). replace (IZR (2 ^ 60)) with (2 ^ 60)%R by (rewrite pow_IZR; reflexivity). lra. }
  rewrite En in Ef. unfold part. pose proof (f_to_usize_floor (fmul rate (f_of_nat n)) (fvalid_mul _ _ Vr Vn) Ff ltac:(rewrite Ef; lra)) as Eu. rewrite Ef in Eu.
  assert (Zf : Zfloor (rnd (f2r rate * INR n)) = Z.of_nat q). { apply Zfloor_imp. rewrite plus_IZR, <- INR_IZR_INZ. lra. }
  rewrite Zf in Eu. apply Nat2Z.inj. rewrite N_nat_Z, Eu. change (2 ^ 64)%Z with 18446744073709551616%Z. change (2 ^ 48)%Z with 281474976710656%Z in Hq. lia.
Qed.
Lemma main_elite_R : f2r main_elite = (3602879701896397 * / 36028797018963968)%R.
Proof. unfold f2r. replace main_elite with (S754_finite false 7205759403792794 (-56)) by (vm_compute; reflexivity). unfold SF2R, F2R. cbn [cond_Zopp Fnum Fexp]. change (bpow radix2 (-56)) with (/ IZR (2 ^ 56))%R. change (2 ^ 56)%Z with 72057594037927936%Z. lra. Qed.
Lemma main_sample_R : f2r main_sample = (3602879701896397 * / 18014398509481984)%R.
Proof. unfold f2r. replace main_sample with (S754_finite false 7205759403792794 (-55)) by (vm_compute; reflexivity). unfold SF2R, F2R. cbn [cond_Zopp Fnum Fexp]. change (bpow radix2 (-55)) with (/ IZR (2 ^ 55))%R. change (2 ^ 55)%Z with 36028797018963968%Z. lra. Qed.
Lemma elite_share n : n <= 2 ^ 50 -> part main_elite n = n / 10.
Proof.
  intros H. apply share_div; [vm_compute; reflexivity|vm_compute; reflexivity|lia|exact H| |]; rewrite main_elite_R; replace (INR 10) with 10%R by (rewrite INR_IZR_INZ; reflexivity); lra.
Qed.
Lemma sample_share n : n <= 2 ^ 50 -> part main_sample n = n / 5.
Proof.
  intros H. apply share_div; [vm_compute; reflexivity|vm_compute; reflexivity|lia|exact H| |]; rewrite main_sample_R; replace (INR 5) with 5%R by (rewrite INR_IZR_INZ; reflexivity); lra.
Qed.
