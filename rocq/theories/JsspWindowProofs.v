(** * The delay window of the job shop decoder: how much time a gene close to 1 gives; which genes are drawn (C139) *)
From Coq Require Import Reals Lra Lia Psatz.
From Verif Require Import F64R AcoGradeProofs JsspFloatProofs JsspModel.
From Flocq Require Import Core BinarySingleNaN Relative.
Local Existing Instances Hfexp HNE Hprec53 Hmax1024.
Open Scope R_scope.

(** The greatest number that can be drawn *)
Definition top_gene : f64 := f_unit 52 (2 ^ 52 - 1).
Lemma top_R : fvalid top_gene /\ ffinite top_gene = true /\ f2r top_gene = 1 - / 4503599627370496.
Proof.
  split; [apply fvalid_unit; lia|]. split; [apply ffinite_unit|]. unfold top_gene. rewrite f2r_unit by lia. change (bpow radix2 (- Z.of_N 52)) with (/ 4503599627370496). 
  replace (Z.of_N (2 ^ 52 - 1)) with (4503599627370495)%Z by reflexivity. lra.
Qed.
(** Large whole numbers are rounded *)
Lemma f_of_N_round x : (x <= 2 ^ 60)%N -> fvalid (f_of_N x) /\ ffinite (f_of_N x) = true /\ f2r (f_of_N x) = rnd (IZR (Z.of_N x)).
Proof.
  intros H. unfold f_of_N. split; [apply fvalid_of_Z|]. rewrite f_of_Z_B, ffinite_B, f2r_B.
  pose proof (binary_normalize_correct 53 1024 _ _ mode_NE (Z.of_N x) 0 false) as Hc. cbv zeta in Hc.
  assert (E : F2R (Float radix2 (Z.of_N x) 0) = IZR (Z.of_N x)) by (unfold F2R; cbn; lra). rewrite E in Hc.
  rewrite Rlt_bool_true in Hc; [destruct Hc as (H1 & H2 & _); auto|].
  assert (B : 0 <= IZR (Z.of_N x) <= 2305843009213693952) by (split; apply IZR_le; lia).
  assert (0 <= rnd (IZR (Z.of_N x)) <= 2305843009213693952) by (split; [rewrite <- rnd_0|rewrite <- rnd_c61]; apply rnd_le; lra).
  change (round radix2 (SpecFloat.fexp 53 1024) (round_mode mode_NE) (IZR (Z.of_N x))) with (rnd (IZR (Z.of_N x))). rewrite Rabs_pos_eq by lra. pose proof big_bound. change (bpow radix2 1024) with BOUND. lra.
Qed.
Lemma rnd_rel x : / 1267650600228229401496703205376 <= x -> rnd x >= x - x * / 9007199254740992.
Proof.
  intros H. pose proof (relative_error_N_FLT radix2 (-1074) 53 Hprec53 (fun n => negb (Z.even n)) x) as R.
  assert (0 < / 1267650600228229401496703205376) by lra.
  rewrite (Rabs_pos_eq x) in R by lra. assert (B : bpow radix2 (-1074 + 53 - 1) <= x).
  { apply Rle_trans with (bpow radix2 (-100)); [apply bpow_le; lia|]. change (bpow radix2 (-100)) with (/ 1267650600228229401496703205376). exact H. }
  specialize (R B). change (round radix2 (FLT_exp (-1074) 53) (Znearest (fun n => negb (Z.even n))) x) with (rnd x) in R. change (bpow radix2 (- (53) + 1)) with (/ 4503599627370496) in R.
  apply Rabs_le_inv in R. nra.
Qed.
(** The window at time 0 for this gene *)
Lemma top_window dc lg t : is_delay_const dc -> (lg <= 2 ^ 50)%N -> (t <= 2 ^ 50)%N -> IZR (Z.of_N t) + 1 <= f2r dc * IZR (Z.of_N lg) ->
  forall a, (a <= t)%N -> fle (f_of_N a) (fadd (f_of_N 0) (fmul (fmul top_gene dc) (f_of_N lg))) = true.
Proof.
  intros Hc Hl Ht Room a Ha. destruct (delay_const_R dc Hc) as [Fc Bc]. destruct Hc as (Vc & _). destruct top_R as (Vg & Fg & Eg).
  destruct (f_of_N_exact lg ltac:(lia)) as (Vm & Fm & Em). destruct (f_of_N_exact a ltac:(lia)) as (Va & Fa & Ea). destruct (f_of_N_exact 0 ltac:(lia)) as (V0 & F0 & E0).
  assert (Bm : 0 <= IZR (Z.of_N lg) <= 1125899906842624) by (split; apply IZR_le; lia).
  assert (Bt : 0 <= IZR (Z.of_N t) <= 1125899906842624) by (split; apply IZR_le; lia).
  assert (Bat : 0 <= IZR (Z.of_N a) <= IZR (Z.of_N t)) by (split; apply IZR_le; lia).
  set (L := IZR (Z.of_N lg)) in *. set (T := IZR (Z.of_N t)) in *. set (A := IZR (Z.of_N a)) in *. set (D := f2r dc) in *.
  pose proof big_bound.
  assert (D1 : 1 <= D * 1125899906842624) by nra.
  assert (P0 : / 1267650600228229401496703205376 <= (1 - / 4503599627370496) * D) by lra.
  pose proof (rnd_rel _ P0) as R1. set (Q := rnd ((1 - / 4503599627370496) * D)) in *.
  assert (Q1 : 0 <= Q <= 1000). { split; [|rewrite <- rnd_c1000; apply rnd_le; nra]. rewrite <- rnd_0. apply rnd_le. lra. }
  destruct (fmul_R top_gene dc Vg Vc Fg Fc) as [E1 F1]. { rewrite Eg. fold D. fold Q. rewrite Rabs_pos_eq by lra. lra. }
  rewrite Eg in E1. fold D in E1. fold Q in E1. pose proof (fvalid_mul top_gene dc Vg Vc) as V1.
  assert (QL : T <= Q * L).
  { assert (Q >= D * (1 - / 2251799813685248)) by nra. assert (D * (1 - / 2251799813685248) * L <= Q * L) by nra. assert (D * L >= T + 1) by lra. nra. }
  assert (P2 : T <= rnd (Q * L) <= 1125899906842624000).
  { split; [|rewrite <- rnd_c60; apply rnd_le; nra]. destruct (f_of_N_exact t ltac:(lia)) as (Vt & _ & Et). fold T in Et. rewrite <- Et at 1. rewrite <- (rnd_id _ Vt) at 1. rewrite Et. apply rnd_le. exact QL. }
  destruct (fmul_R (fmul top_gene dc) (f_of_N lg) V1 Vm F1 Fm) as [E2 F2]. { rewrite E1, Em. fold L. rewrite Rabs_pos_eq by lra. lra. }
  rewrite E1, Em in E2. fold L in E2. pose proof (fvalid_mul _ _ V1 Vm) as V2.
  assert (Z0 : f2r (f_of_N 0) = 0) by (rewrite E0; reflexivity).
  destruct (fadd_R (f_of_N 0) (fmul (fmul top_gene dc) (f_of_N lg)) V0 V2 F0 F2) as [E3 F3].
  { rewrite Z0, E2, Rplus_0_l, <- E2, (rnd_id _ V2), E2. rewrite Rabs_pos_eq by lra. lra. }
  apply fle_R; [exact Va|apply fvalid_add; assumption|exact Fa|exact F3|]. rewrite Ea, E3, Z0, Rplus_0_l, (rnd_id _ V2), E2. fold A. lra.
Qed.
(** Genes that are drawn *)
Lemma scale_unit k : (k < 2 ^ 52)%N -> scale (f0, f1) (f_unit 52 k) = f_unit 52 k.
Proof.
  intros Hk. destruct (N.eq_dec k 0) as [->|Nz]; [reflexivity|]. unfold scale. cbn [fst snd]. change (fsub f1 f0) with f1.
  pose proof (fvalid_unit 52 k ltac:(lia) Hk) as V. pose proof (ffinite_unit 52 k) as F. pose proof (f2r_unit 52 k ltac:(lia) Hk) as E. pose proof (f2r_unit_range 52 k ltac:(lia) Hk) as R.
  assert (V1 : fvalid f1) by reflexivity. assert (V0 : fvalid f0) by reflexivity.
  assert (E1 : f2r f1 = 1). { unfold f2r, SF2R, f1, F2R. cbn [Fnum Fexp cond_Zopp]. change (bpow radix2 (-52)) with (/ 4503599627370496). lra. }
  pose proof big_bound as B.
  destruct (fmul_R f1 (f_unit 52 k) V1 V eq_refl F) as [Em Fm]. { rewrite E1, Rmult_1_l, rnd_id by exact V. rewrite Rabs_pos_eq by lra. lra. }
  rewrite E1, Rmult_1_l, rnd_id in Em by exact V. pose proof (fvalid_mul _ _ V1 V) as Vm.
  destruct (fadd_R (fmul f1 (f_unit 52 k)) f0 Vm V0 Fm eq_refl) as [Ea Fa]. { rewrite f2r_f0, Em, Rplus_0_r, rnd_id by exact V. rewrite Rabs_pos_eq by lra. lra. }
  rewrite f2r_f0, Em, Rplus_0_r, rnd_id in Ea by exact V.
  assert (Nz' : f2r (f_unit 52 k) <> 0). { rewrite E. apply Rgt_not_eq. apply Rmult_lt_0_compat; [apply IZR_lt; lia|apply bpow_gt_0]. }
  apply f2r_inj; [apply fvalid_add; assumption|exact V|exact Fa|exact F|exact Ea|rewrite Ea; exact Nz'].
Qed.
