(** * Floating-point facts about the delay window of the job shop decoder *)
From Coq Require Import Reals Lra Lia Psatz.
From Verif Require Import F64R JsspModel.
From Flocq Require Import Core BinarySingleNaN.
Local Existing Instances Hfexp HNE Hprec53 Hmax1024.
Open Scope R_scope.

Lemma f_of_N_nat x : f_of_N x = f_of_nat (N.to_nat x).
Proof. unfold f_of_N, f_of_nat. rewrite N_nat_Z. reflexivity. Qed.
Lemma f_of_N_exact x : (x <= 2 ^ 53)%N -> fvalid (f_of_N x) /\ ffinite (f_of_N x) = true /\ f2r (f_of_N x) = IZR (Z.of_N x).
Proof.
  intros H. rewrite f_of_N_nat. pose proof (f_of_nat_exact (N.to_nat x) ltac:(lia)) as (V & F & E).
  split; [exact V|]. split; [exact F|]. rewrite E, INR_IZR_INZ. f_equal. lia.
Qed.
Lemma f_of_N_max : fvalid (f_of_N usize_max) /\ ffinite (f_of_N usize_max) = true /\ f2r (f_of_N usize_max) = 18446744073709551616.
Proof.
  split; [apply fvalid_of_Z|]. split; [vm_compute; reflexivity|].
  replace (f_of_N usize_max) with (S754_finite false 4503599627370496 12) by (vm_compute; reflexivity). unfold f2r, SF2R, F2R. cbn [Fnum Fexp cond_Zopp]. change (bpow radix2 12) with 4096. lra.
Qed.
Lemma rnd_c61 : rnd 2305843009213693952 = 2305843009213693952.
Proof.
  pose proof (rnd_id (S754_finite false 4503599627370496 9) ltac:(vm_compute; reflexivity)) as H.
  unfold f2r, SF2R, F2R in H. cbn [Fnum Fexp cond_Zopp] in H. change (bpow radix2 9) with 512 in H. replace (4503599627370496 * 512) with 2305843009213693952 in H by lra. exact H.
Qed.
Lemma rnd_c1000 : rnd 1000 = 1000.
Proof.
  destruct (f_of_N_exact 1000 ltac:(lia)) as (V & _ & E). pose proof (rnd_id _ V) as H. rewrite E in H. exact H.
Qed.
Lemma rnd_c60 : rnd 1125899906842624000 = 1125899906842624000.
Proof.
  pose proof (rnd_id (S754_finite false 8796093022208000 7) ltac:(vm_compute; reflexivity)) as H.
  unfold f2r, SF2R, F2R in H. cbn [Fnum Fexp cond_Zopp] in H. change (bpow radix2 7) with 128 in H. replace (8796093022208000 * 128) with 1125899906842624000 in H by lra. exact H.
Qed.
Lemma big_bound : 2305843009213693952 < BOUND.
Proof.
  apply Rlt_trans with (bpow radix2 62); [|change BOUND with (bpow radix2 1024); apply bpow_lt; reflexivity].
  change (bpow radix2 62) with 4611686018427387904. lra.
Qed.

(** A delay between 0 and 1000 * 2^50 *)
Definition good_delay (d : f64) : Prop := fvalid d /\ ffinite d = true /\ 0 <= f2r d <= 1125899906842624000.
Lemma limit_R t d : (t <= 2 ^ 53)%N -> good_delay d ->
  let l := fadd (f_of_N t) d in fvalid l /\ ffinite l = true /\ IZR (Z.of_N t) <= f2r l <= 2305843009213693952.
Proof.
  intros Ht (Vd & Fd & Hd) l. destruct (f_of_N_exact t Ht) as (Vt & Ft & Et).
  assert (B : 0 <= IZR (Z.of_N t) <= 9007199254740992) by (split; [apply IZR_le; lia|apply IZR_le; lia]).
  assert (R1 : IZR (Z.of_N t) <= rnd (f2r (f_of_N t) + f2r d)).
  { rewrite <- Et at 1. rewrite <- (rnd_id _ Vt) at 1. apply rnd_le. lra. }
  assert (R2 : rnd (f2r (f_of_N t) + f2r d) <= 2305843009213693952) by (rewrite <- rnd_c61; apply rnd_le; rewrite Et; lra).
  destruct (fadd_R _ _ Vt Vd Ft Fd) as [E F].
  { rewrite Rabs_pos_eq by lra. pose proof big_bound. lra. }
  split; [apply fvalid_add; assumption|]. split; [exact F|]. unfold l. rewrite E. lra.
Qed.
Lemma unscheduled_too_late t d : (t <= 2 ^ 53)%N -> good_delay d -> fgt (f_of_N usize_max) (fadd (f_of_N t) d) = true.
Proof.
  intros Ht Hd. destruct (limit_R t d Ht Hd) as (V & F & B). destruct f_of_N_max as (Vm & Fm & Em).
  unfold fgt. apply flt_R; auto. rewrite Em. lra.
Qed.
Lemma reached_not_too_late t tp d : (tp <= t)%N -> (t <= 2 ^ 53)%N -> good_delay d -> fgt (f_of_N tp) (fadd (f_of_N t) d) = false.
Proof.
  intros Hle Ht Hd. destruct (limit_R t d Ht Hd) as (V & F & B). destruct (f_of_N_exact tp ltac:(lia)) as (Vp & Fp & Ep).
  unfold fgt. destruct (flt _ _) eqn:E; [|reflexivity]. exfalso. apply flt_R in E; auto. rewrite Ep in E.
  assert (IZR (Z.of_N tp) <= IZR (Z.of_N t)) by (apply IZR_le; lia). lra.
Qed.

(** A gene: a number from 0 to 1 *)
Definition is_gene (x : f64) : Prop := fvalid x /\ fle f0 x = true /\ fle x f1 = true.
(** A delay constant: a number from 0 to 1000 *)
Definition is_delay_const (x : f64) : Prop := fvalid x /\ fle f0 x = true /\ fle x (f_of_Z 1000) = true.
Lemma bounded_finite x lo hi : fle lo x = true -> fle x hi = true -> ffinite lo = true -> ffinite hi = true -> ffinite x = true.
Proof. destruct x as [|[|]| |], lo as [|[|]| |[|]], hi as [|[|]| |[|]]; cbn; intros; try discriminate; reflexivity. Qed.
Lemma gene_R x : is_gene x -> ffinite x = true /\ 0 <= f2r x <= 1.
Proof.
  intros (V & L & H). assert (F : ffinite x = true) by exact (bounded_finite x f0 f1 L H eq_refl eq_refl). split; [exact F|].
  apply fle_R in L; auto using fvalid_f0. apply fle_R in H; auto using fvalid_f1. rewrite f2r_f0 in L. rewrite f2r_f1 in H. lra.
Qed.
Lemma delay_const_R x : is_delay_const x -> ffinite x = true /\ 0 <= f2r x <= 1000.
Proof.
  intros (V & L & H). assert (E : f_of_Z 1000 = f_of_N 1000) by reflexivity. rewrite E in H. destruct (f_of_N_exact 1000 ltac:(lia)) as (Vm & Fm & Em).
  assert (F : ffinite x = true) by exact (bounded_finite x f0 _ L H eq_refl Fm). split; [exact F|].
  apply fle_R in L; auto using fvalid_f0. apply fle_R in H; auto. rewrite f2r_f0 in L. rewrite Em in H. cbn in H. lra.
Qed.
Lemma delay_good x c maxdur : is_gene x -> is_delay_const c -> (maxdur <= 2 ^ 50)%N -> good_delay (fmul (fmul x c) (f_of_N maxdur)).
Proof.
  intros Hx Hc Hm. destruct (gene_R x Hx) as [Fx Bx]. destruct (delay_const_R c Hc) as [Fc Bc]. destruct Hx as (Vx & _), Hc as (Vc & _).
  destruct (f_of_N_exact maxdur ltac:(lia)) as (Vm & Fm & Em).
  assert (Bm : 0 <= IZR (Z.of_N maxdur) <= 1125899906842624) by (split; apply IZR_le; lia).
  pose proof big_bound.
  assert (P1 : 0 <= rnd (f2r x * f2r c) <= 1000).
  { split; [rewrite <- rnd_0; apply rnd_le; nra|]. rewrite <- rnd_c1000. apply rnd_le. nra. }
  destruct (fmul_R x c Vx Vc Fx Fc) as [E1 F1]. { rewrite Rabs_pos_eq by lra. lra. }
  pose proof (fvalid_mul x c Vx Vc) as V1.
  assert (P2 : 0 <= rnd (f2r (fmul x c) * f2r (f_of_N maxdur)) <= 1125899906842624000).
  { rewrite E1, Em. split; [rewrite <- rnd_0; apply rnd_le; nra|]. rewrite <- rnd_c60. apply rnd_le. nra. }
  destruct (fmul_R (fmul x c) (f_of_N maxdur) V1 Vm F1 Fm) as [E2 F2]. { rewrite Rabs_pos_eq by lra. lra. }
  split; [apply fvalid_mul; assumption|]. split; [exact F2|]. rewrite E2. exact P2.
Qed.
Lemma gene_priority x : is_gene x -> fgt x fmin = true.
Proof. intros (_ & L & _). unfold fgt. apply (flt_le_trans fmin f0 x); [reflexivity|exact L]. Qed.
