(** * Bridge between [f64] and the real numbers, through Flocq *)
From Verif Require Import F64.
From Coq Require Import Reals Lra.
From Flocq Require Import Core BinarySingleNaN.

Local Instance Hprec53 : FLX.Prec_gt_0 53 := eq_refl.
Local Instance Hmax1024 : Prec_lt_emax 53 1024 := eq_refl.

Local Instance Hfexp : Valid_exp (SpecFloat.fexp 53 1024) := fexp_correct 53 1024 _.
Local Instance HNE : Valid_rnd ZnearestE := _.

(** A genuine binary64 value (normalised mantissa, exponent in range). *)
Definition fvalid (x : f64) : Prop := SpecFloat.valid_binary 53 1024 x = true.
Definition ffinite (x : f64) : bool := match x with S754_zero _ | S754_finite _ _ _ => true | _ => false end.
(** A finite value >= 0. *)
Definition nonneg_finite (x : f64) : Prop := fvalid x /\ ffinite x = true /\ fle f0 x = true.
(** The real value of a finite float (0 otherwise). *)
Definition f2r (x : f64) : R := SF2R radix2 x.
Definition rnd (x : R) : R := round radix2 (SpecFloat.fexp 53 1024) ZnearestE x.
Notation b64 := (binary_float 53 1024).
Notation BOUND := (bpow radix2 1024).

Lemma fvalid_B2SF (b : b64) : fvalid (B2SF b).
Proof. apply valid_binary_B2SF. Qed.
Lemma fvalid_ex x : fvalid x -> exists b : b64, x = B2SF b.
Proof. intros H. exists (SF2B x H). symmetry. apply B2SF_SF2B. Qed.
Lemma f2r_B (b : b64) : f2r (B2SF b) = B2R b.
Proof. apply SF2R_B2SF. Qed.
Lemma ffinite_B (b : b64) : ffinite (B2SF b) = is_finite b.
Proof. destruct b; reflexivity. Qed.
Lemma is_nan_B (b : b64) : F64.is_nan (B2SF b) = BinarySingleNaN.is_nan b.
Proof. destruct b; reflexivity. Qed.
Lemma ffinite_not_nan x : ffinite x = true -> F64.is_nan x = false.
Proof. destruct x; cbn; congruence. Qed.

Lemma round_nearest_even_eq s m l : round_nearest_even m l = choice_mode mode_NE s m l.
Proof. case l; [reflexivity|intro c]. case c; [ | reflexivity..]. now simpl; unfold Round.cond_incr; case Z.even. Qed.
Lemma binary_round_aux_eq sx mx ex lx :
  SpecFloat.binary_round_aux 53 1024 sx mx ex lx = binary_round_aux 53 1024 mode_NE sx mx ex lx.
Proof.
  unfold SpecFloat.binary_round_aux, binary_round_aux. set (mrse' := shr_fexp _ _ _).
  case mrse'; intros mrs' e'; simpl. now rewrite (round_nearest_even_eq sx).
Qed.
Lemma binary_round_eq s m e : SpecFloat.binary_round 53 1024 s m e = binary_round 53 1024 mode_NE s m e.
Proof.
  unfold SpecFloat.binary_round, binary_round, shl_align_fexp.
  set (mez := shl_align _ _ _); case mez as [mz ez]. apply binary_round_aux_eq.
Qed.
Lemma binary_normalize_eq m e szero :
  SpecFloat.binary_normalize 53 1024 m e szero = B2SF (binary_normalize 53 1024 Hprec53 Hmax1024 mode_NE m e szero).
Proof. case m as [ | p | p]; simpl; [reflexivity| |]; rewrite B2SF_SF2B; apply binary_round_eq. Qed.

Lemma fmul_B (x y : b64) : fmul (B2SF x) (B2SF y) = B2SF (Bmult mode_NE x y).
Proof.
  destruct x as [sx|sx| |sx mx ex Bx], y as [sy|sy| |sy my ey By]; try reflexivity.
  simpl. rewrite B2SF_SF2B. apply binary_round_aux_eq.
Qed.
Lemma fadd_B (x y : b64) : fadd (B2SF x) (B2SF y) = B2SF (Bplus mode_NE x y).
Proof.
  destruct x as [sx|sx| |sx mx ex Bx], y as [sy|sy| |sy my ey By]; try reflexivity; try (now (simpl; case Bool.eqb)).
  apply binary_normalize_eq.
Qed.
Lemma fsub_B (x y : b64) : fsub (B2SF x) (B2SF y) = B2SF (Bminus mode_NE x y).
Proof.
  destruct x as [sx|sx| |sx mx ex Bx], y as [sy|sy| |sy my ey By]; try reflexivity; try (now (simpl; case Bool.eqb)).
  simpl. unfold Zminus. rewrite <- cond_Zopp_negb. apply binary_normalize_eq.
Qed.
Lemma fdiv_B (x y : b64) : fdiv (B2SF x) (B2SF y) = B2SF (Bdiv mode_NE x y).
Proof.
  destruct x as [sx|sx| |sx mx ex Bx], y as [sy|sy| |sy my ey By]; try reflexivity.
  unfold fdiv, SFdiv. simpl. rewrite B2SF_SF2B.
  set (melz := SFdiv_core_binary _ _ _ _ _ _). case melz as [[mz ez] lz]. apply binary_round_aux_eq.
Qed.
Lemma fneg_B (x : b64) : fneg (B2SF x) = B2SF (Bopp x).
Proof. destruct x; reflexivity. Qed.
Lemma f_of_Z_B z : f_of_Z z = B2SF (binary_normalize 53 1024 Hprec53 Hmax1024 mode_NE z 0 false).
Proof. apply binary_normalize_eq. Qed.

Lemma fvalid_mul x y : fvalid x -> fvalid y -> fvalid (fmul x y).
Proof. intros [a ->]%fvalid_ex [b ->]%fvalid_ex. rewrite fmul_B. apply fvalid_B2SF. Qed.
Lemma fvalid_add x y : fvalid x -> fvalid y -> fvalid (fadd x y).
Proof. intros [a ->]%fvalid_ex [b ->]%fvalid_ex. rewrite fadd_B. apply fvalid_B2SF. Qed.
Lemma fvalid_sub x y : fvalid x -> fvalid y -> fvalid (fsub x y).
Proof. intros [a ->]%fvalid_ex [b ->]%fvalid_ex. rewrite fsub_B. apply fvalid_B2SF. Qed.
Lemma fvalid_div x y : fvalid x -> fvalid y -> fvalid (fdiv x y).
Proof. intros [a ->]%fvalid_ex [b ->]%fvalid_ex. rewrite fdiv_B. apply fvalid_B2SF. Qed.
Lemma fvalid_of_Z z : fvalid (f_of_Z z).
Proof. rewrite f_of_Z_B. apply fvalid_B2SF. Qed.

(** ** Order *)
Lemma fle_R x y : fvalid x -> fvalid y -> ffinite x = true -> ffinite y = true ->
  (fle x y = true <-> (f2r x <= f2r y)%R).
Proof.
  intros [a ->]%fvalid_ex [b ->]%fvalid_ex. rewrite !ffinite_B, !f2r_B. intros Ha Hb.
  change (fle (B2SF a) (B2SF b)) with (Bleb a b). rewrite (Bleb_correct _ _ a b Ha Hb).
  case Raux.Rle_bool_spec; split; intros; try discriminate; auto; lra.
Qed.
Lemma flt_R x y : fvalid x -> fvalid y -> ffinite x = true -> ffinite y = true ->
  (flt x y = true <-> (f2r x < f2r y)%R).
Proof.
  intros [a ->]%fvalid_ex [b ->]%fvalid_ex. rewrite !ffinite_B, !f2r_B. intros Ha Hb.
  change (flt (B2SF a) (B2SF b)) with (Bltb a b). rewrite (Bltb_correct _ _ a b Ha Hb).
  case Raux.Rlt_bool_spec; split; intros; try discriminate; auto; lra.
Qed.

(** ** Rounding *)
Lemma rnd_le x y : (x <= y)%R -> (rnd x <= rnd y)%R.
Proof. apply round_le; auto with typeclass_instances. Qed.
Lemma rnd_id x : fvalid x -> rnd (f2r x) = f2r x.
Proof.
  intros [a ->]%fvalid_ex. rewrite f2r_B. apply round_generic; auto with typeclass_instances. apply generic_format_B2R.
Qed.
Lemma f2r_bound x : fvalid x -> (Rabs (f2r x) < BOUND)%R.
Proof. intros [a ->]%fvalid_ex. rewrite f2r_B. apply abs_B2R_lt_emax. Qed.
Lemma rnd_0 : rnd 0 = 0%R.
Proof. apply round_0; auto with typeclass_instances. Qed.

(** Multiplication, addition, division and subtraction without overflow. *)
Lemma fmul_R x y : fvalid x -> fvalid y -> ffinite x = true -> ffinite y = true ->
  (Rabs (rnd (f2r x * f2r y)) < BOUND)%R ->
  f2r (fmul x y) = rnd (f2r x * f2r y) /\ ffinite (fmul x y) = true.
Proof.
  intros [a ->]%fvalid_ex [b ->]%fvalid_ex. rewrite fmul_B, !ffinite_B, !f2r_B. intros Ha Hb Hlt.
  pose proof (Bmult_correct 53 1024 _ _ mode_NE a b) as H. unfold rnd in *. cbn [round_mode] in H.
  rewrite Rlt_bool_true in H by exact Hlt. destruct H as (H1 & H2 & _). rewrite H1, H2, Ha, Hb. auto.
Qed.
Lemma fadd_R x y : fvalid x -> fvalid y -> ffinite x = true -> ffinite y = true ->
  (Rabs (rnd (f2r x + f2r y)) < BOUND)%R ->
  f2r (fadd x y) = rnd (f2r x + f2r y) /\ ffinite (fadd x y) = true.
Proof.
  intros [a ->]%fvalid_ex [b ->]%fvalid_ex. rewrite fadd_B, !ffinite_B, !f2r_B. intros Ha Hb Hlt.
  pose proof (Bplus_correct 53 1024 _ _ mode_NE a b Ha Hb) as H. unfold rnd in *. cbn [round_mode] in H.
  rewrite Rlt_bool_true in H by exact Hlt. destruct H as (H1 & H2 & _). rewrite H1, H2. auto.
Qed.
Lemma fsub_R x y : fvalid x -> fvalid y -> ffinite x = true -> ffinite y = true ->
  (Rabs (rnd (f2r x - f2r y)) < BOUND)%R ->
  f2r (fsub x y) = rnd (f2r x - f2r y) /\ ffinite (fsub x y) = true.
Proof.
  intros [a ->]%fvalid_ex [b ->]%fvalid_ex. rewrite fsub_B, !ffinite_B, !f2r_B. intros Ha Hb Hlt.
  pose proof (Bminus_correct 53 1024 _ _ mode_NE a b Ha Hb) as H. unfold rnd in *. cbn [round_mode] in H.
  rewrite Rlt_bool_true in H by exact Hlt. destruct H as (H1 & H2 & _). rewrite H1, H2. auto.
Qed.
Lemma fdiv_R x y : fvalid x -> fvalid y -> ffinite x = true -> f2r y <> 0%R ->
  (Rabs (rnd (f2r x / f2r y)) < BOUND)%R ->
  f2r (fdiv x y) = rnd (f2r x / f2r y) /\ ffinite (fdiv x y) = true.
Proof.
  intros [a ->]%fvalid_ex [b ->]%fvalid_ex. rewrite fdiv_B, !ffinite_B, !f2r_B. intros Ha Hb Hlt.
  pose proof (Bdiv_correct 53 1024 _ _ mode_NE a b Hb) as H. unfold rnd in *. cbn [round_mode] in H.
  rewrite Rlt_bool_true in H by exact Hlt. destruct H as (H1 & H2 & _). rewrite H1, H2. auto.
Qed.

(** ** Constants *)
Lemma fvalid_f0 : fvalid f0. Proof. reflexivity. Qed.
Lemma fvalid_f1 : fvalid f1. Proof. reflexivity. Qed.
Lemma f2r_f0 : f2r f0 = 0%R. Proof. reflexivity. Qed.
Lemma f2r_f1 : f2r f1 = 1%R.
Proof. unfold f2r, f1, SF2R, F2R. cbn [Fnum Fexp cond_Zopp]. change (bpow radix2 (-52)) with (/ IZR 4503599627370496)%R. apply Rinv_r. apply IZR_neq. lia. Qed.
Lemma fmax_bound x : fvalid x -> ffinite x = true -> (Rabs (f2r x) <= f2r fmax)%R.
Proof.
  intros [a ->]%fvalid_ex. rewrite ffinite_B, f2r_B. intros _.
  pose proof (abs_B2R_le_emax_minus_prec 53 1024 _ a) as H. eapply Rle_trans; [exact H|].
  right. unfold f2r, fmax, SF2R, F2R. cbn -[bpow IZR]. 
  change (bpow radix2 1024) with (bpow radix2 (53 + 971)). rewrite bpow_plus.
  change (1024 - 53)%Z with 971%Z. replace (IZR 9007199254740991) with (bpow radix2 53 - 1)%R; [ring|].
  change (bpow radix2 53) with (IZR 9007199254740992). rewrite <- minus_IZR. reflexivity.
Qed.

(** ** Unit draws *)
Lemma unit_digits p : (Z.pos (digits2_pos p) <= 53)%Z ->
  exists m, Z.to_pos (Z.pos p * 2 ^ (53 - Z.pos (digits2_pos p))) = m /\
    Z.pos m = (Z.pos p * 2 ^ (53 - Z.pos (digits2_pos p)))%Z /\ Z.pos (digits2_pos m) = 53%Z.
Proof.
  intros H. eexists; split; [reflexivity|].
  assert (Hp : (0 < Z.pos p * 2 ^ (53 - Z.pos (digits2_pos p)))%Z).
  { apply Z.mul_pos_pos; [lia|]. apply Z.pow_pos_nonneg; lia. }
  split; [apply Z2Pos.id; exact Hp|].
  rewrite Digits.Zpos_digits2_pos, Z2Pos.id by exact Hp.
  change 2%Z with (radix_val radix2) at 1. rewrite Digits.Zdigits_mult_Zpower by lia.
  rewrite <- Digits.Zpos_digits2_pos. lia.
Qed.

Lemma unit_digits_bound w k p : (w <= 53)%N -> (k < 2 ^ w)%N -> k = Npos p -> (1 <= Z.pos (digits2_pos p) <= 53)%Z.
Proof.
  intros Hw Hk ->. assert (Z.pos p < 2 ^ Z.of_N w)%Z by (apply N2Z.inj_lt in Hk; rewrite N2Z.inj_pow in Hk; exact Hk).
  pose proof (digits2_pos_bound p (Z.of_N w) ltac:(auto)). lia.
Qed.

Lemma fvalid_unit w k : (w <= 53)%N -> (k < 2 ^ w)%N -> fvalid (f_unit w k).
Proof.
  intros Hw Hk. destruct k as [|p]; [reflexivity|].
  pose proof (unit_digits_bound w _ p Hw Hk eq_refl) as Hd.
  destruct (unit_digits p) as (m & E & Em & Dm); [lia|].
  unfold f_unit, fvalid, SpecFloat.valid_binary. cbv zeta. rewrite E. unfold SpecFloat.bounded, SpecFloat.canonical_mantissa.
  rewrite Dm. unfold SpecFloat.fexp, SpecFloat.emin. apply andb_true_intro. split.
  - apply Zeq_bool_true. lia.
  - apply Z.leb_le. lia.
Qed.

Lemma f2r_unit w k : (w <= 53)%N -> (k < 2 ^ w)%N ->
  f2r (f_unit w k) = (IZR (Z.of_N k) * bpow radix2 (- Z.of_N w))%R.
Proof.
  intros Hw Hk. destruct k as [|p]; [cbn; lra|].
  pose proof (unit_digits_bound w _ p Hw Hk eq_refl) as Hd.
  destruct (unit_digits p) as (m & E & Em & Dm); [lia|].
  unfold f_unit, f2r, SF2R. rewrite E. unfold F2R. cbn [Fnum Fexp cond_Zopp]. rewrite Em.
  rewrite mult_IZR. change 2%Z with (radix_val radix2) at 1. rewrite IZR_Zpower by lia.
  rewrite Rmult_assoc, <- bpow_plus. cbn [Z.of_N]. do 2 f_equal. lia.
Qed.

Lemma ffinite_unit w k : ffinite (f_unit w k) = true.
Proof. destruct k; reflexivity. Qed.

Lemma f2r_unit_range w k : (w <= 53)%N -> (k < 2 ^ w)%N -> (0 <= f2r (f_unit w k) < 1)%R.
Proof.
  intros Hw Hk. pose proof (fvalid_unit w k Hw Hk) as V. pose proof (ffinite_unit w k) as F.
  destruct (f_unit_range w k Hk) as [H0 H1].
  apply fle_R in H0; auto using fvalid_f0. apply flt_R in H1; auto using fvalid_f1.
  rewrite f2r_f0 in H0. rewrite f2r_f1 in H1. lra.
Qed.

(** A non-negative finite number times a number of [0,1] does not grow, rounding included. *)
Lemma fmul_shrinks x u : fvalid x -> ffinite x = true -> fle f0 x = true ->
  fvalid u -> ffinite u = true -> (0 <= f2r u <= 1)%R ->
  fvalid (fmul x u) /\ ffinite (fmul x u) = true /\ fle f0 (fmul x u) = true /\ fle (fmul x u) x = true.
Proof.
  intros Vx Fx Hx Vu Fu Hu. apply fle_R in Hx; auto using fvalid_f0. rewrite f2r_f0 in Hx.
  assert (H0 : (0 <= f2r x * f2r u)%R) by (apply Rmult_le_pos; lra).
  assert (H1 : (f2r x * f2r u <= f2r x)%R).
  { rewrite <- (Rmult_1_r (f2r x)) at 2. apply Rmult_le_compat_l; lra. }
  assert (R0 : (0 <= rnd (f2r x * f2r u))%R) by (rewrite <- rnd_0; apply rnd_le; exact H0).
  assert (R1 : (rnd (f2r x * f2r u) <= f2r x)%R) by (rewrite <- (rnd_id x Vx) at 2; apply rnd_le; exact H1).
  pose proof (f2r_bound x Vx) as Hb.
  destruct (fmul_R x u Vx Vu Fx Fu) as [E F].
  { rewrite Rabs_pos_eq by exact R0. eapply Rle_lt_trans; [exact R1|]. rewrite Rabs_pos_eq in Hb by lra. exact Hb. }
  pose proof (fvalid_mul x u Vx Vu) as V. split_and!; auto.
  - apply fle_R; auto using fvalid_f0. rewrite f2r_f0, E. exact R0.
  - apply fle_R; auto. rewrite E. exact R1.
Qed.

(** ** Integers as floats *)
Lemma f_of_nat_exact n : (Z.of_nat n <= 2 ^ 53)%Z ->
  fvalid (f_of_nat n) /\ ffinite (f_of_nat n) = true /\ f2r (f_of_nat n) = INR n.
Proof.
  intros H. unfold f_of_nat. split; [apply fvalid_of_Z|].
  rewrite f_of_Z_B, ffinite_B, f2r_B.
  pose proof (binary_normalize_correct 53 1024 _ _ mode_NE (Z.of_nat n) 0 false) as Hc. cbv zeta in Hc.
  assert (E : F2R (Float radix2 (Z.of_nat n) 0) = INR n) by (unfold F2R; cbn; rewrite Rmult_1_r, <- INR_IZR_INZ; reflexivity).
  rewrite E in Hc.
  assert (G : round radix2 (SpecFloat.fexp 53 1024) (round_mode mode_NE) (INR n) = INR n).
  { apply round_generic; auto with typeclass_instances.
    destruct (Z.eq_dec (Z.of_nat n) (2 ^ 53)) as [E53|N53].
    - rewrite INR_IZR_INZ, E53. change (IZR (2 ^ 53)) with (bpow radix2 53).
      apply generic_format_bpow. unfold SpecFloat.fexp, SpecFloat.emin. lia.
    - apply generic_format_FLT. exists (Float radix2 (Z.of_nat n) 0); [rewrite E; reflexivity|cbn [Fnum]; change (Zpower radix2 53) with (2 ^ 53)%Z; lia|unfold SpecFloat.emin; cbn [Fexp]; lia]. }
  rewrite G in Hc. rewrite Rlt_bool_true in Hc.
  - destruct Hc as (H1 & H2 & _). split; [exact H2|exact H1].
  - rewrite Rabs_pos_eq by apply pos_INR. rewrite INR_IZR_INZ.
    apply Rle_lt_trans with (IZR (2 ^ 53)); [apply IZR_le; exact H|].
    change (IZR (2 ^ 53)) with (bpow radix2 53). apply bpow_lt. lia.
Qed.

Lemma f_to_usize_floor x : fvalid x -> ffinite x = true -> (0 <= f2r x)%R ->
  Z.of_N (f_to_usize x) = Z.min (2 ^ 64 - 1) (Zfloor (f2r x)).
Proof.
  intros V F H. destruct x as [s|s| |s m e]; try discriminate.
  - cbn [f_to_usize]. unfold f2r, SF2R. change 0%R with (IZR 0). rewrite Zfloor_IZR. reflexivity.
  - destruct s.
    + exfalso. unfold f2r, SF2R in H. cbn [cond_Zopp] in H. revert H. apply Rlt_not_le, F2R_lt_0. reflexivity.
    + unfold f_to_usize, f2r, SF2R. cbn [cond_Zopp]. rewrite N2Z.inj_min. f_equal.
      unfold F2R. cbn [Fnum Fexp]. destruct e as [|p|p].
      * cbn [bpow]. rewrite Rmult_1_r, Zfloor_IZR. reflexivity.
      * rewrite N2Z.inj_mul, N2Z.inj_pow. cbn [Z.of_N]. rewrite <- IZR_Zpower by lia. rewrite <- mult_IZR, Zfloor_IZR. reflexivity.
      * rewrite N2Z.inj_div, N2Z.inj_pow. cbn [Z.of_N]. 
        change (Z.neg p) with (- Z.pos p)%Z. rewrite bpow_opp, <- IZR_Zpower by lia.
        change (IZR (Z.pos m) * / IZR (radix2 ^ Z.pos p))%R with (IZR (Z.pos m) / IZR (radix2 ^ Z.pos p))%R.
        rewrite Zfloor_div; [reflexivity|]. cbn. lia.
Qed.
