(** * Intervals with integer ends, through the f64 operations *)
From Verif Require Import F64R PopulationSpec PopulationProofs TfF64Proofs.
From Flocq Require Import Core BinarySingleNaN.
From Coq Require Import Lra Lia.
Open Scope Z_scope.

Definition iv (lo hi : Z) (x : f64) : Prop := finite_f64 x /\ (IZR lo <= f2r x <= IZR hi)%R.
Definition small (z : Z) : Prop := -10000000 <= z <= 10000000.

Lemma rnd_IZR_pos z : 0 <= z <= 10000000 -> rnd (IZR z) = IZR z.
Proof.
  intros H. destruct (f_of_nat_exact (Z.to_nat z)) as (V & F & E); [lia|]. rewrite INR_IZR_INZ, Z2Nat.id in E by lia. rewrite <- E. apply rnd_id. exact V.
Qed.
Lemma rnd_opp x : rnd (- x) = (- rnd x)%R.
Proof. unfold rnd. apply round_NE_opp. Qed.
Lemma rnd_IZR z : small z -> rnd (IZR z) = IZR z.
Proof.
  intros H. unfold small in H. destruct (Z_le_gt_dec 0 z) as [H0|H0]; [apply rnd_IZR_pos; lia|].
  replace z with (- (- z)) by lia. rewrite opp_IZR, rnd_opp, rnd_IZR_pos by lia. reflexivity.
Qed.
Lemma rnd_iv lo hi x : small lo -> small hi -> (IZR lo <= x <= IZR hi)%R -> (IZR lo <= rnd x <= IZR hi)%R.
Proof. intros H1 H2 [H3 H4]. rewrite <- (rnd_IZR lo H1), <- (rnd_IZR hi H2). split; apply rnd_le; assumption. Qed.
Lemma small_bound lo hi x : small lo -> small hi -> (IZR lo <= x <= IZR hi)%R -> (Rabs x < bpow radix2 1024)%R.
Proof.
  intros H1 H2 [H3 H4]. unfold small in *. apply Rle_lt_trans with (IZR 10000000).
  - apply Rabs_le. split; [apply Rle_trans with (IZR lo); [rewrite <- opp_IZR; apply IZR_le; lia|exact H3]|apply Rle_trans with (IZR hi); [exact H4|apply IZR_le; lia]].
  - apply Rlt_le_trans with (bpow radix2 24); [rewrite <- IZR_Zpower by lia; apply IZR_lt; vm_compute; reflexivity|apply bpow_le; lia].
Qed.

Lemma iv_weaken lo hi lo' hi' x : iv lo hi x -> lo' <= lo -> hi <= hi' -> iv lo' hi' x.
Proof. intros [F [H1 H2]] Hl Hh. split; [exact F|]. apply IZR_le in Hl, Hh. lra. Qed.
Lemma iv_add a b c d x y : iv a b x -> iv c d y -> small (a + c) -> small (b + d) -> iv (a + c) (b + d) (fadd x y).
Proof.
  intros [[Vx Fx] Hx] [[Vy Fy] Hy] S1 S2.
  assert (H : (IZR (a + c) <= f2r x + f2r y <= IZR (b + d))%R) by (rewrite !plus_IZR; lra).
  pose proof (rnd_iv _ _ _ S1 S2 H) as Hr. destruct (fadd_R x y Vx Vy Fx Fy (small_bound _ _ _ S1 S2 Hr)) as [E F].
  split; [split; [apply fvalid_add; assumption|exact F]|]. rewrite E. exact Hr.
Qed.
Lemma iv_sub a b c d x y : iv a b x -> iv c d y -> small (a - d) -> small (b - c) -> iv (a - d) (b - c) (fsub x y).
Proof.
  intros [[Vx Fx] Hx] [[Vy Fy] Hy] S1 S2.
  assert (H : (IZR (a - d) <= f2r x - f2r y <= IZR (b - c))%R) by (rewrite !minus_IZR; lra).
  pose proof (rnd_iv _ _ _ S1 S2 H) as Hr. destruct (fsub_R x y Vx Vy Fx Fy (small_bound _ _ _ S1 S2 Hr)) as [E F].
  split; [split; [apply fvalid_sub; assumption|exact F]|]. rewrite E. exact Hr.
Qed.
(** A product, given bounds of the exact product. *)
Lemma iv_mul_by lo hi x y : finite_f64 x -> finite_f64 y -> (IZR lo <= f2r x * f2r y <= IZR hi)%R -> small lo -> small hi -> iv lo hi (fmul x y).
Proof.
  intros [Vx Fx] [Vy Fy] H S1 S2. pose proof (rnd_iv _ _ _ S1 S2 H) as Hr.
  destruct (fmul_R x y Vx Vy Fx Fy (small_bound _ _ _ S1 S2 Hr)) as [E F].
  split; [split; [apply fvalid_mul; assumption|exact F]|]. rewrite E. exact Hr.
Qed.
Lemma iv_mul n m x y : iv (- n) n x -> iv (- m) m y -> 0 <= n -> 0 <= m -> small (n * m) -> iv (- (n * m)) (n * m) (fmul x y).
Proof.
  intros [Fx Hx] [Fy Hy] Hn Hm S1. apply iv_mul_by; auto; [|unfold small in *; lia].
  rewrite opp_IZR, mult_IZR. rewrite opp_IZR in Hx, Hy. apply IZR_le in Hn, Hm.
  assert (A : (Rabs (f2r x * f2r y) <= IZR n * IZR m)%R).
  { rewrite Rabs_mult. apply Rmult_le_compat; try apply Rabs_pos; apply Rabs_le; lra. }
  apply Rabs_le_inv in A. lra.
Qed.
Lemma iv_sq n x : iv (- n) n x -> 0 <= n -> small (n * n) -> iv 0 (n * n) (fmul x x).
Proof.
  intros [Fx Hx] Hn S1. apply iv_mul_by; auto; [|unfold small in *; lia]. rewrite opp_IZR in Hx. rewrite mult_IZR. apply IZR_le in Hn. nra.
Qed.
Lemma iv_scale k lo hi x y : iv k k x -> iv lo hi y -> 0 <= k -> small (k * lo) -> small (k * hi) -> iv (k * lo) (k * hi) (fmul x y).
Proof.
  intros [Fx Hx] [Fy Hy] Hk S1 S2. apply iv_mul_by; auto. rewrite !mult_IZR. apply IZR_le in Hk. assert (f2r x = IZR k) as -> by lra. nra.
Qed.
Lemma iv_neg lo hi x : iv lo hi x -> iv (- hi) (- lo) (fneg x).
Proof.
  intros [[V F] H]. split; [apply neg_fin; split; assumption|]. rewrite !opp_IZR.
  assert (E : f2r (fneg x) = (- f2r x)%R). { apply fvalid_ex in V as [b ->]. rewrite fneg_B, !f2r_B. apply B2R_Bopp. }
  rewrite E. lra.
Qed.
(** Ends given as floats. *)
Lemma fle_finite l x h : ffinite l = true -> ffinite h = true -> fle l x = true -> fle x h = true -> ffinite x = true.
Proof. intros Hl Hh H1 H2. destruct x as [|[]| |]; try reflexivity; exfalso; destruct l as [|[]| |[]], h as [|[]| |[]]; discriminate. Qed.
Lemma iv_between lo hi l h x : iv lo lo l -> iv hi hi h -> fvalid x -> fle l x = true -> fle x h = true -> iv lo hi x.
Proof.
  intros [[Vl Fl] Hl] [[Vh Fh] Hh] V H1 H2. pose proof (fle_finite _ _ _ Fl Fh H1 H2) as F.
  apply fle_R in H1, H2; auto. split; [split; assumption|]. lra.
Qed.
Lemma iv_nat n : (n <= 4000)%nat -> iv (Z.of_nat n) (Z.of_nat n) (f_of_nat n).
Proof. intros H. destruct (f_of_nat_exact n) as (V & F & E); [lia|]. split; [split; assumption|]. rewrite E, INR_IZR_INZ. lra. Qed.
Lemma iv_le lo hi x n : iv lo hi x -> (n <= 4000)%nat -> hi <= Z.of_nat n -> fle x (f_of_nat n) = true.
Proof.
  intros [[V F] H] Hn Hh. destruct (iv_nat n Hn) as [[Vn Fn] En]. apply fle_R; auto. apply IZR_le in Hh. lra.
Qed.
Lemma iv_ge lo hi x n : iv lo hi x -> (n <= 4000)%nat -> Z.of_nat n <= lo -> fle (f_of_nat n) x = true.
Proof.
  intros [[V F] H] Hn Hh. destruct (iv_nat n Hn) as [[Vn Fn] En]. apply fle_R; auto. apply IZR_le in Hh. lra.
Qed.
Lemma iv_ge_neg lo hi x n : iv lo hi x -> (n <= 4000)%nat -> - Z.of_nat n <= lo -> fle (fneg (f_of_nat n)) x = true.
Proof.
  intros [[V F] H] Hn Hh. destruct (iv_neg _ _ _ (iv_nat n Hn)) as [[Vn Fn] En]. apply fle_R; auto. apply IZR_le in Hh. lra.
Qed.
Lemma iv_not_nan lo hi x : iv lo hi x -> F64.is_nan x = false.
Proof. intros [[_ F] _]. apply ffinite_not_nan. exact F. Qed.
