(** * Proofs: the coordinates of random points are spread evenly over their range *)
From Verif Require Export ChanceProofs.
From Verif Require Import PopulationSpec PopulationModel PopulationProofs EvenProofs F64R AcoTspGenProofs.
From Coq Require Import Reals Lra Lia.
From Flocq Require Import Core.Core IEEE754.BinarySingleNaN.
From Flocq.Prop Require Import Relative Plus_error.
Local Existing Instances Hfexp HNE Hprec53 Hmax1024.

Lemma scale_R lo hi u : finite_f64 lo -> finite_f64 hi -> fle lo hi = true -> ffinite (fsub hi lo) = true -> in_unit_draws u ->
  f2r (scale (lo, hi) u) = rnd (rnd (rnd (f2r hi - f2r lo) * f2r u) + f2r lo).
Proof.
  intros [Vl Fl] [Vh Fh] Hle Fw Hu. destruct (unit_upper u Hu) as (Vu & Fu & Hu').
  apply fle_R in Hle; auto.
  assert (Hw : f2r (fsub hi lo) = rnd (f2r hi - f2r lo)).
  { destruct (Rlt_le_dec (Rabs (rnd (f2r hi - f2r lo))) BOUND) as [H|H].
    - apply (fsub_R hi lo Vh Vl Fh Fl H).
    - exfalso. revert Fw H. destruct (fvalid_ex hi Vh) as [a ->], (fvalid_ex lo Vl) as [b ->].
      rewrite fsub_B, ffinite_B, !f2r_B. intros Fw H. rewrite ffinite_B in Fh, Fl.
      pose proof (Bminus_correct 53 1024 _ _ mode_NE a b Fh Fl) as C. unfold rnd in H.
      rewrite Rlt_bool_false in C by exact H. destruct C as [C _].
      destruct (Bminus mode_NE a b) as [s|s| |s m e B]; cbn in Fw, C; try discriminate;
      destruct (Bsign a); discriminate. }
  assert (Vw : fvalid (fsub hi lo)) by (apply fvalid_sub; auto).
  assert (Hw0 : (0 <= f2r (fsub hi lo))%R) by (rewrite Hw, <- rnd_0; apply rnd_le; lra).
  assert (Hfw : fle f0 (fsub hi lo) = true) by (apply fle_R; auto using fvalid_f0).
  destruct (fmul_shrinks (fsub hi lo) u Vw Fw Hfw Vu Fu ltac:(pose proof (bpow_gt_0 radix2 (-52)); lra)) as (Vm & Fm & Hm0 & Hm1).
  apply fle_R in Hm0, Hm1; auto using fvalid_f0. rewrite f2r_f0 in Hm0.
  assert (Em : f2r (fmul (fsub hi lo) u) = rnd (rnd (f2r hi - f2r lo) * f2r u)).
  { rewrite <- Hw. apply fmul_R; auto. 
    assert (B : (0 <= rnd (f2r (fsub hi lo) * f2r u) <= f2r (fsub hi lo))%R).
    { pose proof (bpow_gt_0 radix2 (-52)). split.
      - rewrite <- rnd_0. apply rnd_le. apply Rmult_le_pos; lra.
      - rewrite <- (rnd_id (fsub hi lo) Vw) at 2. apply rnd_le. rewrite <- (Rmult_1_r (f2r (fsub hi lo))) at 2. apply Rmult_le_compat_l; lra. }
    rewrite Rabs_pos_eq by lra. pose proof (f2r_bound _ Vw) as B2. rewrite Rabs_pos_eq in B2 by lra. lra. }
  assert (Hup : (f2r (fmul (fsub hi lo) u) <= f2r hi - f2r lo)%R).
  { rewrite Em. apply scaled_le_width; auto using fformat. }
  assert (Hb : (f2r lo <= rnd (f2r (fmul (fsub hi lo) u) + f2r lo) <= f2r hi)%R).
  { split.
    - rewrite <- (rnd_id lo Vl) at 1. apply rnd_le. lra.
    - rewrite <- (rnd_id hi Vh). apply rnd_le. lra. }
  destruct (fadd_R (fmul (fsub hi lo) u) lo Vm Vl Fm Fl) as [Ea Fa].
  { pose proof (f2r_bound _ Vl) as B1. pose proof (f2r_bound _ Vh) as B2. apply Rabs_def2 in B1, B2. apply Rabs_def1; lra. }
  unfold scale. cbn [fst snd]. rewrite Ea, Em. reflexivity.
Qed.
Open Scope R_scope.
Lemma sum_rel x y : generic_format radix2 (SpecFloat.fexp 53 1024) x -> generic_format radix2 (SpecFloat.fexp 53 1024) y ->
  Rabs (rnd (x + y) - (x + y)) <= uu * Rabs (x + y).
Proof.
  intros Gx Gy. rewrite FLT_eq in Gx, Gy.
  destruct (FLT_plus_error_N_ex radix2 (-1074) 53 (fun x => negb (Z.even x)) x y Gx Gy) as (e & He & E).
  replace (rnd (x + y)) with ((x + y) * (1 + e)) by (symmetry; exact E).
  assert (Rabs e <= uu) as He'.
  { eapply Rle_trans; [exact He|]. assert (u_ro radix2 53 = uu) as ->.
    { unfold u_ro, uu. change (/2) with (bpow radix2 (-1)). rewrite <- bpow_plus. reflexivity. }
    pose proof uu_pos. apply Rmult_le_reg_r with (1 + uu); [lra|]. unfold Rdiv. rewrite Rmult_assoc, Rinv_l by lra. nra. }
  replace ((x + y) * (1 + e) - (x + y)) with (e * (x + y)) by ring. rewrite Rabs_mult. apply Rmult_le_compat_r; [apply Rabs_pos|exact He'].
Qed.

Section Range.
Variables lo hi : f64.
Hypothesis Hlo : finite_f64 lo.
Hypothesis Hhi : finite_f64 hi.
Hypothesis Hfin : ffinite (fsub hi lo) = true.
Hypothesis Hw : / 2 ^ 900 <= f2r hi - f2r lo.
Let w := f2r hi - f2r lo.
Let M := Rmax (Rabs (f2r lo)) (Rabs (f2r hi)).
Lemma w_pos : bpow radix2 (-900) <= w /\ 0 < w.
Proof using Hw.
  assert (/ 2 ^ 900 = bpow radix2 (-900)) as E. { change (-900)%Z with (- (900))%Z. rewrite bpow_opp. f_equal. rewrite (pow_IZR 2 900). reflexivity. }
  rewrite E in Hw. fold w in Hw. pose proof (bpow_gt_0 radix2 (-900)). lra.
Qed.
Lemma le_lohi : fle lo hi = true.
Proof using Hlo Hhi Hw. destruct Hlo, Hhi. apply fle_R; auto. pose proof w_pos. unfold w in *. lra. Qed.
Definition spot (k : N) : R := f2r (scale (lo, hi) (f_unit 52 k)).
Lemma spot_eq k : (k < 2 ^ 52)%N -> spot k = rnd (rnd (rnd w * f2r (f_unit 52 k)) + f2r lo).
Proof using All. intros Hk. unfold spot. apply scale_R; auto using le_lohi. exists k. auto. Qed.
Lemma unit_mono j k : (j <= k < 2 ^ 52)%N -> 0 <= f2r (f_unit 52 j) <= f2r (f_unit 52 k).
Proof.
  intros H. rewrite !f2r_unit by lia. pose proof (bpow_gt_0 radix2 (- Z.of_N 52)). split.
  - apply Rmult_le_pos; [apply IZR_le; lia|lra].
  - apply Rmult_le_compat_r; [lra|]. apply IZR_le. lia.
Qed.
Lemma spot_mono j k : (j <= k < 2 ^ 52)%N -> spot j <= spot k.
Proof using All.
  intros H. rewrite !spot_eq by lia. destruct (unit_mono j k H) as [U0 U1]. pose proof w_pos as [_ P].
  assert (0 <= rnd w) by (rewrite <- rnd_0; apply rnd_le; lra). apply rnd_le. apply Rplus_le_compat_r. apply rnd_le. nra.
Qed.
Lemma spot_near k : (k < 2 ^ 52)%N -> Rabs (spot k - (f2r lo + w * (IZR (Z.of_N k) / 2 ^ 52))) <= uu * (4 * w + M).
Proof using All.
  intros Hk. rewrite spot_eq by exact Hk. pose proof w_pos as [W0 W1]. pose proof uu_pos as U0. pose proof uu_small as U1.
  assert (f2r (f_unit 52 k) = IZR (Z.of_N k) / 2 ^ 52) as Eu.
  { rewrite f2r_unit by (lia || exact Hk). unfold Rdiv. f_equal. change (- Z.of_N 52)%Z with (- (52))%Z. rewrite bpow_opp. f_equal. rewrite (pow_IZR 2 52). reflexivity. }
  pose proof (f2r_unit_range 52 k ltac:(lia) Hk) as UR. 
  assert (w * (1 - uu) <= rnd w <= w * (1 + uu)) as BW. { apply rnd_rel; [lra|]. right. eapply Rle_trans; [|exact W0]. apply bpow_le. lia. }
  assert (f2r (f_unit 52 k) = 0 \/ bpow radix2 (-52) <= f2r (f_unit 52 k)) as Z.
  { rewrite f2r_unit by (lia || exact Hk). change (- Z.of_N 52)%Z with (-52)%Z. destruct (N.eq_dec k 0) as [-> |N0]; [left; cbn; lra|right].
    pose proof (bpow_gt_0 radix2 (-52)). assert (1 <= IZR (Z.of_N k)) by (apply IZR_le; lia). nra. }
  set (u := f2r (f_unit 52 k)) in *. rewrite <- Eu. clear Eu.
  assert (rnd w * u * (1 - uu) <= rnd (rnd w * u) <= rnd w * u * (1 + uu)) as BP.
  { assert (0 <= rnd w) by nra. apply rnd_rel; [nra|]. destruct Z as [-> |Z]; [left; ring|right].
    apply Rle_trans with (bpow radix2 (-901) * bpow radix2 (-52)); [rewrite <- bpow_plus; apply bpow_le; lia|].
    apply Rmult_le_compat; try apply bpow_ge_0; [|exact Z]. change (-901)%Z with (-900 + -1)%Z. rewrite bpow_plus. change (bpow radix2 (-1)) with (/2). pose proof (bpow_gt_0 radix2 (-900)). nra. }
  set (p := rnd (rnd w * u)) in *.
  assert (Rabs (p - w * u) <= 3 * uu * w) as NP. { assert (0 <= w * u <= w) by nra. apply Rabs_le. split; nra. }
  assert (Rabs (rnd (p + f2r lo) - (p + f2r lo)) <= uu * Rabs (p + f2r lo)) as NS.
  { apply sum_rel; [unfold p; apply generic_format_round; auto with typeclass_instances|apply fformat; apply Hlo]. }
  assert (Rabs (p + f2r lo) <= M + 3 * uu * w) as NM.
  { replace (p + f2r lo) with ((f2r lo + w * u) + (p - w * u)) by ring. eapply Rle_trans; [apply Rabs_triang|]. apply Rplus_le_compat; [|exact NP].
    assert (f2r lo <= f2r lo + w * u <= f2r hi) as [X1 X2] by (unfold w in *; nra). unfold M. 
    pose proof (Rmax_l (Rabs (f2r lo)) (Rabs (f2r hi))). pose proof (Rmax_r (Rabs (f2r lo)) (Rabs (f2r hi))).
    pose proof (Rle_abs (f2r hi)). pose proof (Rle_abs (- f2r lo)) as Y. rewrite Rabs_Ropp in Y. apply Rabs_le. lra. }
  apply Rabs_le_inv in NP, NS. apply Rabs_le.
  assert (uu * Rabs (p + f2r lo) <= uu * M + uu * (3 * uu * w)) by nra. assert (uu * (3 * uu * w) <= uu * w) by (apply Rmult_le_compat_l; [lra|nra]). split; lra.
Qed.
Lemma range_share t : f2r lo <= t <= f2r hi ->
  exists K, (K <= 2 ^ 52)%N /\ (forall k, (k < 2 ^ 52)%N -> (spot k <= t <-> (k < K)%N)) /\
    Rabs (IZR (Z.of_N K) / 2 ^ 52 - (t - f2r lo) / w) <= (6 + M / w) / 2 ^ 53.
Proof using All.
  intros Ht. destruct (initial_segment (fun k => if Rle_dec (spot k) t then true else false) (2 ^ 52)) as (K & HK & HP).
  { intros j k Hjk H. destruct (Rle_dec (spot k) t) as [L|L]; [|discriminate]. destruct (Rle_dec (spot j) t) as [L'|L']; [reflexivity|]. pose proof (spot_mono j k Hjk). lra. }
  assert (forall k, (k < 2 ^ 52)%N -> (spot k <= t <-> (k < K)%N)) as HP'.
  { intros k Hk. rewrite <- (HP k Hk). destruct (Rle_dec (spot k) t); split; intros; congruence || lra. }
  exists K. split; [exact HK|]. split; [exact HP'|]. clear HP. pose proof w_pos as [_ W1]. pose proof uu_pos as U0.
  assert (/ 2 ^ 53 = uu) as EU. { unfold uu. change (-53)%Z with (- (53))%Z. rewrite bpow_opp. f_equal. rewrite (pow_IZR 2 53). reflexivity. }
  assert (/ 2 ^ 52 = 2 * uu) as E2. { rewrite <- EU. change (2 ^ 53) with (2 * 2 ^ 52). field. }
  assert (0 <= M) as M0 by (unfold M; pose proof (Rmax_l (Rabs (f2r lo)) (Rabs (f2r hi))); pose proof (Rabs_pos (f2r lo)); lra).
  set (T := (t - f2r lo) / w). assert (t - f2r lo = T * w) as ET by (unfold T; field; lra).
  set (m := M / w). assert (M = m * w) as EM by (unfold m; field; lra). assert (0 <= m) as m0 by nra.
  assert (0 <= T <= 1) as HT. { split; [nra|]. assert (T * w <= w) by (unfold w in *; lra). nra. }
  unfold Rdiv at 1. unfold Rdiv at 1. rewrite EU, E2.
  assert (IZR (Z.of_N (2 ^ 52)) * (2 * uu) = 1) as Full. { rewrite <- E2. change (Z.of_N (2 ^ 52)) with (2 ^ 52)%Z. rewrite (pow_IZR 2 52). change (2 ^ Z.of_nat 52)%Z with (2 ^ 52)%Z. apply Rinv_r. apply IZR_neq. lia. }
  apply Rabs_le. split.
  - destruct (N.eq_dec K (2 ^ 52)) as [-> |NK]; [rewrite Full; nra|].
    assert (~ spot K <= t) as X. { intros X. apply (HP' K) in X; lia. } pose proof (spot_near K ltac:(lia)) as B. apply Rabs_le_inv in B. unfold Rdiv in B. rewrite E2 in B.
    set (x := IZR (Z.of_N K) * (2 * uu)) in *. assert (T * w < x * w + uu * (4 * w + m * w)) as Y by (rewrite <- ET, <- EM; lra). assert (T < x + uu * (4 + m)) by nra. nra.
  - destruct (N.eq_dec K 0) as [-> |NK]; [change (IZR (Z.of_N 0)) with 0; nra|].
    assert (spot (K - 1) <= t) as X by (apply HP'; lia). pose proof (spot_near (K - 1) ltac:(lia)) as B. apply Rabs_le_inv in B. unfold Rdiv in B. rewrite E2 in B.
    rewrite N2Z.inj_sub, minus_IZR in B by lia. change (IZR (Z.of_N 1)) with 1 in B.
    set (x := IZR (Z.of_N K)) in *. assert ((x - 1) * (2 * uu) * w <= T * w + uu * (4 * w + m * w)) as Y by (rewrite <- ET, <- EM; lra).
    assert ((x - 1) * (2 * uu) <= T + uu * (4 + m)) by nra. lra.
Qed.
End Range.

(** Which draw makes which coordinate *)
Local Lemma ok_inj {A} (a b : A) : Ok a = Ok b -> a = b. Proof. congruence. Qed.
Lemma one_point_draws cs r : (one_point cs r).2 = rng_skip (length cs) r /\
  (one_point cs r).1 = imap (fun j c => scale c (f_unit 52 (r j mod 2 ^ 52))) cs.
Proof.
  revert r. induction cs as [|c cs IH]; intros r; [split; reflexivity|]. cbn [one_point]. change (uni_f64 r) with (f_unit 52 (r 0%nat mod 2 ^ 52), rng_tail r).
  destruct (IH (rng_tail r)) as [I1 I2]. destruct (one_point cs (rng_tail r)) as [xs r2]. cbn [fst snd] in *. split; [exact I1|]. subst xs. reflexivity.
Qed.
Lemma point_draws kind (g : random_points) count pop g' m j x c v : random_points_generate kind g count = Ok (pop, g') ->
  pop !! m = Some x -> rp_constraints g !! j = Some c -> chromosome x !! j = Some v ->
  v = scale c (f_unit 52 (rp_rng g (m * rp_dim g + j)%nat mod 2 ^ 52)).
Proof.
  unfold random_points_generate. intros H Hx Hc Hv. apply obind_Ok in H as ([points r1] & H1 & H). assert (pop = individuals points) as -> by (apply ok_inj in H; congruence). clear H.
  unfold generate_with_constraints in H1. apply obind_Ok in H1 as ([] & HL & H1). apply rassert_Ok, bool_decide_eq_true in HL. apply ok_inj in H1.
  assert (forall r, (one_point (rp_constraints g) r).2 = rng_skip (length (rp_constraints g)) r) as Hs by (intros r; apply one_point_draws).
  destruct (repeatM_skip (one_point (rp_constraints g)) _ Hs count (rp_rng g)) as [_ H2].
  unfold individuals in Hx. rewrite list_lookup_fmap in Hx. destruct (points !! m) as [row|] eqn:Er; [|discriminate]. injection Hx as <-. cbn [ind_from chromosome] in Hv.
  assert (m < count)%nat as Hm. { apply lookup_lt_Some in Er. rewrite (repeatM_length _ _ _ _ _ H1) in Er. exact Er. }
  specialize (H2 m Hm). rewrite H1 in H2. cbn [fst] in H2. assert (row = (one_point (rp_constraints g) (rng_skip (m * length (rp_constraints g)) (rp_rng g))).1) as -> by congruence.
  rewrite (proj2 (one_point_draws _ _)) in Hv. rewrite list_lookup_imap, Hc in Hv. rewrite HL.
  assert (forall a b : f64, Some a = Some b -> a = b) as SI by congruence. cbn [fmap option_fmap option_map] in Hv. apply SI in Hv. rewrite <- Hv. rewrite rng_skip_at. reflexivity.
Qed.
