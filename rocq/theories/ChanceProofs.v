(** * Proofs: how many of the equally likely random draws lead to each outcome *)
From Verif Require Export SelectionRProofs ChanceSpec.
From Verif Require Import SelectionSpec SelectionModel SelectionProofs SusProofs F64R AcoTspGenProofs AcoCostProofs.
From Coq Require Import Reals Lra Lia.
From Flocq Require Import Core.Core IEEE754.BinarySingleNaN.
Local Existing Instances Hfexp HNE Hprec53 Hmax1024.
Open Scope R_scope.

(** A property of numbers below [M] that is inherited by smaller numbers holds on an initial segment. *)
Lemma initial_segment (P : N -> bool) (M : N) : (forall j k, (j <= k < M)%N -> P k = true -> P j = true) ->
  exists K, (K <= M)%N /\ forall k, (k < M)%N -> (P k = true <-> (k < K)%N).
Proof.
  revert M. apply (N.peano_ind (fun M => (forall j k, (j <= k < M)%N -> P k = true -> P j = true) ->
    exists K, (K <= M)%N /\ forall k, (k < M)%N -> (P k = true <-> (k < K)%N))).
  - intros _. exists 0%N. split; [lia|]. intros; lia.
  - intros M IH H. destruct IH as (K & HK & HP). { intros j k Hk. apply H. lia. }
    destruct (P M) eqn:E.
    + exists (N.succ M). split; [lia|]. intros k Hk. split; [lia|]. intros _. apply (H k M); [lia|exact E].
    + exists K. split; [lia|]. intros k Hk. destruct (N.eq_dec k M) as [-> |N]; [|apply HP; lia].
      rewrite E. split; [discriminate|lia].
Qed.

Lemma bernoulli n : 1 - INR n * uu <= (1 - uu) ^ n.
Proof.
  pose proof uu_pos. pose proof uu_small. induction n as [|n IH]; [cbn; lra|]. rewrite S_INR. cbn [pow].
  pose proof (pos_INR n). nra.
Qed.
Lemma one_plus n : (1 + uu) ^ n * (1 - uu) ^ n <= 1.
Proof.
  rewrite <- Rpow_mult_distr. pose proof uu_pos. pose proof uu_small. replace ((1 + uu) * (1 - uu)) with (1 - uu * uu) by ring.
  assert (0 <= 1 - uu * uu <= 1) as H1 by nra. clear H H0. induction n; cbn [pow]; [lra|]. 
  assert (0 <= (1 - uu * uu) ^ n) by (apply pow_le; lra). nra.
Qed.
Lemma one_plus_bound n : INR n * uu < 1 -> (1 + uu) ^ n * (1 - INR n * uu) <= 1.
Proof.
  intros H. pose proof (bernoulli n). pose proof (one_plus n). pose proof (cond_u1 n). nra.
Qed.

Section Wheel.
Variable fs : list f64.
Hypothesis Hfs : Forall nonneg_finite fs.
Notation T := (foldl fadd f0 fs).
Hypothesis HT : ffinite T = true.
Notation n := (length fs).
Hypothesis Hn : (Z.of_nat n <= 2 ^ 40)%Z.
Hypothesis HS : bpow radix2 (-900) <= exact_sum fs.

Let e := INR n * uu.
Lemma e_small : 0 <= e <= / 8192.
Proof using Hn.
  unfold e. pose proof uu_pos. pose proof (pos_INR n). split; [nra|]. apply Rle_trans with (bpow radix2 40 * uu).
  - apply Rmult_le_compat_r; [lra|]. rewrite INR_IZR_INZ. change (bpow radix2 40) with (IZR (2 ^ 40)). apply IZR_le. exact Hn.
  - unfold uu. rewrite <- bpow_plus. change (/ 8192) with (bpow radix2 (-13)). apply bpow_le. lia.
Qed.

Lemma prefix i : nonneg_finite (cumulative fs i) /\ f2r (cumulative fs i) <= f2r T.
Proof using Hfs HT.
  unfold cumulative. destruct (foldl_fin_prefix (take (S i) fs) (drop (S i) fs) f0 nonneg_f0) as [H1 H2]; rewrite ?take_drop; auto.
  rewrite take_drop in H2. split; [exact H1|exact H2].
Qed.
Lemma prefix_mono i j : (i <= j)%nat -> f2r (cumulative fs i) <= f2r (cumulative fs j).
Proof using Hfs HT.
  intros H. pose proof (prefix j) as [(_ & F & _) _]. unfold cumulative in *.
  assert (take (S j) fs = take (S i) fs ++ drop (S i) (take (S j) fs)) as E.
  { rewrite <- (take_drop (S i) (take (S j) fs)) at 1. f_equal. rewrite take_take. f_equal. lia. }
  destruct (foldl_fin_prefix (take (S i) fs) (drop (S i) (take (S j) fs)) f0 nonneg_f0) as [_ H2]; rewrite <- ?E; auto.
  - apply Forall_take. exact Hfs.
  - rewrite E. exact H2.
Qed.
Lemma T_prefix : fs <> [] -> T = cumulative fs (n - 1).
Proof. intros H. unfold cumulative. rewrite take_ge; [reflexivity|]. destruct fs; [done|cbn; lia]. Qed.

Lemma e_bounds : f2r T <= exact_sum fs * (1 + uu) ^ n /\ exact_sum fs * (1 - uu) ^ n <= f2r T.
Proof using Hfs HT.
  destruct (fold_accuracy fs f0 nonneg_f0 Hfs HT) as [A1 A2]. rewrite f2r_f0, Rplus_0_l in A1, A2. auto.
Qed.
Lemma S_pos : 0 < exact_sum fs. Proof using HS. eapply Rlt_le_trans; [|exact HS]. apply bpow_gt_0. Qed.
Lemma T_low : bpow radix2 (-901) <= f2r T.
Proof using All.
  pose proof e_bounds as [_ H]. pose proof (bernoulli n) as B. fold e in B. pose proof e_small. pose proof S_pos.
  eapply Rle_trans; [|exact H]. change (-901)%Z with (-900 + -1)%Z. rewrite bpow_plus. change (bpow radix2 (-1)) with (/2). nra.
Qed.

Lemma draw_R k : (k < 2 ^ 53)%N -> let t := fmul T (f_unit 53 k) in
  fvalid t /\ ffinite t = true /\ f2r t = rnd (f2r T * (IZR (Z.of_N k) * uu)).
Proof using All.
  intros Hk t. pose proof (foldl_mono fs f0 nonneg_f0 Hfs HT) as [NT _]. pose proof (nonneg_R _ NT) as P. destruct NT as (VT & _ & _).
  pose proof (fvalid_unit 53 k ltac:(lia) Hk) as Vu. pose proof (ffinite_unit 53 k) as Fu.
  pose proof (f2r_unit_range 53 k ltac:(lia) Hk) as R1. pose proof (f2r_unit 53 k ltac:(lia) Hk) as Eu. change (bpow radix2 (- Z.of_N 53)) with uu in Eu.
  destruct (fmul_R T (f_unit 53 k) VT Vu HT Fu) as [E F].
  - rewrite Rabs_pos_eq by (rewrite <- rnd_0; apply rnd_le; nra).
    apply Rle_lt_trans with (rnd (f2r T)); [apply rnd_le; nra|]. rewrite rnd_id by exact VT.
    pose proof (f2r_bound T VT) as B. rewrite Rabs_pos_eq in B; auto.
  - split; [apply fvalid_mul; auto|]. split; [exact F|]. unfold t. rewrite E, Eu. reflexivity.
Qed.
Lemma draw_bounds k : (k < 2 ^ 53)%N -> let x := f2r T * (IZR (Z.of_N k) * uu) in x * (1 - uu) <= f2r (fmul T (f_unit 53 k)) <= x * (1 + uu).
Proof using All.
  intros Hk x. destruct (draw_R k Hk) as (_ & _ & Ek). pose proof T_low as L. pose proof uu_pos. pose proof (bpow_gt_0 radix2 (-901)).
  assert (0 <= IZR (Z.of_N k)) by (apply IZR_le; lia). change (f2r (fmul T (f_unit 53 k)) = rnd x) in Ek. rewrite Ek. apply rnd_rel; [unfold x; apply Rmult_le_pos; nra|].
  destruct (N.eq_dec k 0) as [-> |N]; [left; unfold x; cbn; lra|]. right. unfold x.
  assert (1 <= IZR (Z.of_N k)) by (apply IZR_le; lia). apply Rle_trans with (bpow radix2 (-901) * uu).
  - unfold uu. rewrite <- bpow_plus. apply bpow_le. lia.
  - apply Rmult_le_compat; nra.
Qed.

(** The draws whose threshold is reached by the first i+1 members *)
Lemma reached i : (i < n)%nat -> exists K, (K <= 2 ^ 53)%N /\
  (forall k, (k < 2 ^ 53)%N -> (fle (fmul T (f_unit 53 k)) (cumulative fs i) = true <-> (k < K)%N)) /\
  Rabs (IZR (Z.of_N K) - f2r (cumulative fs i) / f2r T * / uu) <= 3.
Proof using All.
  intros Hi. destruct (prefix i) as [(Vc & Fc & _) Lc]. pose proof (prefix i) as [Nc _]. apply nonneg_R in Nc.
  destruct (initial_segment (fun k => fle (fmul T (f_unit 53 k)) (cumulative fs i)) (2 ^ 53)) as (K & HK & HP).
  { intros j k Hk H. destruct (draw_R k) as (Vk & Fk & Ek); [lia|]. destruct (draw_R j) as (Vj & Fj & Ej); [lia|].
    apply fle_R in H; auto. apply fle_R; auto. eapply Rle_trans; [|exact H]. rewrite Ek, Ej. apply rnd_le.
    pose proof T_low. pose proof (bpow_gt_0 radix2 (-901)). pose proof uu_pos. apply Rmult_le_compat_l; [lra|]. apply Rmult_le_compat_r; [lra|]. apply IZR_le. lia. }
  exists K. split; [exact HK|]. split; [exact HP|].
  set (q := f2r (cumulative fs i) / f2r T). pose proof T_low as TL. pose proof (bpow_gt_0 radix2 (-901)) as B0. pose proof uu_pos as U0. pose proof uu_small as U1.
  assert (f2r (cumulative fs i) = q * f2r T) as Eq. { unfold q. field. lra. }
  assert (0 <= q <= 1) as Hq.
  { unfold q. split; [apply Rmult_le_pos; [exact Nc|]; left; apply Rinv_0_lt_compat; lra|]. apply Rmult_le_reg_r with (f2r T); [lra|]. unfold Rdiv. rewrite Rmult_assoc, Rinv_l by lra. lra. }
  assert (0 < / uu) as I0 by (apply Rinv_0_lt_compat; lra). assert (uu * / uu = 1) as Iu by (apply Rinv_r; lra).
  assert (IZR (2 ^ 53) = / uu) as EM. { unfold uu. change (-53)%Z with (- (53))%Z. rewrite bpow_opp, Rinv_inv. reflexivity. }
  set (z := IZR (Z.of_N K)).
  (* upper bound *)
  assert (z <= q * / uu + 3) as Up.
  { destruct (N.eq_dec K 0) as [-> |N0]; [unfold z; change (IZR (Z.of_N 0)) with 0; assert (0 <= q * / uu) by (apply Rmult_le_pos; lra); lra|].
    assert (K - 1 < 2 ^ 53)%N as Hk by lia. pose proof (proj2 (HP (K - 1)%N Hk) ltac:(lia)) as H. destruct (draw_R _ Hk) as (Vk & Fk & _).
    apply fle_R in H; auto. destruct (draw_bounds _ Hk) as [D _]. cbv zeta in D.
    assert (IZR (Z.of_N (K - 1)) = z - 1) as Ez. { unfold z. rewrite N2Z.inj_sub by lia. rewrite minus_IZR. reflexivity. }
    rewrite Ez, Eq in *. assert ((z - 1) * uu * (1 - uu) <= q) as H1.
    { apply Rmult_le_reg_l with (f2r T); [lra|]. eapply Rle_trans; [|rewrite Rmult_comm; exact H]. eapply Rle_trans; [|exact D]. right; ring. }
    assert (z <= / uu) as Hz. { rewrite <- EM. unfold z. apply IZR_le. lia. }
    assert ((z - 1) * uu <= q + uu) as H2. { assert ((z - 1) * uu <= 1) by nra. nra. }
    apply Rmult_le_reg_r with uu; [lra|]. rewrite Rmult_plus_distr_r, Rmult_assoc, (Rmult_comm (/ uu)), Iu. nra. }
  assert (q * / uu - 3 <= z) as Low.
  { destruct (N.eq_dec K (2 ^ 53)) as [-> |N0].
    - unfold z. change (Z.of_N (2 ^ 53)) with (2 ^ 53)%Z. rewrite EM. nra.
    - assert (K < 2 ^ 53)%N as Hk by lia. destruct (draw_R _ Hk) as (Vk & Fk & _).
      assert (f2r (cumulative fs i) < f2r (fmul T (f_unit 53 K))) as H.
      { apply Rnot_le_lt. intros H. assert (fle (fmul T (f_unit 53 K)) (cumulative fs i) = true) as H' by (apply fle_R; auto). apply HP in H'; [lia|exact Hk]. }
      destruct (draw_bounds _ Hk) as [_ D]. cbv zeta in D. fold z in D. rewrite Eq in H.
      assert (q <= z * uu * (1 + uu)) as H1.
      { apply Rmult_le_reg_l with (f2r T); [lra|]. rewrite (Rmult_comm _ q). left. eapply Rlt_le_trans; [exact H|]. eapply Rle_trans; [exact D|]. right; ring. }
      assert (z <= / uu) as Hz. { rewrite <- EM. unfold z. apply IZR_le. lia. }
      assert (0 <= z) by (unfold z; apply IZR_le; lia). assert (z * uu <= 1) by nra.
      apply Rmult_le_reg_r with uu; [lra|]. rewrite Rmult_minus_distr_r, Rmult_assoc, (Rmult_comm (/ uu)), Iu. nra. }
  apply Rabs_le. lra.
Qed.

Lemma exact_sum_app l l' : exact_sum (l ++ l') = exact_sum l + exact_sum l'.
Proof. unfold exact_sum. induction l as [|x l IH]; cbn; [lra|]. unfold f64 in *. rewrite IH. lra. Qed.

(** The cumulative share against the exact one *)
Lemma share_accuracy i : (i < n)%nat -> Rabs (f2r (cumulative fs i) / f2r T - exact_sum (take (S i) fs) / exact_sum fs) <= 3 * e.
Proof using All.
  intros Hi. pose proof S_pos as SP. pose proof T_low as TL. pose proof (bpow_gt_0 radix2 (-901)) as B0. pose proof e_small as E0. pose proof uu_pos. pose proof uu_small.
  destruct e_bounds as [T1 T2]. destruct (prefix i) as [(Vc & Fc & _) Lc]. 
  assert (Forall nonneg_finite (take (S i) fs)) as Ht by (apply Forall_take; exact Hfs).
  destruct (fold_accuracy (take (S i) fs) f0 nonneg_f0 Ht Fc) as [C1 C2]. rewrite f2r_f0, Rplus_0_l in C1, C2. fold (cumulative fs i) in C1, C2.
  set (c := f2r (cumulative fs i)) in *. set (s := exact_sum (take (S i) fs)) in *. set (S0 := exact_sum fs) in *. set (t := f2r T) in *.
  assert (0 <= s <= S0) as Hs.
  { split; [apply exact_sum_pos; exact Ht|]. unfold s, S0. rewrite <- (take_drop (S i) fs) at 2. rewrite exact_sum_app.
    assert (0 <= exact_sum (drop (S i) fs)) by (apply exact_sum_pos; apply Forall_drop; exact Hfs). lra. }
  rewrite take_length in C1, C2.
  assert (INR (S i `min` n) * uu <= e) as He. { unfold e. apply Rmult_le_compat_r; [lra|]. apply le_INR. lia. }
  set (m := (S i `min` n)%nat) in *. assert (0 <= INR m * uu) by (pose proof (pos_INR m); nra).
  pose proof (bernoulli m) as Bm. pose proof (one_plus_bound m ltac:(lra)) as Pm. pose proof (bernoulli n) as Bn. fold e in Bn. pose proof (one_plus_bound n ltac:(fold e; lra)) as Pn. fold e in Pn.
  pose proof (cond_u1 m). pose proof (cond_u1 n).
  assert (c * (1 - e) <= s) as D1. { eapply Rle_trans; [apply Rmult_le_compat_r; [lra|exact C2]|]. rewrite Rmult_assoc. rewrite <- (Rmult_1_r s) at 2. apply Rmult_le_compat_l; [lra|]. nra. }
  assert (s * (1 - e) <= c) as D2. { eapply Rle_trans; [|exact C1]. apply Rmult_le_compat_l; [lra|]. lra. }
  assert (t * (1 - e) <= S0) as D3. { eapply Rle_trans; [apply Rmult_le_compat_r; [lra|exact T1]|]. rewrite Rmult_assoc. rewrite <- (Rmult_1_r S0) at 2. apply Rmult_le_compat_l; [lra|]. nra. }
  assert (S0 * (1 - e) <= t) as D4. { eapply Rle_trans; [|exact T2]. apply Rmult_le_compat_l; [lra|]. lra. }
  set (p := s / S0). assert (s = p * S0) as Ep by (unfold p; field; lra). assert (0 <= p <= 1) as Hp.
  { unfold p. split; [apply Rmult_le_pos; [lra|left; apply Rinv_0_lt_compat; lra]|]. apply Rmult_le_reg_r with S0; [lra|]. unfold Rdiv. rewrite Rmult_assoc, Rinv_l by lra. lra. }
  set (q := c / t). assert (c = q * t) as Eq by (unfold q; field; lra). assert (0 <= q) as Hq0.
  { assert (0 <= c) by (eapply Rle_trans; [|exact D2]; nra). unfold q. apply Rmult_le_pos; [lra|left; apply Rinv_0_lt_compat; lra]. }
  rewrite Ep, Eq in *. apply Rabs_le.
  assert (q * (1 - e) * (1 - e) <= p) as Q1.
  { apply Rmult_le_reg_r with S0; [lra|]. apply Rle_trans with (q * t * (1 - e)); [|exact D1].
    replace (q * (1 - e) * (1 - e) * S0) with (q * (1 - e) * (S0 * (1 - e))) by ring. replace (q * t * (1 - e)) with (q * (1 - e) * t) by ring. apply Rmult_le_compat_l; nra. }
  assert (p * (1 - e) * (1 - e) <= q) as Q2.
  { apply Rmult_le_reg_r with t; [lra|]. apply Rle_trans with (p * S0 * (1 - e)); [|exact D2].
    replace (p * (1 - e) * (1 - e) * t) with (p * (1 - e) * (t * (1 - e))) by ring. replace (p * S0 * (1 - e)) with (p * (1 - e) * S0) by ring. apply Rmult_le_compat_l; nra. }
  assert (q <= 1) as Hq. { apply Rmult_le_reg_r with t; [lra|]. rewrite Rmult_1_l. exact Lc. }
  split; nra.
Qed.

(** The share of each member in the draws *)
Lemma wheel_share i x : fs !! i = Some x -> exists a b, (a <= b <= 2 ^ 53)%N /\
  (forall k, (k < 2 ^ 53)%N -> (wheel_hit fs (fmul T (f_unit 53 k)) i <-> (a <= k < b)%N)) /\
  Rabs (IZR (Z.of_N b - Z.of_N a) / 2 ^ 53 - f2r x / exact_sum fs) <= 6 * (INR n + 1) / 2 ^ 53.
Proof using All.
  intros Hx. pose proof (lookup_lt_Some _ _ _ Hx) as Hi. pose proof S_pos as SP. pose proof uu_pos as U0.
  assert (2 ^ 53 = / uu) as EM. { unfold uu. change (-53)%Z with (- (53))%Z. rewrite bpow_opp, Rinv_inv. rewrite pow_IZR. reflexivity. }
  assert (exists K, (K <= 2 ^ 53)%N /\ (forall k, (k < 2 ^ 53)%N -> ((exists j, (j < i)%nat /\ fle (fmul T (f_unit 53 k)) (cumulative fs j) = true) <-> (k < K)%N)) /\
    Rabs (IZR (Z.of_N K) - exact_sum (take i fs) / exact_sum fs * / uu) <= 3 + 3 * INR n) as (a & Ha & HPa & Da).
  { destruct i as [|i].
    - exists 0%N. split; [lia|]. split; [intros k _; split; [intros (j & Hj & _); lia|lia]|]. cbn. unfold Rdiv. rewrite !Rmult_0_l, Rminus_0_r, Rabs_R0. pose proof (pos_INR n). lra.
    - destruct (reached i ltac:(lia)) as (K & HK & HP & D). exists K. split; [exact HK|]. split.
      + intros k Hk. rewrite <- HP by exact Hk. split; [|intros H; exists i; split; [lia|exact H]].
        intros (j & Hj & H). destruct (draw_R k Hk) as (Vk & Fk & _). destruct (prefix j) as [(Vj & Fj & _) _]. destruct (prefix i) as [(Vi & Fi & _) _].
        apply fle_R in H; auto. apply fle_R; auto. eapply Rle_trans; [exact H|]. apply prefix_mono. lia.
      + pose proof (share_accuracy i ltac:(lia)) as A. unfold e in A. apply Rabs_le_inv in A, D. apply Rabs_le.
        set (q := f2r (cumulative fs i) / f2r T) in *. set (p := exact_sum (take (S i) fs) / exact_sum fs) in *.
        assert (uu * / uu = 1) as Iu by (apply Rinv_r; lra). assert (0 < / uu) by (apply Rinv_0_lt_compat; lra).
        assert (-3 * INR n <= (q - p) * / uu <= 3 * INR n) by nra. lra. }
  destruct (reached i Hi) as (b & Hb & HPb & Db0).
  assert (Rabs (IZR (Z.of_N b) - exact_sum (take (S i) fs) / exact_sum fs * / uu) <= 3 + 3 * INR n) as Db.
  { pose proof (share_accuracy i ltac:(lia)) as A. unfold e in A. apply Rabs_le_inv in A, Db0. apply Rabs_le.
    set (q := f2r (cumulative fs i) / f2r T) in *. set (p := exact_sum (take (S i) fs) / exact_sum fs) in *.
    assert (uu * / uu = 1) as Iu by (apply Rinv_r; lra). assert (0 < / uu) by (apply Rinv_0_lt_compat; lra).
    assert (-3 * INR n <= (q - p) * / uu <= 3 * INR n) by nra. lra. }
  assert (a <= b)%N as Hab.
  { apply N.nlt_ge. intros L. assert (b < 2 ^ 53)%N as Hb' by lia. destruct (proj2 (HPa b Hb') L) as (j & Hj & H).
    assert (fle (fmul T (f_unit 53 b)) (cumulative fs i) = true) as H'; [|apply (HPb b Hb') in H'; lia].
    destruct (draw_R b Hb') as (Vk & Fk & _). destruct (prefix j) as [(Vj & Fj & _) _]. destruct (prefix i) as [(Vi & Fi & _) _].
    apply fle_R in H; auto. apply fle_R; auto. eapply Rle_trans; [exact H|]. apply prefix_mono. lia. }
  exists a, b. split; [lia|]. split.
  - intros k Hk. unfold wheel_hit. split.
    + intros (_ & H1 & H2). apply (HPb k Hk) in H1. split; [|exact H1]. apply N.nlt_ge. intros L. apply (HPa k Hk) in L as (j & Hj & H). rewrite (H2 j Hj) in H. discriminate.
    + intros [H1 H2]. split; [exact Hi|]. split; [apply (HPb k Hk); exact H2|]. intros j Hj. destruct (fle _ (cumulative fs j)) eqn:Ef; [|reflexivity].
      exfalso. assert (k < a)%N; [apply (HPa k Hk); eauto|lia].
  - rewrite EM, minus_IZR. rewrite (take_S_r _ _ _ Hx), exact_sum_app in Db. change (exact_sum [x]) with (f2r x + 0) in Db.
    set (A := IZR (Z.of_N a)) in *. set (B := IZR (Z.of_N b)) in *. set (p := f2r x / exact_sum fs) in *.
    replace ((exact_sum (take i fs) + (f2r x + 0)) / exact_sum fs) with (exact_sum (take i fs) / exact_sum fs + p) in Db by (unfold p; field; lra).
    set (P := exact_sum (take i fs) / exact_sum fs) in *. unfold Rdiv. rewrite Rinv_inv. apply Rabs_le_inv in Da, Db. apply Rabs_le.
    assert (uu * / uu = 1) as Iu by (apply Rinv_r; lra). assert (0 < / uu) by (apply Rinv_0_lt_compat; lra).
    replace ((B - A) * uu - p) with ((B - A - p * / uu) * uu) by (rewrite Rmult_minus_distr_r, Rmult_assoc, (Rmult_comm (/ uu)), Iu; ring).
    assert (- (6 * (INR n + 1)) <= B - A - p * / uu <= 6 * (INR n + 1)) by lra. nra.
Qed.
End Wheel.

(** ** RouletteWheel *)
Lemma roulette_share {G} (pop : list (individual G)) s p : pop !! s = Some p -> Forall (fun q => nonneg_finite (fitness q)) pop ->
  ffinite (foldl fadd f0 (map fitness pop)) = true -> (Z.of_nat (length pop) <= 2 ^ 40)%Z -> / 2 ^ 900 <= exact_total (map fitness pop) ->
  exists a b, (a <= b <= 2 ^ 53)%N /\
    (forall count r, exists sel r', roulette_wheel count pop r = Ok (sel, r') /\ length sel = count /\
       forall k, (k < count)%nat -> (sel !! k = Some s <-> (a <= r k mod 2 ^ 53 < b)%N)) /\
    Rabs (IZR (Z.of_N b - Z.of_N a) / 2 ^ 53 - f2r (fitness p) / exact_total (map fitness pop)) <= 6 * (INR (length pop) + 1) / 2 ^ 53.
Proof.
  intros Hp Hn HF Hl HS. set (fs := fitness <$> pop). change (map fitness pop) with fs in *. change (exact_total fs) with (exact_sum fs) in *.
  assert (Forall nonneg_finite fs) as Hfs by (apply Forall_fmap; exact Hn).
  assert (length fs = length pop) as El by (unfold fs; apply fmap_length).
  destruct (wheel_share fs Hfs HF) with (i := s) (x := fitness p) as (a & b & Hab & HP & D).
  - rewrite El. exact Hl.
  - eapply Rle_trans; [|exact HS]. right. change (-900)%Z with (- (900))%Z. rewrite bpow_opp. f_equal. rewrite (pow_IZR 2 900). reflexivity.
  - unfold fs. rewrite list_lookup_fmap, Hp. reflexivity.
  - exists a, b. split; [exact Hab|]. rewrite El in D. split; [|exact D]. intros count r.
    pose proof (foldl_mono fs f0 nonneg_f0 Hfs HF) as [(VT & _ & T0) _].
    destruct (roulette_spec count pop r) as (sel & r' & E & L & H).
    { intros ->. discriminate Hp. } { eapply Forall_impl; [exact Hn|]. intros q (Vq & _); exact Vq. } { exact HF. } { exact T0. }
    exists sel, r'. split; [exact E|]. split; [exact L|]. intros k Hk.
    assert (r k mod 2 ^ 53 < 2 ^ 53)%N as Hm by (apply N.mod_lt; discriminate). rewrite <- (HP _ Hm).
    destruct (lookup_lt_is_Some_2 sel k) as [i Hi]; [lia|]. specialize (H k i Hi). change (total_fitness pop) with (foldl fadd f0 fs) in H. change (fitness <$> pop) with fs in H. unfold standard_draw in H. split.
    + intros X. assert (i = s) as <- by congruence. exact H.
    + intros W. rewrite Hi. f_equal. destruct (lt_eq_lt_dec i s) as [[X|X]|X]; [|exact X|]; exfalso.
      * destruct H as (_ & H1 & _). destruct W as (_ & _ & W). specialize (W i X). congruence.
      * destruct W as (_ & W & _). destruct H as (_ & _ & H). specialize (H s X). congruence.
Qed.
