(** * Proofs: which tours ants can make *)
From Verif Require Import AcoModel AcoSpec AcoReachSpec AcoWheelProofs AcoAntProofs AcoChoiceProofs.
From Verif Require Import AcoCostProofs AcoTspGenProofs AcoBoundSpec AcoBoundProofs SusProofs SusChanceProofs F64R.
From Coq Require Import Reals Lra Lia.
From Flocq Require Import Core.Core IEEE754.BinarySingleNaN.
Open Scope R_scope.

(** Every non-negative finite number has a bit pattern. *)
Lemma bits_of_nonneg x : nonneg_finite x -> exists b, f_of_bits b = x.
Proof.
  intros (V & F & P). destruct x as [s|s| |s m e]; try discriminate F.
  - exists (if s then 2 ^ 63 else 0)%N. destruct s; reflexivity.
  - destruct s; [discriminate P|]. unfold fvalid in V. cbn [SpecFloat.valid_binary] in V. unfold SpecFloat.bounded in V. apply andb_true_iff in V as [C B].
    unfold SpecFloat.canonical_mantissa in C. apply Zeq_bool_eq in C. unfold SpecFloat.fexp, SpecFloat.emin in C. apply Zle_bool_imp_le in B.
    rewrite Digits.Zpos_digits2_pos in C.
    assert (Dm : (Digits.Zdigits radix2 (Z.pos m) <= 53)%Z) by lia.
    assert (Hm : (Z.pos m < 2 ^ 53)%Z). { apply Z.lt_le_trans with (2 ^ (Digits.Zdigits radix2 (Z.pos m)))%Z; [exact (proj2 (Digits.Zdigits_correct radix2 (Z.pos m)))|apply Z.pow_le_mono_r; lia]. }
    destruct (Z_lt_le_dec (Z.pos m) (2 ^ 52)) as [L|L].
    + assert (D52 : (Digits.Zdigits radix2 (Z.pos m) <= 52)%Z). { apply (Digits.Zdigits_le_Zpower radix2). change (Z.abs (Z.pos m) < 2 ^ 52)%Z. lia. }
      assert (e = -1074)%Z as -> by lia. exists (N.pos m). unfold f_of_bits.
      assert (Hs : (N.pos m < 2 ^ 52)%N) by lia.
      rewrite (N.div_small (N.pos m) (2 ^ 63)), (N.div_small (N.pos m) (2 ^ 52)), (N.mod_small (N.pos m) (2 ^ 52)); [reflexivity|exact Hs|exact Hs|].
      eapply N.lt_trans; [exact Hs|reflexivity].
    + assert (D53 : (52 < Digits.Zdigits radix2 (Z.pos m))%Z). { apply (Digits.Zdigits_gt_Zpower radix2). change (2 ^ 52 <= Z.abs (Z.pos m))%Z. lia. }
      assert (He : (-1074 <= e <= 971)%Z) by lia.
      set (q := Z.to_N (e + 1075)). assert (Hq : (1 <= q <= 2046)%N) by (unfold q; lia).
      exists (q * 2 ^ 52 + (N.pos m - 2 ^ 52))%N. unfold f_of_bits.
      assert (Hr : (N.pos m - 2 ^ 52 < 2 ^ 52)%N) by lia.
      assert (E1 : ((q * 2 ^ 52 + (N.pos m - 2 ^ 52)) / 2 ^ 52 = q)%N). { rewrite N.div_add_l by discriminate. rewrite N.div_small by exact Hr. lia. }
      assert (E2 : ((q * 2 ^ 52 + (N.pos m - 2 ^ 52)) mod 2 ^ 52 = N.pos m - 2 ^ 52)%N). { rewrite N.add_comm, N.mod_add by discriminate. apply N.mod_small. exact Hr. }
      assert (E3 : ((q * 2 ^ 52 + (N.pos m - 2 ^ 52)) / 2 ^ 63 = 0)%N). { apply N.div_small. change (2 ^ 63)%N with (2048 * 2 ^ 52)%N. nia. }
      rewrite E1, E2, E3. rewrite (N.mod_small q 2048) by lia. cbn [N.odd].
      destruct q as [|qp] eqn:Eq; [lia|]. assert (Z.of_N (N.pos qp) - 1075 = e)%Z as Ee by (rewrite <- Eq; unfold q; lia). rewrite Ee.
      replace (N.pos m - 2 ^ 52 + 2 ^ 52)%N with (N.pos m) by lia.
      assert (N.pos qp <> 2047%N) by lia. clear - H.
      repeat (try reflexivity; try (exfalso; apply H; reflexivity); destruct qp as [qp|qp|]).
Qed.

(** The draw that lies in the middle of a stretch *)
Section Wheel.
Variables (e : nat -> f64) (lo hi : R) (n : nat).
Hypothesis Hres : resolved lo hi n.
Variable order : list nat.
Hypothesis Hlen : (length order <= n)%nat.
Hypothesis He : forall u, u ∈ order -> nonneg_finite (e u) /\ lo <= f2r (e u) <= hi.
Notation before j := (exact_total (map e (take j order))).
Notation total := (foldl fadd f0 (map e order)).

Lemma middle j w : order !! j = Some w ->
  exists d, nonneg_finite d /\ f2r d <= f2r total /\ ffinite total = true /\ fvalid total /\
    before j + INR (length order) * / 2 ^ 53 * f2r d < f2r d < before j + f2r (e w) - INR (length order) * / 2 ^ 53 * f2r d.
Proof using Hres Hlen He.
  intros Hw. destruct Hres as ([Hlo Hlh] & Hhi & Hn). 
  assert (P900 : 2 ^ 900 = bpow radix2 900) by (rewrite (pow_IZR 2 900); reflexivity).
  assert (EU : / 2 ^ 53 = uu). { unfold uu. change (-53)%Z with (- (53))%Z. rewrite bpow_opp. f_equal. rewrite (pow_IZR 2 53). reflexivity. }
  assert (L0 : 0 < lo). { apply Rlt_le_trans with (/ 2 ^ 900); [rewrite P900; apply Rinv_0_lt_compat, bpow_gt_0|exact Hlo]. }
  assert (Hall : Forall nonneg_finite (map e order)). { apply Forall_forall. intros x Hx. apply elem_of_list_In, in_map_iff in Hx as (u & <- & Hu). apply He. apply elem_of_list_In. exact Hu. }
  assert (Hb : Forall (in_range hi) (map e order)). { apply Forall_forall. intros x Hx. apply elem_of_list_In, in_map_iff in Hx as (u & <- & Hu). apply elem_of_list_In in Hu. destruct (He u Hu) as [A B]. split; [exact A|lra]. }
  assert (Lj : (j < length order)%nat) by (apply lookup_lt_Some in Hw; exact Hw).
  assert (N1 : 1 <= INR n) by (change 1 with (INR 1); apply le_INR; lia).
  destruct (He w ltac:(apply elem_of_list_lookup; eauto)) as [Nw Cw]. set (c := f2r (e w)) in *.
  set (eps := INR n * uu). pose proof uu_pos as U0. pose proof uu_small as U1.
  assert (Ue : uu <= eps) by (unfold eps; nra).
  assert (Hee : eps * INR n * hi <= lo * / 16).
  { unfold eps. replace (INR n * uu * INR n * hi) with (INR n * INR n * hi * uu) by ring. apply Rle_trans with (2 ^ 49 * lo * uu); [apply Rmult_le_compat_r; lra|].
    replace (2 ^ 49 * lo * uu) with (lo * (2 ^ 49 * uu)) by ring. apply Rmult_le_compat_l; [lra|]. rewrite <- EU. rewrite (pow_IZR 2 49), (pow_IZR 2 53). change (2 ^ Z.of_nat 49)%Z with 562949953421312%Z. change (2 ^ Z.of_nat 53)%Z with 9007199254740992%Z. lra. }
  assert (E16 : eps <= / 16). { assert (eps * 1 * lo <= eps * INR n * hi) by (apply Rmult_le_compat; [nra|lra|apply Rmult_le_compat_l; lra|lra]). nra. }
  assert (Hbp : forall k, Forall (in_range hi) (map e (take k order))) by (intros k; rewrite <- firstn_map; apply Forall_take; exact Hb).
  assert (Hap : forall k, Forall nonneg_finite (map e (take k order))) by (intros k; rewrite <- firstn_map; apply Forall_take; exact Hall).
  assert (N25 : INR n <= 2 ^ 25).
  { destruct (Rle_lt_dec (INR n) (2 ^ 25)) as [Y|Y]; [exact Y|]. exfalso. rewrite (pow_IZR 2 25) in Y. rewrite (pow_IZR 2 49) in Hn. change (2 ^ Z.of_nat 25)%Z with 33554432%Z in Y. change (2 ^ Z.of_nat 49)%Z with 562949953421312%Z in Hn.
    assert (33554432 * 33554432 * hi <= INR n * INR n * hi) by (apply Rmult_le_compat_r; [lra|]; apply Rmult_le_compat; lra). lra. }
  assert (Pup : forall k, (k <= n)%nat -> (1 + uu) ^ k <= 1 + 2 * eps).
  { intros k Hk. apply pow_up; [|lra]. unfold eps. apply Rmult_le_compat_r; [lra|]. apply le_INR. exact Hk. }
  assert (Plow : forall k, (k <= n)%nat -> 1 - eps <= (1 - uu) ^ k).
  { intros k Hk. apply pow_low. unfold eps. apply Rmult_le_compat_r; [lra|]. apply le_INR. exact Hk. }
  assert (N0 : nonneg_finite f0) by (split; [exact fvalid_f0|split; reflexivity]).
  assert (Fin : forall k, ffinite (foldl fadd f0 (map e (take k order))) = true).
  { intros k. apply (sum_finite hi _ ltac:(lra) f0 0 N0 (Hbp k)); [rewrite f2r_f0; lra|]. rewrite map_length, take_length.
    assert (INR (k `min` length order) <= INR n) as K1 by (apply le_INR; lia). pose proof (Pup (k `min` length order)%nat ltac:(lia)) as K2. pose proof (pos_INR (k `min` length order)) as K3. pose proof (cond_u1 (k `min` length order)) as K4.
    set (kk := INR (k `min` length order)) in *. set (P := (1 + uu) ^ _) in *.
    apply Rle_trans with (2 ^ 25 * hi * 2); [apply Rmult_le_compat; [nra|lra|rewrite Rplus_0_l; apply Rmult_le_compat_r; lra|lra]|].
    rewrite P900 in Hhi. change 1000%Z with (900 + 100)%Z. rewrite bpow_plus. assert (2 ^ 25 * 2 <= bpow radix2 100) as Q by (rewrite (pow_IZR 2 25); change (2 ^ Z.of_nat 25)%Z with 33554432%Z; apply Rle_trans with (bpow radix2 30); [change (bpow radix2 30) with 1073741824; lra|apply bpow_le; lia]). nra. }
  pose proof (Fin (length order)) as FT. rewrite take_ge in FT by lia.
  assert (Npre : nonneg_finite (foldl fadd f0 (map e (take j order)))).
  { pose proof (Fin j) as F. destruct (foldl_mono _ f0 N0 (Hap j) F) as [X _]. exact X. }
  assert (NT : nonneg_finite total) by (destruct (foldl_mono _ f0 N0 Hall FT) as [X _]; exact X).
  pose proof (fold_accuracy (map e (take j order)) f0 N0 (Hap j) (Fin j)) as [A1 A2]. pose proof (fold_accuracy (map e order) f0 N0 Hall FT) as [B1 _].
  rewrite f2r_f0, Rplus_0_l in A1, A2, B1. rewrite map_length in A1, A2, B1. rewrite take_length in A1, A2.
  change exact_sum with exact_total in *.
  assert (S0 : 0 <= before j) by (apply total_pos, Hap).
  assert (Stot : before j + c <= exact_total (map e order)).
  { rewrite <- (take_drop j order) at 2. rewrite (drop_S _ _ _ Hw), map_app, total_app. cbn [map]. change (exact_total (e w :: map e (drop (Datatypes.S j) order))) with (c + exact_total (map e (drop (Datatypes.S j) order))).
    assert (0 <= exact_total (map e (drop (Datatypes.S j) order))) by (apply total_pos; rewrite <- skipn_map; apply Forall_drop; exact Hall). lra. }
  assert (SH : before j + c <= INR n * hi).
  { eapply Rle_trans; [exact Stot|]. destruct (exact_sum_bounds 0 hi (map e order)) as [_ X].
    - eapply Forall_impl; [exact Hb|]. intros x [X1 X2]. split; [apply nonneg_R; exact X1|exact X2].
    - rewrite map_length in X. change (exact_sum (map e order)) with (exact_total (map e order)) in X. eapply Rle_trans; [exact X|]. apply Rmult_le_compat_r; [lra|]. apply le_INR. exact Hlen. }
  set (S := before j) in *. set (pre := foldl fadd f0 (map e (take j order))) in *.
  assert (Hx : eps * (S + c) <= c * / 16).
  { apply Rle_trans with (eps * (INR n * hi)); [apply Rmult_le_compat_l; lra|]. lra. }
  pose proof (Pup (j `min` length order)%nat ltac:(lia)) as Q1. pose proof (Plow (j `min` length order)%nat ltac:(lia)) as Q2. pose proof (Plow (length order) Hlen) as Q3.
  assert (A1' : S * (1 - eps) <= f2r pre) by (eapply Rle_trans; [|exact A1]; apply Rmult_le_compat_l; lra).
  assert (A2' : f2r pre <= S * (1 + 2 * eps)) by (eapply Rle_trans; [exact A2|]; apply Rmult_le_compat_l; lra).
  assert (B1' : (S + c) * (1 - eps) <= f2r total) by (eapply Rle_trans; [|exact B1]; apply Rmult_le_compat; lra).
  clear A1 A2 B1 Q1 Q2 Q3.
  assert (Fh : f2r fhalf = / 2) by (assert (f2r fhalf = (IZR 4503599627370496 * / IZR 9007199254740992)%R) as -> by reflexivity; lra).
  pose proof Nw as (Vw & Fw & _). 
  assert (Hc0 : bpow radix2 (-1022) <= / 2 * c).
  { apply Rle_trans with (/ 2 * / bpow radix2 900); [|rewrite <- P900; lra]. change (/ 2) with (bpow radix2 (-1)). rewrite <- bpow_opp, <- bpow_plus. apply bpow_le. lia. }
  pose proof (rnd_rel (/ 2 * c) ltac:(lra) (or_intror Hc0)) as [R1 R2].
  destruct (fmul_R fhalf (e w) ltac:(reflexivity) Vw eq_refl Fw) as [Ehalf Fhalf].
  { rewrite Fh. fold c. rewrite Rabs_pos_eq by nra. apply Rle_lt_trans with (bpow radix2 900); [nra|apply bpow_lt; lia]. }
  rewrite Fh in Ehalf. fold c in Ehalf. rewrite <- Ehalf in R1, R2.
  assert (Vh : fvalid (fmul fhalf (e w))) by (apply fvalid_mul; [reflexivity|exact Vw]).
  pose proof Npre as (Vp & Fp & _). pose proof (nonneg_R _ Npre) as Rp.
  assert (Rh : 0 <= f2r (fmul fhalf (e w))) by nra.
  pose proof (add_rel pre (fmul fhalf (e w)) Vp Vh Rp Rh) as [D1 D2].
  set (hh := f2r (fmul fhalf (e w))) in *.
  assert (C0 : 0 < c) by lra. assert (Hh1 : / 2 * c * (1 - eps) <= hh) by (eapply Rle_trans; [|exact R1]; apply Rmult_le_compat_l; lra).
  assert (Hh2 : hh <= / 2 * c * (1 + eps)) by (eapply Rle_trans; [exact R2|]; apply Rmult_le_compat_l; lra).
  assert (Dup : rnd (f2r pre + hh) <= S + c * (12 / 16)).
  { eapply Rle_trans; [exact D2|]. apply Rle_trans with ((S * (1 + 2 * eps) + / 2 * c * (1 + eps)) * (1 + eps)); [apply Rmult_le_compat; [lra|lra|lra|lra]|].
    assert (eps * eps <= eps * / 16) by (apply Rmult_le_compat_l; lra). assert (0 <= S * eps) by nra. assert (0 <= c * eps) by nra.
    assert (S * (eps * eps) <= S * (eps * / 16)) by (apply Rmult_le_compat_l; lra). assert (c * (eps * eps) <= c * (eps * / 16)) by (apply Rmult_le_compat_l; lra). lra. }
  assert (Dlow : S + c * (5 / 16) <= rnd (f2r pre + hh)).
  { eapply Rle_trans; [|exact D1]. apply Rle_trans with ((S * (1 - eps) + / 2 * c * (1 - eps)) * (1 - eps)); [|apply Rmult_le_compat; [assert (0 <= S * (1 - eps)) by (apply Rmult_le_pos; lra); assert (0 <= / 2 * c * (1 - eps)) by (apply Rmult_le_pos; lra); lra|lra|lra|lra]].
    assert (0 <= S * eps) by nra. assert (0 <= c * eps) by nra. assert (0 <= S * (eps * eps)) by nra. assert (0 <= c * (eps * eps)) by nra. lra. }
  destruct (fadd_R pre (fmul fhalf (e w)) Vp Vh Fp Fhalf) as [Ed Fd].
  { fold hh. rewrite Rabs_pos_eq by lra. apply Rle_lt_trans with (bpow radix2 1000); [|apply bpow_lt; lia].
    apply Rle_trans with (2 ^ 25 * hi); [apply Rle_trans with (INR n * hi); [lra|apply Rmult_le_compat_r; lra]|]. rewrite P900 in Hhi. change 1000%Z with (900 + 100)%Z. rewrite bpow_plus. assert (2 ^ 25 <= bpow radix2 100) as Q by (rewrite (pow_IZR 2 25); change (2 ^ Z.of_nat 25)%Z with 33554432%Z; apply Rle_trans with (bpow radix2 30); [change (bpow radix2 30) with 1073741824; lra|apply bpow_le; lia]). rewrite (Rmult_comm (bpow radix2 900)). apply Rmult_le_compat; [rewrite (pow_IZR 2 25); apply (IZR_le 0); lia|lra|exact Q|lra]. }
  fold hh in Ed. exists (fadd pre (fmul fhalf (e w))). rewrite Ed, EU.
  assert (Ldu : INR (length order) * uu * rnd (f2r pre + hh) <= c * / 16).
  { apply Rle_trans with (eps * (S + c)); [|exact Hx]. apply Rmult_le_compat; [apply Rmult_le_pos; [apply pos_INR|lra]|lra|unfold eps; apply Rmult_le_compat_r; [lra|apply le_INR; exact Hlen]|lra]. }
  split; [apply nonneg_of_R; [apply fvalid_add; auto|exact Fd|rewrite Ed; lra]|]. split; [lra|]. split; [exact FT|]. split; [apply NT|]. lra.
Qed.
End Wheel.

Lemma sum_row (row : nat -> outcome f64) e order : forall s, (forall u, u ∈ order -> row u = Ok (e u)) ->
  ofold (fun s v => g ← row v; Ok (fadd s g)) s order = Ok (foldl fadd s (map e order)).
Proof.
  induction order as [|u order IH]; intros s Hrow; [reflexivity|]. cbn [ofold map foldl]. rewrite (Hrow u ltac:(left)). cbn [mbind outcome_bind]. apply IH. intros x Hx. apply Hrow. right. exact Hx.
Qed.
Definition push (x : N) (r : rng) : rng := fun i => match i with O => x | Datatypes.S i => r i end.
Lemma gen_range_push b d s rest : f_of_bits b = d -> nonneg_finite d -> fvalid s -> ffinite s = true -> f2r d <= f2r s -> gen_range_f64 f0 s (push b rest) = Ok (d, rest).
Proof.
  intros Eb Nd Vs Fs L. pose proof (nonneg_R _ Nd) as P. destruct Nd as (Vd & Fd & Pd).
  assert (fle f0 s = true) as Ps by (apply fle_R; auto using fvalid_f0; rewrite f2r_f0; lra).
  assert (fle d s = true) as Ds by (apply fle_R; auto).
  unfold gen_range_f64. rewrite Ps.
  assert (E1 : fgt s (S754_infinity true) = true) by (destruct s as [|[]| |[] ]; try discriminate; reflexivity).
  assert (E2 : flt s finf = true) by (destruct s as [|[]| |[] ]; try discriminate; reflexivity).
  rewrite E1, E2. cbn [andb]. change (flt f0 finf && fgt f0 (S754_infinity true) && true) with true. cbv iota. cbn [push]. rewrite Eb, Pd, Ds. reflexivity.
Qed.
Lemma wheel_reach (row : nat -> outcome f64) e lo hi n order v lst rest : resolved lo hi n -> (length order <= n)%nat ->
  (forall u, u ∈ order -> row u = Ok (e u)) -> (forall u, u ∈ order -> nonneg_finite (e u) /\ lo <= f2r (e u) <= hi) -> v ∈ order ->
  exists b, roulette row order lst (push b rest) = Ok (v, rest).
Proof.
  intros Hres Hlen Hrow He Hv. apply elem_of_list_lookup in Hv as (j & Hj).
  destruct (middle e lo hi n Hres order Hlen He j v Hj) as (d & Nd & Dt & FT & VT & B). destruct (bits_of_nonneg d Nd) as [b Eb]. exists b.
  unfold roulette, goodness_sum. rewrite (sum_row row e order f0 Hrow). cbn [mbind outcome_bind].
  rewrite (gen_range_push b d _ rest Eb Nd VT FT Dt). cbn [mbind outcome_bind].
  destruct (spin_ok row order d lst) as [w Hspin]; [intros u Hu; rewrite Hrow by exact Hu; eauto|]. rewrite Hspin. cbn [mbind outcome_bind]. repeat f_equal.
  pose proof (nonneg_R _ Nd) as L0. destruct Nd as (Vd & Fd & _).
  assert (/ 2 ^ 53 = uu) as EU. { unfold uu. change (-53)%Z with (- (53))%Z. rewrite bpow_opp. f_equal. rewrite pow_IZR. reflexivity. } rewrite EU in B. pose proof uu_pos as U0.
  assert (Hall : Forall nonneg_finite (map e order)). { apply Forall_forall. intros x Hx. apply elem_of_list_In, in_map_iff in Hx as (u & <- & Hu). apply He. apply elem_of_list_In. exact Hu. }
  set (before := fun j => exact_total (map e (take j order))). change (exact_total (map e (take j order))) with (before j) in B.
  assert (forall i j, (i <= j)%nat -> before i <= before j) as Mono. { intros i k L. unfold before. rewrite <- !firstn_map. apply total_take_mono; [exact Hall|exact L]. }
  assert (forall j x, order !! j = Some x -> before (Datatypes.S j) = before j + f2r (e x)) as Step.
  { intros k x Hx. unfold before. rewrite (take_S_r _ _ _ Hx), map_app, total_app. cbn [map exact_total fold_right]. lra. }
  assert (forall i, (i <= length order)%nat -> INR i * uu * f2r d <= INR (length order) * uu * f2r d) as OM.
  { intros i L. apply Rmult_le_compat_r; [exact L0|]. apply Rmult_le_compat_r; [lra|]. apply le_INR. exact L. }
  assert (Hme : forall u, u ∈ order -> forall g, row u = Ok g -> g = e u). { intros u Hu g Hg. rewrite (Hrow u Hu) in Hg. congruence. }
  pose proof (spin_stretch row e (f2r d) L0 order d lst w 0 0 Hme (fun u Hu => proj1 (He u Hu)) Vd Fd) as X.
  pose proof (lookup_lt_Some _ _ _ Hj) as Lj.
  destruct X as [(i & Hi & D)|[-> D]]; [lra|cbn [INR]; rewrite Rminus_0_r, Rminus_diag_eq, Rabs_R0 by reflexivity; lra|exact Hspin| |].
  - change (exact_total (map e (take i order))) with (before i) in D. cbn [plus] in D. pose proof (lookup_lt_Some _ _ _ Hi) as Li. pose proof (OM i ltac:(lia)) as O.
    destruct (lt_eq_lt_dec i j) as [[L|L]|L]; [exfalso|subst i; congruence|exfalso].
    + pose proof (Mono (Datatypes.S i) j ltac:(lia)) as M. rewrite (Step _ _ Hi) in M. lra.
    + pose proof (Mono (Datatypes.S j) i ltac:(lia)) as M. rewrite (Step _ _ Hj) in M. lra.
  - exfalso. cbn [plus] in D. pose proof (Mono (Datatypes.S j) (length order) ltac:(lia)) as M. rewrite (Step _ _ Hj) in M. unfold before in M at 2. rewrite take_ge in M by lia. lra.
Qed.

Lemma top_draw rate : fvalid rate -> flt rate f1 = true -> flt (f_unit 53 (2 ^ 53 - 1)) rate = false.
Proof.
  intros V H. destruct (flt (f_unit 53 (2 ^ 53 - 1)) rate) eqn:E; [exfalso|reflexivity].
  assert (F : ffinite rate = true) by (destruct rate as [|[]| |]; try reflexivity; discriminate).
  assert (V1 : fvalid (f_unit 53 (2 ^ 53 - 1))) by (apply fvalid_unit; reflexivity || discriminate).
  apply flt_R in H; auto using fvalid_f1. apply flt_R in E; auto. rewrite f2r_f1 in H.
  assert (G1 : generic_format radix2 (FLT_exp (-1074) 53) (bpow radix2 0)) by (apply generic_format_bpow; unfold FLT_exp; lia).
  assert (Gr : generic_format radix2 (FLT_exp (-1074) 53) (f2r rate)) by (apply PopulationProofs.fformat; exact V).
  assert (Vexp : Valid_exp (FLT_exp (-1074) 53)) by (apply FLT_exp_valid; reflexivity).
  pose proof (pred_ge_gt radix2 (FLT_exp (-1074) 53) _ _ Gr G1 H) as P. rewrite pred_bpow in P.
  assert (E1 : f2r (f_unit 53 (2 ^ 53 - 1)) = bpow radix2 0 - bpow radix2 (FLT_exp (-1074) 53 0)).
  { rewrite f2r_unit by (reflexivity || discriminate). change (FLT_exp (-1074) 53 0) with (-53)%Z. change (- Z.of_N 53)%Z with (-53)%Z. change (Z.of_N (2 ^ 53 - 1)) with 9007199254740991%Z. change (bpow radix2 0) with 1. change (bpow radix2 (-53)) with (/ 9007199254740992). lra. }
  rewrite <- E1 in P. lra.
Qed.

Lemma step_reach n g lo hi a l v : resolved lo hi n -> goodness_within lo hi n g -> may_explore a ->
  last (a_path a) = Some l -> a_stuck a = false -> l ∉ a_unvisited a -> (l < n)%nat -> Forall (fun u => u < n)%nat (a_unvisited a) -> (length (a_unvisited a) <= n)%nat -> v ∈ a_unvisited a ->
  exists h, forall rest, exists r, ant_step g (with_draws r a) = Ok (l, v, Ant (set_remove v (a_unvisited a)) (a_path a ++ [v]) (a_size a) false (a_rate a) rest h).
Proof.
  intros Hres (Hr & Hc & Hg) Hex Hl Hs Hlu Hln Hlt Hlen Hv. rewrite Forall_forall in Hlt.
  destruct (shuffle_ok (a_unvisited a) (a_hash a)) as (order & h & Hsh). pose proof (shuffle_perm _ _ _ _ Hsh) as P.
  assert (Hin : forall u, u ∈ order -> (u < n)%nat /\ u <> l). { intros u Hu. rewrite P in Hu. split; [exact (Hlt u Hu)|intros ->; contradiction]. }
  exists h. intros rest.
  destruct (wheel_reach (fun v => mget g l v) (entry g l) lo hi n order v l rest Hres) as [b Hb].
  - rewrite P. exact Hlen.
  - intros u Hu. apply AcoChoiceProofs.mget_Ok. split; [|reflexivity]. rewrite Hr, Hc. split; [exact Hln|exact (proj1 (Hin u Hu))].
  - intros u Hu. destruct (Hin u Hu) as [H1 H2]. apply Hg; auto.
  - rewrite P. exact Hv.
  - assert (Hne : v <> l) by (apply (Hin v); rewrite P; exact Hv).
    exists (match a_rate a with None => push b rest | Some _ => push (2 ^ 53 - 1) (push b rest) end).
    unfold ant_step. cbn [with_draws a_path a_stuck a_unvisited a_hash a_rate a_rng a_size]. rewrite Hl. cbn [unwrap mbind outcome_bind]. rewrite Hs.
    rewrite (bool_decide_eq_true_2 (l < nrows g)%nat) by lia. rewrite (bool_decide_eq_true_2 (a_unvisited a <> [])) by (intros E; rewrite E in Hv; apply elem_of_nil in Hv; exact Hv).
    cbn [rassert mbind outcome_bind]. rewrite Hsh. cbn [mbind outcome_bind].
    destruct (a_rate a) as [rate|] eqn:Er.
    + destruct (Hex rate Er) as [Vr Lr]. change (gen_f64 (push (2 ^ 53 - 1) (push b rest))) with (f_unit 53 (2 ^ 53 - 1), push b rest). cbv beta iota. rewrite (top_draw rate Vr Lr). rewrite Hb. cbn [mbind outcome_bind].
      rewrite bool_decide_eq_false_2 by exact Hne. reflexivity.
    + rewrite Hb. cbn [mbind outcome_bind]. rewrite bool_decide_eq_false_2 by exact Hne. reflexivity.
Qed.

(** An ant [k] places into the tour [p] *)
Definition on_track (n k : nat) (p : list nat) (a : ant) : Prop :=
  tour n p /\ a_path a = take k p /\ a_unvisited a ≡ₚ drop k p /\ a_size a = n /\ a_stuck a = false /\ may_explore a.
Lemma on_track_draws n k p r a : on_track n k p a -> on_track n k p (with_draws r a).
Proof. intros H. exact H. Qed.
Lemma track_step n k p g lo hi a : resolved lo hi n -> goodness_within lo hi n g -> (0 < k < n)%nat -> on_track n k p a ->
  exists l v a1, on_track n (k + 1) p a1 /\ forall rest, exists r, ant_step g (with_draws r a) = Ok (l, v, with_draws rest a1).
Proof.
  intros Hres Hg Hk (T & Ep & Eu & Es & Est & Hex). pose proof (Permutation_length T) as Lp. rewrite seq_length in Lp.
  destruct (lookup_lt_is_Some_2 p (k - 1)%nat) as [l Hl]; [lia|]. destruct (lookup_lt_is_Some_2 p k) as [v Hv]; [lia|].
  assert (Nd : NoDup p) by (rewrite T; apply NoDup_seq). assert (Lt : forall i u, p !! i = Some u -> (u < n)%nat).
  { intros i u Hu. apply elem_of_list_lookup_2 in Hu. rewrite T in Hu. apply elem_of_seq in Hu. lia. }
  assert (Dp : drop k p = v :: drop (Datatypes.S k) p) by (apply drop_S; exact Hv).
  destruct (step_reach n g lo hi a l v Hres Hg Hex) as [h Hh].
  - rewrite Ep, last_lookup, take_length, lookup_take by lia. rewrite <- Hl. f_equal. lia.
  - exact Est.
  - rewrite Eu. intros Hin. apply elem_of_list_lookup in Hin as (i & Hi). rewrite lookup_drop in Hi. pose proof (NoDup_lookup _ _ _ _ Nd Hl Hi). lia.
  - exact (Lt _ _ Hl).
  - rewrite Eu. apply Forall_forall. intros u Hu. apply elem_of_list_lookup in Hu as (i & Hi). rewrite lookup_drop in Hi. exact (Lt _ _ Hi).
  - rewrite Eu, drop_length. lia.
  - rewrite Eu, Dp. left.
  - exists l, v, (Ant (set_remove v (a_unvisited a)) (a_path a ++ [v]) (a_size a) false (a_rate a) (a_rng a) h). split.
    + split_and!; cbn [a_path a_unvisited a_size a_stuck]; auto.
      * rewrite Ep. replace (k + 1)%nat with (Datatypes.S k) by lia. symmetry. apply take_S_r. exact Hv.
      * replace (k + 1)%nat with (Datatypes.S k) by lia.
        assert (NoDup (a_unvisited a)) as Nu by (rewrite Eu; rewrite <- (take_drop k p) in Nd; apply NoDup_app in Nd; tauto).
        assert (v ∈ a_unvisited a) as Vu by (rewrite Eu, Dp; left).
        apply (Permutation_cons_inv (a := v)). rewrite <- (set_remove_perm v _ Nu Vu), Eu, Dp. reflexivity.
    + intros rest. destruct (Hh rest) as [r E]. exists r. exact E.
Qed.
Lemma track_walk n p lo hi gs : forall k a, resolved lo hi n -> Forall (goodness_within lo hi n) gs -> (0 < k)%nat -> (k + length gs <= n)%nat -> on_track n k p a ->
  exists a1, on_track n (k + length gs) p a1 /\ forall rest, exists r, walk gs (with_draws r a) = Ok (with_draws rest a1).
Proof.
  induction gs as [|g gs IH]; intros k a Hres Hg Hk Hl Ht.
  - exists a. split; [cbn [length]; rewrite Nat.add_0_r; exact Ht|]. intros rest. exists rest. reflexivity.
  - cbn [length] in *. inversion_clear Hg as [|? ? Hg1 Hg2]. destruct (track_step n k p g lo hi a Hres Hg1 ltac:(lia) Ht) as (l & v & a1 & Ht1 & H1).
    destruct (IH (k + 1)%nat a1 Hres Hg2 ltac:(lia) ltac:(lia) Ht1) as (a2 & Ht2 & H2). exists a2. split; [replace (k + Datatypes.S (length gs))%nat with (k + 1 + length gs)%nat by lia; exact Ht2|].
    intros rest. destruct (H2 rest) as [r2 E2]. destruct (H1 r2) as [r1 E1]. exists r1. unfold walk. cbn [ofold]. rewrite E1. cbn [mbind outcome_bind]. exact E2.
Qed.
Lemma track_start n p a : usable n a -> may_explore a -> (0 < n)%nat -> tour n p ->
  exists a1, on_track n 1 p a1 /\ forall rest, exists r, ant_start (ant_clear (with_draws r a)) = Ok (with_draws rest a1).
Proof.
  intros Hu Hex Hn T. pose proof (clear_unvisited a n Hu) as Hc. pose proof (Permutation_length T) as Lp. rewrite seq_length in Lp. destruct Hu as (Hs & _ & _).
  destruct p as [|s q]; [cbn in Lp; lia|].
  assert (Hsn : (s < n)%nat) by (assert (s ∈ seq 0 n) as X by (rewrite <- T; left); apply elem_of_seq in X; lia).
  exists (Ant (set_remove s (a_unvisited (ant_clear a))) [s] n false (a_rate a) (a_rng a) (a_hash a)). split.
  - split_and!; cbn [a_path a_unvisited a_size a_stuck]; auto. cbn [drop].
    apply (Permutation_cons_inv (a := s)). rewrite <- set_remove_perm; [|rewrite Hc; apply NoDup_seq|rewrite Hc; apply elem_of_seq; lia]. rewrite Hc. symmetry. exact T.
  - intros rest. destruct (gen_range_surj 0 n s rest ltac:(lia)) as [r E]. exists r. unfold ant_start. cbn [ant_clear with_draws a_size a_rng a_unvisited a_path a_rate a_stuck a_hash]. rewrite Hs, E. reflexivity.
Qed.
Lemma tour_reach n p lo hi gs a : resolved lo hi n -> Forall (goodness_within lo hi n) gs -> length gs = (n - 1)%nat -> (0 < n)%nat -> usable n a -> may_explore a -> tour n p ->
  exists a1, a_path a1 = p /\ a_stuck a1 = false /\ forall rest, exists r a0, ant_start (ant_clear (with_draws r a)) = Ok a0 /\ walk gs a0 = Ok (with_draws rest a1).
Proof.
  intros Hres Hg Hl Hn Hu Hex T. destruct (track_start n p a Hu Hex Hn T) as (a1 & Ht1 & H1).
  destruct (track_walk n p lo hi gs 1 a1 Hres Hg ltac:(lia) ltac:(lia) Ht1) as (a2 & Ht2 & H2). exists a2. destruct Ht2 as (_ & Ep & _ & _ & Es & _).
  pose proof (Permutation_length T) as Lp. rewrite seq_length in Lp.
  split; [rewrite Ep; apply take_ge; lia|]. split; [exact Es|]. intros rest. destruct (H2 rest) as [r2 E2]. destruct (H1 r2) as [r1 E1]. exists r1, (with_draws r2 a1). auto.
Qed.
(** ** Colonies *)
Lemma colony_reach n g lo hi : resolved lo hi n -> goodness_within lo hi n g -> (0 < n)%nat ->
  forall ants ps, length ants = length ps -> Forall (usable n) ants -> Forall may_explore ants -> Forall (tour n) ps ->
  exists rs ants', length rs = length ants /\ as_loop n g (zip_with with_draws rs ants) = Ok (ps, ants').
Proof.
  intros Hres Hg Hn. induction ants as [|a ants IH]; intros [|p ps] Hl Hu Hex T; try discriminate.
  - exists [], []. split; reflexivity.
  - inversion_clear Hu as [|? ? Hu1 Hu2]. inversion_clear Hex as [|? ? Hx1 Hx2]. inversion_clear T as [|? ? T1 T2]. destruct (IH ps ltac:(cbn in Hl; lia) Hu2 Hx2 T2) as (rs & ants' & Lr & E).
    destruct (tour_reach n p lo hi (replicate (n - 1) g) a Hres) as (a1 & Ep & Es & H); auto.
    { apply Forall_replicate. exact Hg. } { apply replicate_length. }
    destruct (H (a_rng a1)) as (r & a0 & E0 & E1). exists (r :: rs), (with_draws (a_rng a1) a1 :: ants'). split; [cbn; lia|].
    cbn [zip_with as_loop]. rewrite E0. cbn [mbind outcome_bind]. rewrite ant_steps_walk, E1. cbn [mbind outcome_bind]. cbn [with_draws a_stuck a_path]. rewrite Es. rewrite E. cbn [mbind outcome_bind]. rewrite Ep. reflexivity.
Qed.
Lemma round_reach n k g lo hi : resolved lo hi n -> goodness_within lo hi n g -> (0 < k < n)%nat ->
  forall ps ants, Forall2 (on_track n k) ps ants ->
  exists ants1, Forall2 (on_track n (k + 1)) ps ants1 /\ forall rests, length rests = length ants ->
    exists rs, length rs = length ants /\ acs_round g (zip_with with_draws rs ants) = Ok (take (k + 1) <$> ps, zip_with with_draws rests ants1).
Proof.
  intros Hres Hg Hk. induction 1 as [|p a ps ants Ht _ IH].
  - exists []. split; [constructor|]. intros [|] L; [|discriminate]. exists []. split; reflexivity.
  - destruct IH as (ants1 & F1 & H1). destruct (track_step n k p g lo hi a Hres Hg Hk Ht) as (l & v & a1 & Ht1 & S1).
    exists (a1 :: ants1). split; [constructor; auto|]. intros [|rest rests] L; [discriminate|]. destruct (H1 rests ltac:(cbn in L; lia)) as (rs & Lr & E). destruct (S1 rest) as [r Er].
    exists (r :: rs). split; [cbn; lia|]. destruct Ht as (_ & _ & _ & _ & Es & _). cbn [zip_with acs_round]. cbn [with_draws a_stuck]. rewrite Es. change (Ant (a_unvisited a) (a_path a) (a_size a) (a_stuck a) (a_rate a) r (a_hash a)) with (with_draws r a).
    rewrite Er. cbn [mbind outcome_bind]. rewrite E. cbn [mbind outcome_bind]. destruct Ht1 as (_ & Ep & _). cbn [with_draws a_path]. rewrite Ep. reflexivity.
Qed.
Lemma rounds_reach (good : matrix -> Prop) op local n lo hi : resolved lo hi n ->
  (forall p, good p -> exists g, op p = Ok g /\ goodness_within lo hi n g) -> (forall p paths, good p -> Forall (partial_tour n) paths -> exists p', local p paths = Ok p' /\ good p') ->
  forall m k ps ants ph paths0, (0 < k)%nat -> (k + m = n)%nat -> good ph -> Forall2 (on_track n k) ps ants -> (m = 0%nat -> paths0 = ps) ->
  exists rs ants' ph', length rs = length ants /\ acs_rounds op local m paths0 (zip_with with_draws rs ants) ph = Ok (ps, ants', ph').
Proof.
  intros Hres Hop Hloc. induction m as [|m IH]; intros k ps ants ph paths0 Hk Hkm Hgood HF H0.
  - exists (map a_rng ants). eexists _, _. split; [apply map_length|]. cbn [acs_rounds]. rewrite H0 by reflexivity. reflexivity.
  - destruct (Hop ph Hgood) as (g & Eg & Wg). destruct (round_reach n k g lo hi Hres Wg ltac:(lia) ps ants HF) as (ants1 & F1 & H1).
    assert (Hlong : Forall (partial_tour n) (take (k + 1) <$> ps)).
    { apply Forall_fmap. apply Forall_forall. intros p Hp. apply elem_of_list_lookup in Hp as (i & Hi). destruct (Forall2_lookup_l _ _ _ _ _ HF Hi) as (a & _ & T & _). pose proof (Permutation_length T) as Lp. rewrite seq_length in Lp.
      assert (Nd : NoDup p) by (rewrite T; apply NoDup_seq). split; [cbn; rewrite take_length; lia|]. split; [cbn; rewrite <- (take_drop (k + 1) p) in Nd; apply NoDup_app in Nd; tauto|].
      cbn. apply Forall_take. rewrite T. apply Forall_forall. intros u Hu. apply elem_of_seq in Hu. lia. }
    destruct (Hloc ph (take (k + 1) <$> ps) Hgood Hlong) as (ph1 & El & G1).
    destruct (IH (k + 1)%nat ps ants1 ph1 (take (k + 1) <$> ps) ltac:(lia) ltac:(lia) G1 F1) as (rs1 & ants' & ph' & L1 & E1).
    { intros ->. apply list_eq. intros i. rewrite list_lookup_fmap. destruct (ps !! i) as [p|] eqn:Hi; [|reflexivity]. cbn. f_equal. apply take_ge.
      destruct (Forall2_lookup_l _ _ _ _ _ HF Hi) as (a & _ & T & _). apply Permutation_length in T. rewrite seq_length in T. lia. }
    assert (L2 : length ants1 = length ants) by (apply Forall2_length in HF, F1; lia).
    destruct (H1 rs1 ltac:(lia)) as (rs & Lr & E). exists rs, ants', ph'. split; [exact Lr|]. cbn [acs_rounds]. rewrite Eg. cbn [mbind outcome_bind]. rewrite E. cbn [mbind outcome_bind]. rewrite El. exact E1.
Qed.
Lemma starts_reach n : (0 < n)%nat -> forall ps ants, length ants = length ps -> Forall (usable n) ants -> Forall may_explore ants -> Forall (tour n) ps ->
  exists ants1, Forall2 (on_track n 1) ps ants1 /\ length ants1 = length ants /\ forall rests, length rests = length ants ->
    exists rs, length rs = length ants /\ omapM (fun a => ant_start (ant_clear a)) (zip_with with_draws rs ants) = Ok (zip_with with_draws rests ants1).
Proof.
  intros Hn. induction ps as [|p ps IH]; intros [|a ants] Hl Hu Hex T; try discriminate.
  - exists []. split; [constructor|]. split; [reflexivity|]. intros [|] L; [|discriminate]. exists []. split; reflexivity.
  - inversion_clear Hu as [|? ? Hu1 Hu2]. inversion_clear Hex as [|? ? Hx1 Hx2]. inversion_clear T as [|? ? T1 T2]. destruct (IH ants ltac:(cbn in Hl; lia) Hu2 Hx2 T2) as (ants1 & F & L1 & H).
    destruct (track_start n p a Hu1 Hx1 Hn T1) as (a1 & Ht1 & H1). exists (a1 :: ants1). split; [constructor; auto|]. split; [cbn; lia|].
    intros [|rest rests] L; [discriminate|]. destruct (H rests ltac:(cbn in L; lia)) as (rs & Lr & E). destruct (H1 rest) as [r Er]. exists (r :: rs). split; [cbn; lia|].
    cbn [zip_with omapM]. rewrite Er. cbn [mbind outcome_bind]. rewrite E. reflexivity.
Qed.
Lemma acs_reach (good : matrix -> Prop) op local n lo hi ants ps ph : resolved lo hi n -> (2 <= n)%nat ->
  (forall p, good p -> exists g, op p = Ok g /\ goodness_within lo hi n g) -> (forall p paths, good p -> Forall (partial_tour n) paths -> exists p', local p paths = Ok p' /\ good p') ->
  nrows ph = n -> good ph -> length ants = length ps -> Forall (usable n) ants -> Forall may_explore ants -> Forall (tour n) ps ->
  exists rs ants' ph', length rs = length ants /\ ant_colony_system op local (zip_with with_draws rs ants) ph = Ok (ps, ants', ph').
Proof.
  intros Hres Hn Hop Hloc Hr Hgood Hl Hu Hex T. destruct (starts_reach n ltac:(lia) ps ants Hl Hu Hex T) as (ants1 & F & L1 & H).
  destruct (rounds_reach good op local n lo hi Hres Hop Hloc (n - 1) 1 ps ants1 ph [] ltac:(lia) ltac:(lia) Hgood F ltac:(lia)) as (rs1 & ants' & ph' & L2 & E2).
  destruct (H rs1 ltac:(lia)) as (rs & L3 & E3). exists rs, ants', ph'. split; [exact L3|]. unfold ant_colony_system. rewrite E3. cbn [mbind outcome_bind]. rewrite Hr. exact E2.
Qed.
