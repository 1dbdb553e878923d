(** * Proofs: how many copies of each member stochastic universal sampling selects *)
From Verif Require Export ChanceProofs.
From Verif Require Import SelectionSpec SelectionModel SelectionProofs SusProofs F64R AcoTspGenProofs AcoCostProofs.
From Coq Require Import Reals Lra Lia.
From Flocq Require Import Core.Core IEEE754.BinarySingleNaN.
Local Existing Instances Hfexp HNE Hprec53 Hmax1024.
Open Scope R_scope.

(** ** Counting in a sorted list *)
Definition below (i : nat) (sel : list nat) : nat := length (List.filter (fun x => x <? i)%nat sel).
Definition copies (i : nat) (sel : list nat) : nat := length (List.filter (Nat.eqb i) sel).
Lemma below_S i sel : below (S i) sel = (below i sel + copies i sel)%nat.
Proof.
  unfold below, copies. induction sel as [|x sel IH]; [reflexivity|]. cbn [List.filter].
  destruct (Nat.ltb_spec x (S i)), (Nat.ltb_spec x i), (Nat.eqb_spec i x); cbn [length]; lia.
Qed.
Lemma below_0 sel : below 0 sel = 0%nat. Proof. unfold below. induction sel as [|x sel IH]; [reflexivity|exact IH]. Qed.
Lemma below_sorted i sel : (forall k1 k2 i1 i2, (k1 <= k2)%nat -> sel !! k1 = Some i1 -> sel !! k2 = Some i2 -> (i1 <= i2)%nat) ->
  forall k x, sel !! k = Some x -> (x < i <-> k < below i sel)%nat.
Proof.
  unfold below. induction sel as [|y sel IH]; intros Hs k x Hk; [discriminate|]. cbn [List.filter].
  assert (forall k1 k2 i1 i2, (k1 <= k2)%nat -> sel !! k1 = Some i1 -> sel !! k2 = Some i2 -> (i1 <= i2)%nat) as Hs'. { intros k1 k2 i1 i2 L H1 H2. apply (Hs (S k1) (S k2)); auto. lia. }
  destruct k as [|k].
  - injection Hk as <-. destruct (Nat.ltb_spec y i); cbn [length]; [split; lia|].
    split; [lia|]. intros L. exfalso.
    destruct (List.filter (fun x => x <? i)%nat sel) as [|z zs] eqn:E; [cbn in L; lia|].
    assert (In z (List.filter (fun x => x <? i)%nat sel)) as Hz by (rewrite E; left; reflexivity). apply filter_In in Hz as [Hz Lz]. apply Nat.ltb_lt in Lz.
    apply elem_of_list_In, elem_of_list_lookup in Hz as (m & Hm). pose proof (Hs 0%nat (S m) y z ltac:(lia) eq_refl Hm). lia.
  - cbn in Hk. specialize (IH Hs' k x Hk). pose proof (Hs 0%nat (S k) y x ltac:(lia) eq_refl Hk). destruct (Nat.ltb_spec y i); cbn [length]; [lia|].
    split; [lia|]. intros L. exfalso. assert (k < length (List.filter (fun x => x <? i) sel))%nat as L' by lia. apply IH in L'. lia.
Qed.
Lemma below_le i sel : (below i sel <= length sel)%nat.
Proof. unfold below. induction sel as [|x sel IH]; [cbn; lia|]. cbn [List.filter]. destruct (x <? i)%nat; cbn [length]; lia. Qed.

Lemma pow_up n e : INR n * uu <= e -> e <= / 8 -> (1 + uu) ^ n <= 1 + 2 * e.
Proof.
  intros H1 H2. pose proof (pos_INR n). pose proof uu_pos. pose proof (one_plus_bound n ltac:(lra)) as B. pose proof (cond_u1 n) as C.
  set (P := (1 + uu) ^ n) in *. assert (P * (1 - e) <= 1) by nra. assert (0 <= e) by nra. nra.
Qed.
Lemma pow_low n e : INR n * uu <= e -> 1 - e <= (1 - uu) ^ n.
Proof. intros H. pose proof (bernoulli n). lra. Qed.

Section Sus.
Variables (fs : list f64) (p0 d : f64) (sel : list nat) (count : nat).
Notation T := (foldl fadd f0 fs).
Notation n := (length fs).
Notation S0 := (exact_total fs).
Hypothesis Hfs : Forall nonneg_finite fs.
Hypothesis HT : ffinite T = true.
Hypothesis Hbig : f2r T <= bpow radix2 1000.
Hypothesis Hn : (Z.of_nat n <= 2 ^ 40)%Z.
Hypothesis Hc : (Z.of_nat count <= 2 ^ 40)%Z.
Hypothesis HS : bpow radix2 (-900) <= S0.
Hypothesis Hd : d = fdiv T (f_of_nat count).
Hypothesis Cpos : (0 < count)%nat.
Hypothesis Hp0 : nonneg_finite p0.
Hypothesis Hp0d : fle p0 d = true.
Hypothesis Hlen : length sel = count.
Hypothesis Hhit : pointer_hits fs p0 d sel.
Hypothesis Hex : pointers_exhausted fs p0 d sel.

Let en := INR n * uu.
Let ec := INR count * uu.
Lemma en_small : 0 <= en <= / 8192. Proof using All. apply (e_small fs Hn). Qed.
Lemma ec_small : 0 < ec <= / 8192.
Proof using All.
  unfold ec. pose proof uu_pos. assert (1 <= INR count) by (apply (le_INR 1); lia). split; [nra|]. apply Rle_trans with (bpow radix2 40 * uu).
  - apply Rmult_le_compat_r; [lra|]. rewrite INR_IZR_INZ. change (bpow radix2 40) with (IZR (2 ^ 40)). apply IZR_le. exact Hc.
  - unfold uu. rewrite <- bpow_plus. change (/ 8192) with (bpow radix2 (-13)). apply bpow_le. lia.
Qed.
Lemma S0_pos : 0 < S0. Proof using All. eapply Rlt_le_trans; [|exact HS]. apply bpow_gt_0. Qed.
Lemma T_R : fvalid T /\ S0 * (1 - en) <= f2r T <= S0 * (1 + 2 * en).
Proof using All.
  pose proof (foldl_mono fs f0 nonneg_f0 Hfs HT) as [(VT & _ & _) _]. split; [exact VT|]. destruct (e_bounds fs Hfs HT) as [B1 B2]. change (exact_sum fs) with S0 in *.
  pose proof S0_pos. pose proof en_small. pose proof (pow_up n en ltac:(unfold en; lra) ltac:(lra)). pose proof (pow_low n en ltac:(unfold en; lra)).
  split; [eapply Rle_trans; [|exact B2]|eapply Rle_trans; [exact B1|]]; apply Rmult_le_compat_l; lra.
Qed.
Lemma d_R : nonneg_finite d /\ f2r T * (1 - uu) <= f2r d * INR count <= f2r T * (1 + uu).
Proof using All.
  destruct T_R as [VT TB]. pose proof S0_pos as SP. pose proof en_small as E0. pose proof uu_pos. pose proof uu_small.
  destruct (f_of_nat_exact count ltac:(lia)) as (Vn & Fn & En). assert (1 <= INR count) as C1 by (apply (le_INR 1); lia).
  assert (0 < f2r T) as TP by nra. set (x := f2r T / INR count).
  assert (x * INR count = f2r T) as Ex by (unfold x; field; lra). assert (0 < x <= f2r T) as Hx.
  { split; [unfold x; apply Rmult_lt_0_compat; [lra|apply Rinv_0_lt_compat; lra]|]. rewrite <- Ex. assert (0 < x) by (unfold x; apply Rmult_lt_0_compat; [lra|apply Rinv_0_lt_compat; lra]). nra. }
  assert (bpow radix2 (-1022) <= x) as Xn.
  { apply Rmult_le_reg_r with (INR count); [lra|]. rewrite Ex. apply Rle_trans with (bpow radix2 (-1022) * bpow radix2 40).
    - apply Rmult_le_compat_l; [apply bpow_ge_0|]. rewrite INR_IZR_INZ. change (bpow radix2 40) with (IZR (2 ^ 40)). apply IZR_le. exact Hc.
    - rewrite <- bpow_plus. apply Rle_trans with (bpow radix2 (-901)); [apply bpow_le; lia|]. apply Rle_trans with (S0 * (1 - en)); [|lra].
      change (-901)%Z with (-900 + -1)%Z. rewrite bpow_plus. change (bpow radix2 (-1)) with (/2). pose proof (bpow_gt_0 radix2 (-900)). nra. }
  pose proof (rnd_rel x ltac:(lra) (or_intror Xn)) as B.
  destruct (fdiv_R T (f_of_nat count) VT Vn HT ltac:(rewrite En; lra)) as [E F].
  { rewrite En. fold x. rewrite Rabs_pos_eq by nra. apply Rle_lt_trans with (x * (1 + uu)); [lra|]. apply Rle_lt_trans with (bpow radix2 1000 * bpow radix2 1); [|rewrite <- bpow_plus; apply bpow_lt; lia].
    change (bpow radix2 1) with 2. nra. }
  rewrite En in E. fold x in E. rewrite <- Hd in E, F. split.
  - apply nonneg_of_R; [rewrite Hd; apply fvalid_div; auto|exact F|rewrite E; nra].
  - rewrite E. nra.
Qed.

(** The pointers *)
Lemma pointer_R k : (k <= count)%nat -> nonneg_finite (pointer_at p0 d k) /\
  (f2r p0 + INR k * f2r d) * (1 - uu) ^ k <= f2r (pointer_at p0 d k) <= (f2r p0 + INR k * f2r d) * (1 + uu) ^ k.
Proof using All.
  destruct d_R as [Nd DB]. pose proof (nonneg_R _ Nd) as Pd. pose proof (nonneg_R _ Hp0) as Pp. pose proof uu_pos. pose proof uu_small.
  assert (f2r p0 <= f2r d) as L0. { destruct Hp0 as (Vp & Fp & _), Nd as (Vd & Fd & _). apply fle_R; auto. }
  assert (1 <= INR count) as C1 by (apply (le_INR 1); lia). pose proof ec_small as E0.
  assert (forall j, (j <= S count)%nat -> f2r p0 + INR j * f2r d <= 4 * bpow radix2 1000) as Bnd.
  { intros j Hj. assert (INR j <= INR count + 1) by (rewrite <- S_INR; apply le_INR; exact Hj). 
    assert (f2r d <= f2r d * INR count) by nra. assert (f2r T * (1 + uu) <= 1.25 * bpow radix2 1000) by (pose proof (bpow_gt_0 radix2 1000); nra). 
    assert (INR j * f2r d <= (INR count + 1) * f2r d) by nra. nra. }
  induction k as [|k IH]; intros Hk.
  - cbn [INR pow]. change (pointer_at p0 d 0) with p0. split; [exact Hp0|]. lra.
  - destruct IH as [Nk Bk]; [lia|]. rewrite pointer_at_S. set (P := pointer_at p0 d k) in *. pose proof (nonneg_R _ Nk) as Pk.
    assert ((1 + uu) ^ k <= 1 + 2 * ec) as Up. { apply pow_up; [|lra]. unfold ec. apply Rmult_le_compat_r; [lra|]. apply le_INR. lia. }
    destruct Nk as (Vk & Fk & _), Nd as (Vd & Fd & _). pose proof (add_rel P d Vk Vd Pk Pd) as A.
    set (X := f2r p0 + INR k * f2r d) in *. assert (0 <= X) as PX by (unfold X; pose proof (pos_INR k); nra).
    destruct (fadd_R P d Vk Vd Fk Fd) as [E F].
    { rewrite Rabs_pos_eq by nra. apply Rle_lt_trans with (bpow radix2 1000 * bpow radix2 4); [|rewrite <- bpow_plus; apply bpow_lt; lia]. change (bpow radix2 4) with 16.
      pose proof (Bnd k ltac:(lia)) as B1. pose proof (Bnd 1%nat ltac:(lia)) as B2. change (INR 1) with 1 in B2. fold X in B1.
      assert (f2r P <= X * 1.25) by nra. pose proof (bpow_gt_0 radix2 1000). nra. }
    rewrite E. split; [apply nonneg_of_R; [apply fvalid_add; auto|exact F|rewrite E; nra]|].
    rewrite S_INR. replace (f2r p0 + (INR k + 1) * f2r d) with (X + f2r d) by (unfold X; ring).
    assert (0 < (1 - uu) ^ k <= 1) as Lo. { split; [apply cond_1u|]. pose proof (pow_incr (1 - uu) 1 k ltac:(lra)) as W. rewrite pow1 in W. exact W. }
    pose proof (cond_u1 k) as Hi. cbn [pow]. split.
    + apply Rle_trans with ((f2r P + f2r d) * (1 - uu)); [|lra]. replace ((X + f2r d) * ((1 - uu) * (1 - uu) ^ k)) with ((X * (1 - uu) ^ k + f2r d * (1 - uu) ^ k) * (1 - uu)) by ring.
      apply Rmult_le_compat_r; [lra|]. nra.
    + apply Rle_trans with ((f2r P + f2r d) * (1 + uu)); [lra|]. replace ((X + f2r d) * ((1 + uu) * (1 + uu) ^ k)) with ((X * (1 + uu) ^ k + f2r d * (1 + uu) ^ k) * (1 + uu)) by ring.
      apply Rmult_le_compat_r; [lra|]. nra.
Qed.

Let eta := (2 * en + 8 * ec) * S0.
(** The float sums and pointers against the exact ones *)
Lemma prefix_near i : (i < n)%nat -> nonneg_finite (cumulative fs i) /\ Rabs (f2r (cumulative fs i) - exact_total (take (S i) fs)) <= 2 * en * S0.
Proof using All.
  intros Hi. destruct (ChanceProofs.prefix fs Hfs HT i) as [Nc _]. split; [exact Nc|]. destruct Nc as (_ & Fc & _).
  assert (Forall nonneg_finite (take (S i) fs)) as Ht by (apply Forall_take; exact Hfs).
  destruct (fold_accuracy (take (S i) fs) f0 nonneg_f0 Ht Fc) as [C1 C2]. rewrite f2r_f0, Rplus_0_l in C1, C2. fold (cumulative fs i) in C1, C2. change (exact_sum (take (S i) fs)) with (exact_total (take (S i) fs)) in *.
  set (s := exact_total (take (S i) fs)) in *. assert (0 <= s <= S0) as Hs.
  { split; [apply exact_sum_pos; exact Ht|]. unfold s. rewrite <- (take_drop (S i) fs) at 2. change exact_total with exact_sum. rewrite exact_sum_app.
    assert (0 <= exact_sum (drop (S i) fs)) by (apply exact_sum_pos; apply Forall_drop; exact Hfs). lra. }
  rewrite take_length in C1, C2. pose proof en_small as E0. pose proof uu_pos. 
  assert (INR (S i `min` n) * uu <= en) as He. { unfold en. apply Rmult_le_compat_r; [lra|]. apply le_INR. lia. }
  pose proof (pow_up _ _ He ltac:(lra)). pose proof (pow_low _ _ He). apply Rabs_le. split; nra.
Qed.
Lemma pointer_near k : (k <= count)%nat -> nonneg_finite (pointer_at p0 d k) /\ Rabs (f2r (pointer_at p0 d k) - (f2r p0 + INR k * f2r d)) <= 8 * ec * S0.
Proof using All.
  intros Hk. destruct (pointer_R k Hk) as [Nk B]. split; [exact Nk|]. destruct d_R as [Nd DB]. destruct T_R as [_ TB].
  pose proof (nonneg_R _ Nd) as Pd. pose proof (nonneg_R _ Hp0) as Pp. pose proof uu_pos. pose proof uu_small. pose proof S0_pos. pose proof en_small. pose proof ec_small.
  assert (f2r p0 <= f2r d) as L0. { destruct Hp0 as (Vp & Fp & _), Nd as (Vd & Fd & _). apply fle_R; auto. }
  assert (1 <= INR count) as C1 by (apply (le_INR 1); lia). assert (INR k <= INR count) by (apply le_INR; exact Hk). pose proof (pos_INR k).
  set (X := f2r p0 + INR k * f2r d) in *. assert (0 <= X <= 3 * S0) as HX.
  { unfold X. split; [nra|]. assert (f2r d <= f2r d * INR count) by nra. assert (INR k * f2r d <= f2r d * INR count) by nra. assert (f2r d * INR count <= 1.25 * S0) by nra. lra. }
  assert (INR k * uu <= ec) as He by (unfold ec; apply Rmult_le_compat_r; lra).
  pose proof (pow_up _ _ He ltac:(lra)). pose proof (pow_low _ _ He). apply Rabs_le. split; nra.
Qed.

(** The pointers that fall on the first [i] members *)
Lemma below_position i : (i <= n)%nat ->
  exact_total (take i fs) - eta <= f2r p0 + INR (below i sel) * f2r d <= exact_total (take i fs) + f2r d + eta.
Proof using All.
  intros Hi. destruct (pointer_hits_sorted _ _ _ _ Hhit) as [_ Hsort]. destruct d_R as [Nd DB].
  pose proof (nonneg_R _ Nd) as Pd. pose proof (nonneg_R _ Hp0) as Pp. pose proof S0_pos as SP. pose proof en_small as E0. pose proof ec_small as E1.
  assert (f2r p0 <= f2r d) as L0. { destruct Hp0 as (Vp & Fp & _), Nd as (Vd & Fd & _). apply fle_R; auto. }
  assert (0 <= eta) as EP by (unfold eta; nra). assert (0 <= exact_total (take i fs)) as ST by (apply exact_sum_pos, Forall_take, Hfs).
  pose proof (below_le i sel) as BL. rewrite Hlen in BL. split.
  - destruct i as [|i]; [rewrite below_0; change (exact_total (take 0 fs)) with 0; change (INR 0) with 0; lra|].
    set (B := below (S i) sel) in *.
    assert (fle (pointer_at p0 d B) (cumulative fs i) = false) as Hf.
    { assert (search_from sel B <= i)%nat as Hsf.
      { destruct B as [|b] eqn:EB; [cbn; lia|]. cbn [search_from]. destruct (lookup_lt_is_Some_2 sel b) as [x Hx]; [lia|]. rewrite Hx. change (x <= i)%nat.
        assert (x < S i)%nat; [|lia]. apply (below_sorted (S i) sel Hsort b x Hx). unfold B in EB. lia. }
      destruct (decide (B < length sel)%nat) as [L|L].
      - destruct (lookup_lt_is_Some_2 sel B L) as [y Hy]. destruct (Hhit B y Hy) as (_ & _ & _ & Hno). apply Hno. split; [exact Hsf|].
        assert (~ (y < S i)%nat); [|lia]. intros X. apply (below_sorted (S i) sel Hsort B y Hy) in X. unfold B in X. lia.
      - assert (B = length sel) as EB by lia. rewrite EB. apply Hex. rewrite <- EB. split; [exact Hsf|lia]. }
    destruct (prefix_near i ltac:(lia)) as [(Vc & Fc & _) Nc]. destruct (pointer_near B ltac:(lia)) as [(Vp & Fp & _) Np].
    assert (f2r (cumulative fs i) < f2r (pointer_at p0 d B)) as L. { apply Rnot_le_lt. intros X. assert (fle (pointer_at p0 d B) (cumulative fs i) = true) by (apply fle_R; auto). congruence. }
    apply Rabs_le_inv in Nc, Np. unfold eta. lra.
  - destruct (below i sel) as [|b] eqn:EB; [cbn [INR]; lra|].
    destruct (lookup_lt_is_Some_2 sel b) as [x Hx]; [lia|]. assert (x < i)%nat as Hxi by (apply (below_sorted i sel Hsort b x Hx); lia).
    destruct (Hhit b x Hx) as (Hxn & _ & Hle & _). destruct (prefix_near x Hxn) as [(Vc & Fc & _) Nc]. destruct (pointer_near b ltac:(lia)) as [(Vp & Fp & _) Np].
    apply fle_R in Hle; auto. assert (exact_total (take (S x) fs) <= exact_total (take i fs)) as M.
    { rewrite <- (take_drop (S x) (take i fs)). rewrite take_take. replace (S x `min` i)%nat with (S x) by lia. change exact_total with exact_sum. rewrite exact_sum_app.
      assert (0 <= exact_sum (drop (S x) (take i fs))) by (apply exact_sum_pos, Forall_drop, Forall_take, Hfs). lra. }
    rewrite S_INR. apply Rabs_le_inv in Nc, Np. unfold eta. lra.
Qed.

Lemma copies_near i x : fs !! i = Some x ->
  Rabs (INR (copies i sel) - INR count * f2r x / S0) <= 1 + 24 * INR count * (INR n + INR count) / 2 ^ 53.
Proof using All.
  intros Hx. pose proof (lookup_lt_Some _ _ _ Hx) as Hi. pose proof (below_position i ltac:(lia)) as B1. pose proof (below_position (S i) ltac:(lia)) as B2.
  rewrite below_S, plus_INR, (take_S_r _ _ _ Hx) in B2. change (exact_total (take i fs ++ [x])) with (exact_sum (take i fs ++ [x])) in B2. rewrite exact_sum_app in B2.
  change (exact_sum [x]) with (f2r x + 0) in B2. change (exact_sum (take i fs)) with (exact_total (take i fs)) in B2.
  set (c := INR (copies i sel)) in *. set (f := f2r x) in *. destruct d_R as [Nd DB]. destruct T_R as [_ TB]. pose proof S0_pos as SP. pose proof en_small as E0. pose proof ec_small as E1. pose proof uu_pos as U0. pose proof uu_small as U1.
  assert (1 <= INR count) as C1 by (apply (le_INR 1); lia). pose proof (nonneg_R _ Nd) as Pd.
  assert (Rabs (c * f2r d - f) <= f2r d + 2 * eta) as D by (apply Rabs_le; lra).
  assert (0 <= c <= INR count) as Hcc. { unfold c. split; [apply pos_INR|]. apply le_INR. pose proof (below_le (S i) sel) as L. rewrite below_S, Hlen in L. lia. }
  assert (1 <= INR n) as N1 by (apply (le_INR 1); lia).
  assert (0 <= f <= S0) as Hf.
  { assert (Forall nonneg_finite [x]) as Nx by (constructor; [exact (Forall_lookup_1 _ _ _ _ Hfs Hx)|constructor]). 
    split; [apply nonneg_R; exact (Forall_lookup_1 _ _ _ _ Hfs Hx)|].
    pose proof (below_le 0 sel) as _. change S0 with (exact_sum fs). rewrite <- (take_drop_middle fs i x Hx). rewrite exact_sum_app. change (exact_sum (x :: drop (S i) fs)) with (f + exact_sum (drop (S i) fs)).
    assert (0 <= exact_sum (take i fs)) by (apply exact_sum_pos, Forall_take, Hfs). assert (0 <= exact_sum (drop (S i) fs)) by (apply exact_sum_pos, Forall_drop, Hfs). lra. }
  set (Dv := f2r d * INR count / S0). assert (f2r d * INR count = Dv * S0) as ED by (unfold Dv; field; lra).
  assert (Rabs (Dv - 1) <= 2 * en + 2 * uu) as Th.
  { rewrite ED in DB. apply Rabs_le. split.
    - assert (S0 * (1 - en) * (1 - uu) <= Dv * S0) as X by nra. assert ((1 - en) * (1 - uu) <= Dv) by nra. nra.
    - assert (Dv * S0 <= S0 * (1 + 2 * en) * (1 + uu)) as X by nra. assert (Dv <= (1 + 2 * en) * (1 + uu)) by nra. nra. }
  set (y := INR count * f / S0). assert (INR count * f = y * S0) as Ey by (unfold y; field; lra).
  assert (Rabs (c * Dv - y) <= Dv + 2 * INR count * (2 * en + 8 * ec)) as Q.
  { apply Rabs_le_inv in D. unfold eta in D. apply Rabs_le.
    assert (- (Dv + 2 * INR count * (2 * en + 8 * ec)) * S0 <= (c * Dv - y) * S0 <= (Dv + 2 * INR count * (2 * en + 8 * ec)) * S0) as X.
    { replace ((c * Dv - y) * S0) with (INR count * (c * f2r d - f)) by (transitivity (c * (Dv * S0) - y * S0); [rewrite <- ED, <- Ey; ring|ring]).
      replace ((Dv + 2 * INR count * (2 * en + 8 * ec)) * S0) with (INR count * (f2r d + 2 * ((2 * en + 8 * ec) * S0))) by (transitivity (Dv * S0 + 2 * INR count * (2 * en + 8 * ec) * S0); [rewrite <- ED; ring|ring]).
      replace (- (Dv + 2 * INR count * (2 * en + 8 * ec)) * S0) with (- (INR count * (f2r d + 2 * ((2 * en + 8 * ec) * S0)))) by (transitivity (- (Dv * S0 + 2 * INR count * (2 * en + 8 * ec) * S0)); [rewrite <- ED; ring|ring]).
      split; nra. }
    split; nra. }
  assert (/ 2 ^ 53 = uu) as EU. { unfold uu. change (-53)%Z with (- (53))%Z. rewrite bpow_opp. f_equal. rewrite pow_IZR. reflexivity. }
  unfold Rdiv. rewrite EU. fold (Rdiv (INR count * f) S0). fold y.
  apply Rabs_le_inv in Q, Th.
  assert (Rabs (c * (Dv - 1)) <= INR count * (2 * en + 2 * uu)) as W by (apply Rabs_le; split; nra). apply Rabs_le_inv in W.
  assert (24 * INR count * (INR n + INR count) * uu = 24 * INR count * (en + ec)) as -> by (unfold en, ec; ring).
  assert (INR count * uu <= INR count * en) by (unfold en; nra). assert (uu <= INR count * en) by (unfold en; nra). assert (en <= INR count * en) by nra.
  apply Rabs_le. split; nra.
Qed.
End Sus.

Lemma sus_copies {G} fuel count (pop : list (individual G)) r sel r' s p : sus fuel count pop r = Ok (sel, r') -> pop !! s = Some p ->
  Forall (fun q => nonneg_finite (fitness q)) pop -> / 2 ^ 900 <= exact_total (map fitness pop) <= 2 ^ 999 ->
  (Z.of_nat (length pop) <= 2 ^ 40)%Z -> (Z.of_nat count <= 2 ^ 40)%Z ->
  Rabs (INR (length (List.filter (Nat.eqb s) sel)) - INR count * f2r (fitness p) / exact_total (map fitness pop))
    <= 1 + 24 * INR count * (INR (length pop) + INR count) / 2 ^ 53.
Proof.
  intros H Hp Hnn [HS1 HS2] Hl Hc. destruct (sus_spec _ _ _ _ _ _ H) as (Hd0 & Hlen & p0 & Hp0 & Hhit & Hex).
  set (fs := fitness <$> pop) in *. change (map fitness pop) with fs in *. change (total_fitness pop) with (foldl fadd f0 fs) in *.
  assert (Forall nonneg_finite fs) as Hfs by (apply Forall_fmap; exact Hnn).
  assert (length fs = length pop) as El by (unfold fs; apply fmap_length). rewrite <- El in *.
  destruct (gen_range_f64_Ok _ _ _ _ _ Hp0 fvalid_f0) as (Vp & Fp & _ & Fd & H0p & Hpd & _).
  assert (ffinite (foldl fadd f0 fs) = true) as HT.
  { clear -Fd. destruct (foldl fadd f0 fs) as [s|s| |s m e]; try reflexivity; exfalso; destruct (f_of_nat count) as [t|t| |t m e]; cbn in Fd; discriminate. }
  assert (bpow radix2 (-900) <= exact_total fs) as HS. { eapply Rle_trans; [|exact HS1]. right. change (-900)%Z with (- (900))%Z. rewrite bpow_opp. f_equal. rewrite (pow_IZR 2 900). reflexivity. }
  assert (0 < count)%nat as Cpos.
  { destruct count; [|lia]. exfalso. clear -Fd Hd0. destruct (foldl fadd f0 fs) as [[]|[]| |[] m e]; cbn in Fd; discriminate. }
  assert (f2r (foldl fadd f0 fs) <= bpow radix2 1000) as Hbig.
  { destruct (e_bounds fs Hfs HT) as [B1 _]. change (exact_sum fs) with (exact_total fs) in B1. pose proof (e_small fs Hl) as E0. pose proof (pow_up (length fs) (INR (length fs) * uu) ltac:(lra) ltac:(lra)) as U.
    assert (0 <= exact_total fs) as P0 by (pose proof (bpow_gt_0 radix2 (-900)); lra).
    assert (2 ^ 999 = bpow radix2 999) as E9 by (rewrite (pow_IZR 2 999); reflexivity). rewrite E9 in HS2.
    change 1000%Z with (999 + 1)%Z. rewrite bpow_plus. change (bpow radix2 1) with 2. pose proof (bpow_gt_0 radix2 999). nra. }
  assert (nonneg_finite p0) as Np by (split; [exact Vp|split; [exact Fp|exact H0p]]).
  refine (copies_near fs p0 _ sel count Hfs HT Hbig Hl Hc HS eq_refl Cpos Np Hpd Hlen Hhit Hex s (fitness p) _).
  unfold fs. rewrite list_lookup_fmap, Hp. reflexivity.
Qed.
