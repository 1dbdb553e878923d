(** * Boltzmann selection: how the weights depend on the fitness and on the generation *)
From Coq Require Import Reals Lra Lia.
From Verif Require Export SelectionModel F64R SusProofs PopulationSpec.
From Flocq Require Import Core.Core IEEE754.BinarySingleNaN.
Local Existing Instances Hfexp HNE Hprec53 Hmax1024.
Open Scope nat_scope.

Definition positive_f64 (t : f64) : Prop := finite_f64 t /\ flt f0 t = true.
Lemma positive_R t : positive_f64 t -> (0 < f2r t)%R.
Proof. intros [[V F] H]. apply flt_R in H; [|reflexivity|exact V|reflexivity|exact F]. rewrite f2r_f0 in H. exact H. Qed.
Lemma positive_shape t : positive_f64 t -> exists m e, t = S754_finite false m e.
Proof. intros [[V F] H]. destruct t as [s|s| |[] m e]; try discriminate F; try discriminate H. eauto. Qed.

(** Division by a positive number: the rounded quotient, or an infinity beyond the range. *)
Lemma fdiv_cases a t : finite_f64 a -> positive_f64 t -> let q := rnd (f2r a / f2r t) in
  (finite_f64 (fdiv a t) /\ f2r (fdiv a t) = q) \/ ((bpow radix2 1024 <= q)%R /\ fdiv a t = S754_infinity false) \/ ((q <= - bpow radix2 1024)%R /\ fdiv a t = S754_infinity true).
Proof.
  intros [Va Fa] Ht. cbv zeta. pose proof (positive_R t Ht) as Pt. destruct (positive_shape t Ht) as (m & e & Et). destruct Ht as [[Vt Ft] _].
  pose proof (fvalid_div _ _ Va Vt) as V. destruct (Rlt_le_dec (Rabs (rnd (f2r a / f2r t))) (bpow radix2 1024)) as [H|H].
  - left. destruct (fdiv_R a t Va Vt Fa ltac:(lra) H) as [E F]. split; [split; assumption|exact E].
  - right. apply fvalid_ex in Va as [x ->], Vt as [y ->]. rewrite fdiv_B in *. rewrite ffinite_B in *. rewrite !f2r_B in *.
    assert (B2R y <> 0)%R as Hy by lra.
    pose proof (Bdiv_correct 53 1024 _ _ mode_NE x y Hy) as C. unfold rnd in *. cbn [round_mode] in C. rewrite Rlt_bool_false in C by exact H.
    rewrite C. assert (Sy : Bsign y = false) by (destruct y; cbn in Et; try discriminate Et; injection Et as -> -> ->; reflexivity). rewrite Sy, xorb_false_r.
    pose proof (bpow_gt_0 radix2 1024) as B. 
    assert (Q : (B2R x / B2R y = B2R x * / B2R y)%R) by reflexivity. assert (0 < / B2R y)%R by (apply Rinv_0_lt_compat, Pt).
    assert (R0 : round radix2 (SpecFloat.fexp 53 1024) ZnearestE 0 = 0%R) by (apply round_0; auto with typeclass_instances).
    destruct x as [sx|sx| |sx mx ex Hx]; try discriminate Fa.
    + exfalso. cbn [B2R] in H. unfold Rdiv in H. rewrite Rmult_0_l, R0, Rabs_R0 in H. lra.
    + assert (S : if sx then (B2R (B754_finite sx mx ex Hx) <= 0)%R else (0 <= B2R (B754_finite sx mx ex Hx))%R).
      { destruct sx; cbn [B2R cond_Zopp]; [apply F2R_le_0; cbn; lia|apply F2R_ge_0; cbn; lia]. }
      cbn [Bsign]. destruct sx.
      * right. split; [|reflexivity]. assert (round radix2 (SpecFloat.fexp 53 1024) ZnearestE (B2R (B754_finite true mx ex Hx) / B2R y) <= 0)%R.
        { rewrite <- R0. apply rnd_le. rewrite Q. nra. } rewrite Rabs_left1 in H by assumption. lra.
      * left. split; [|reflexivity]. assert (0 <= round radix2 (SpecFloat.fexp 53 1024) ZnearestE (B2R (B754_finite false mx ex Hx) / B2R y))%R.
        { rewrite <- R0. apply rnd_le. rewrite Q. nra. } rewrite Rabs_pos_eq in H by assumption. lra.
Qed.
Lemma quotient_le a t b u : finite_f64 a -> positive_f64 t -> finite_f64 b -> positive_f64 u -> (f2r a / f2r t <= f2r b / f2r u)%R -> fle (fdiv a t) (fdiv b u) = true.
Proof.
  intros Ha Ht Hb Hu H. apply rnd_le in H. pose proof (bpow_gt_0 radix2 1024) as B.
  destruct (fdiv_cases a t Ha Ht) as [[[Va Fa] Ea]|[[La Ea]|[La Ea]]]; destruct (fdiv_cases b u Hb Hu) as [[[Vb Fb] Eb]|[[Lb Eb]|[Lb Eb]]].
  - apply fle_R; try assumption. lra.
  - rewrite Eb. destruct (fdiv a t) as [|[]| |[]]; try discriminate Fa; reflexivity.
  - exfalso. pose proof (f2r_bound _ Va) as K. rewrite Ea in K. apply Rabs_lt_inv in K. lra.
  - exfalso. pose proof (f2r_bound _ Vb) as K. rewrite Eb in K. apply Rabs_lt_inv in K. lra.
  - rewrite Ea, Eb. reflexivity.
  - lra.
  - rewrite Ea. destruct (fdiv b u) as [|[]| |[]]; try discriminate Fb; reflexivity.
  - rewrite Ea, Eb. reflexivity.
  - rewrite Ea, Eb. reflexivity.
Qed.
Lemma fneg_finite a : finite_f64 a -> finite_f64 (fneg a) /\ f2r (fneg a) = (- f2r a)%R.
Proof.
  intros [V F]. split.
  - split; destruct a; try discriminate F; try reflexivity; exact V.
  - apply fvalid_ex in V as [x ->]. rewrite fneg_B, !f2r_B. apply B2R_Bopp.
Qed.
Section B.
Context {G : Type}.
Implicit Types pop : list (individual G).
Lemma boltzmann_fitness (powf : f64 -> f64 -> f64) (exp : f64 -> f64) alpha temp_0 g mg pop i j p q :
  let temp := fmul temp_0 (powf (fsub f1 alpha) (fadd f1 (fdiv (fmul (f_of_nat 100) (f_of_nat g)) (f_of_nat mg)))) in
  positive_f64 temp -> (forall a b, fle a b = true -> fle (exp a) (exp b) = true) ->
  pop !! i = Some p -> pop !! j = Some q -> finite_f64 (fitness p) -> finite_f64 (fitness q) -> fle (fitness p) (fitness q) = true ->
  exists wp wq, boltzmann_weights powf exp alpha temp_0 g mg pop !! i = Some wp /\ boltzmann_weights powf exp alpha temp_0 g mg pop !! j = Some wq /\ fle wq wp = true.
Proof.
  intros temp Ht He Hi Hj Hp Hq Hle. unfold boltzmann_weights. rewrite !list_lookup_fmap, Hi, Hj. eexists _, _. split; [reflexivity|]. split; [reflexivity|].
  apply He. fold temp. destruct (fneg_finite _ Hp) as [Fp Ep], (fneg_finite _ Hq) as [Fq Eq]. apply quotient_le; try assumption.
  apply fle_R in Hle; [|apply Hp|apply Hq|apply Hp|apply Hq]. rewrite Ep, Eq. apply Rmult_le_compat_r; [|lra]. left. apply Rinv_0_lt_compat, positive_R, Ht.
Qed.
(** The temperature does not rise. *)
Lemma boltzmann_cooling (powf : f64 -> f64 -> f64) alpha temp_0 g g' mg :
  let temp g := fmul temp_0 (powf (fsub f1 alpha) (fadd f1 (fdiv (fmul (f_of_nat 100) (f_of_nat g)) (f_of_nat mg)))) in
  (forall k k', fle k k' = true -> fle (powf (fsub f1 alpha) k') (powf (fsub f1 alpha) k) = true) ->
  positive_f64 temp_0 -> finite_f64 (powf (fsub f1 alpha) (fadd f1 (fdiv (fmul (f_of_nat 100) (f_of_nat g)) (f_of_nat mg)))) ->
  finite_f64 (powf (fsub f1 alpha) (fadd f1 (fdiv (fmul (f_of_nat 100) (f_of_nat g')) (f_of_nat mg)))) ->
  positive_f64 (temp g) -> positive_f64 (temp g') ->
  g <= g' -> (Z.of_nat (100 * g') <= 2 ^ 53)%Z -> 0 < mg -> (Z.of_nat mg <= 2 ^ 53)%Z -> (f2r (temp g') <= f2r (temp g))%R.
Proof.
  intros temp Hp H0 Fk Fk' Ht Ht' Hg Hg2 Hm Hm2.
  assert (X : forall n, (Z.of_nat (100 * n) <= 2 ^ 53)%Z -> finite_f64 (fmul (f_of_nat 100) (f_of_nat n)) /\ f2r (fmul (f_of_nat 100) (f_of_nat n)) = INR (100 * n)).
  { intros n Hn. destruct (f_of_nat_exact 100) as (V1 & F1 & E1); [lia|]. destruct (f_of_nat_exact n) as (V2 & F2 & E2); [lia|].
    destruct (f_of_nat_exact (100 * n) Hn) as (V3 & F3 & E3).
    assert (M : (f2r (f_of_nat 100) * f2r (f_of_nat n) = f2r (f_of_nat (100 * n)))%R) by (rewrite E1, E2, E3, <- mult_INR; reflexivity).
    destruct (fmul_R (f_of_nat 100) (f_of_nat n) V1 V2 F1 F2) as [E F].
    - rewrite M, rnd_id by exact V3. apply f2r_bound, V3.
    - split; [split; [apply fvalid_mul; assumption|exact F]|]. rewrite E, M, rnd_id by exact V3. exact E3. }
  destruct (X g) as [Xg Eg]; [lia|]. destruct (X g' Hg2) as [Xg' Eg']. destruct (f_of_nat_exact mg Hm2) as (Vm & Fm & Em).
  assert (Pm : positive_f64 (f_of_nat mg)).
  { split; [split; assumption|]. apply flt_R; [reflexivity|exact Vm|reflexivity|exact Fm|]. rewrite Em, f2r_f0. apply (lt_INR 0), Hm. }
  assert (1 <= INR mg)%R by (apply (le_INR 1); exact Hm).
  assert (Q : fle (fdiv (fmul (f_of_nat 100) (f_of_nat g)) (f_of_nat mg)) (fdiv (fmul (f_of_nat 100) (f_of_nat g')) (f_of_nat mg)) = true).
  { apply quotient_le; try assumption. rewrite Eg, Eg', Em. apply Rmult_le_compat_r; [left; apply Rinv_0_lt_compat; lra|]. apply le_INR. lia. }
  (* the quotients are finite: at most 2^53 *)
  assert (D : forall n, finite_f64 (fmul (f_of_nat 100) (f_of_nat n)) -> f2r (fmul (f_of_nat 100) (f_of_nat n)) = INR (100 * n) -> (Z.of_nat (100 * n) <= 2 ^ 53)%Z ->
    finite_f64 (fdiv (fmul (f_of_nat 100) (f_of_nat n)) (f_of_nat mg)) /\ (0 <= f2r (fdiv (fmul (f_of_nat 100) (f_of_nat n)) (f_of_nat mg)) <= INR (100 * n))%R).
  { intros n Fn En Hn. destruct (f_of_nat_exact (100 * n) Hn) as (V3 & F3 & E3).
    assert (B : (0 <= INR (100 * n) / INR mg <= INR (100 * n))%R).
    { pose proof (pos_INR (100 * n)). assert (0 < / INR mg <= 1)%R by (split; [apply Rinv_0_lt_compat; lra|rewrite <- Rinv_1; apply Rinv_le_contravar; lra]). unfold Rdiv. nra. }
    assert (B1 : (rnd (INR (100 * n) / INR mg) <= INR (100 * n))%R) by (rewrite <- E3 at 2; rewrite <- (rnd_id _ V3), E3; apply rnd_le; lra).
    assert (B0 : (0 <= rnd (INR (100 * n) / INR mg))%R) by (rewrite <- rnd_0; apply rnd_le; lra).
    pose proof (f2r_bound _ V3) as K. rewrite E3 in K. apply Rabs_lt_inv in K.
    destruct (fdiv_cases _ _ Fn Pm) as [[F E]|[[L _]|[L _]]]; rewrite ?En, ?Em in *; [split; [exact F|]; rewrite E, ?En, ?Em; lra| |]; lra. }
  destruct (D g Xg Eg) as [Fd Bd]; [lia|]. destruct (D g' Xg' Eg' Hg2) as [Fd' Bd'].
  assert (Big : (INR (100 * g') <= IZR (2 ^ 53))%R) by (rewrite INR_IZR_INZ; apply IZR_le, Hg2).
  assert (Big' : (INR (100 * g) <= IZR (2 ^ 53))%R) by (rewrite INR_IZR_INZ; apply IZR_le; lia).
  assert (A : forall d, finite_f64 d -> (0 <= f2r d <= IZR (2 ^ 53))%R -> finite_f64 (fadd f1 d) /\ f2r (fadd f1 d) = rnd (1 + f2r d)).
  { intros d [Vd Fdd] Bdd. destruct (fadd_R f1 d) as [E F]; [reflexivity|exact Vd|reflexivity|exact Fdd| |rewrite f2r_f1 in E; split; [split; [apply fvalid_add; [reflexivity|exact Vd]|exact F]|exact E]].
    rewrite f2r_f1. assert (V4 : fvalid (f_of_Z (2 ^ 54))) by apply fvalid_of_Z. assert (E4 : f2r (f_of_Z (2 ^ 54)) = IZR (2 ^ 54)) by (vm_compute; lra).
    assert (rnd (1 + f2r d) <= IZR (2 ^ 54))%R. { rewrite <- E4, <- (rnd_id _ V4). apply rnd_le. rewrite E4. change (IZR (2 ^ 54)) with 18014398509481984%R. change (IZR (2 ^ 53)) with 9007199254740992%R in Bdd. lra. }
    assert (0 <= rnd (1 + f2r d))%R by (rewrite <- rnd_0; apply rnd_le; lra). rewrite Rabs_pos_eq by assumption. 
    pose proof (f2r_bound _ V4) as K. rewrite E4 in K. apply Rabs_lt_inv in K. lra. }
  destruct (A _ Fd) as [[Va1 Fa1] Ea1]; [lra|]. destruct (A _ Fd') as [[Va2 Fa2] Ea2]; [lra|].
  assert (K : fle (fadd f1 (fdiv (fmul (f_of_nat 100) (f_of_nat g)) (f_of_nat mg))) (fadd f1 (fdiv (fmul (f_of_nat 100) (f_of_nat g')) (f_of_nat mg))) = true).
  { apply fle_R; try assumption. rewrite Ea1, Ea2. apply rnd_le. apply fle_R in Q; [lra|apply Fd|apply Fd'|apply Fd|apply Fd']. }
  specialize (Hp _ _ K). apply fle_R in Hp; [|apply Fk'|apply Fk|apply Fk'|apply Fk]. 
  (* the product is monotone *)
  pose proof (positive_R _ H0) as P0.
  assert (M : forall k, finite_f64 k -> positive_f64 (fmul temp_0 k) -> f2r (fmul temp_0 k) = rnd (f2r temp_0 * f2r k)).
  { intros k [Vk Fk0] Pk. destruct H0 as [[V0 F0] _]. destruct (Rlt_le_dec (Rabs (rnd (f2r temp_0 * f2r k))) (bpow radix2 1024)) as [L|L]; [apply fmul_R; assumption|].
    exfalso. destruct Pk as [[_ Fp] _]. apply fvalid_ex in V0 as [x ->], Vk as [y ->]. rewrite fmul_B in Fp. rewrite !f2r_B in L.
    pose proof (Bmult_correct 53 1024 _ _ mode_NE x y) as C. unfold rnd in L. cbn [round_mode] in C. rewrite Rlt_bool_false in C by exact L. rewrite C in Fp. discriminate Fp. }
  unfold temp in *. rewrite (M _ Fk Ht), (M _ Fk' Ht'). apply rnd_le. apply Rmult_le_compat_l; [lra|exact Hp].
Qed.
Lemma boltzmann_generation (powf : f64 -> f64 -> f64) (exp : f64 -> f64) alpha temp_0 g g' mg pop i p :
  let k g := fadd f1 (fdiv (fmul (f_of_nat 100) (f_of_nat g)) (f_of_nat mg)) in
  (forall k k', fle k k' = true -> fle (powf (fsub f1 alpha) k') (powf (fsub f1 alpha) k) = true) ->
  (forall a b, fle a b = true -> fle (exp a) (exp b) = true) ->
  positive_f64 temp_0 -> (forall h, h = g \/ h = g' -> finite_f64 (powf (fsub f1 alpha) (k h)) /\ positive_f64 (fmul temp_0 (powf (fsub f1 alpha) (k h)))) ->
  g <= g' -> (Z.of_nat (100 * g') <= 2 ^ 53)%Z -> 0 < mg -> (Z.of_nat mg <= 2 ^ 53)%Z ->
  pop !! i = Some p -> finite_f64 (fitness p) -> fle f0 (fitness p) = true ->
  exists w w', boltzmann_weights powf exp alpha temp_0 g mg pop !! i = Some w /\ boltzmann_weights powf exp alpha temp_0 g' mg pop !! i = Some w' /\ fle w' w = true.
Proof.
  intros k Hp He H0 Hk Hg Hg2 Hm Hm2 Hi Hf Hpos. destruct (Hk g) as [F1 T1]; [auto|]. destruct (Hk g') as [F2 T2]; [auto|].
  pose proof (boltzmann_cooling powf alpha temp_0 g g' mg Hp H0 F1 F2 T1 T2 Hg Hg2 Hm Hm2) as C. cbv zeta in C.
  unfold boltzmann_weights. rewrite !list_lookup_fmap, Hi. eexists _, _. split; [reflexivity|]. split; [reflexivity|].
  apply He. destruct (fneg_finite _ Hf) as [Fn En]. apply quotient_le; try assumption. rewrite En.
  apply fle_R in Hpos; [|reflexivity|apply Hf|reflexivity|apply Hf]. rewrite f2r_f0 in Hpos. pose proof (positive_R _ T1) as P1. pose proof (positive_R _ T2) as P2. fold (k g) in C. fold (k g') in C.
  unfold Rdiv. rewrite !Ropp_mult_distr_l_reverse. apply Ropp_le_contravar. apply Rmult_le_compat_l; [exact Hpos|]. apply Rinv_le_contravar; assumption.
Qed.
End B.
