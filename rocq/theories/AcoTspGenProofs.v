(** * Proofs: generated travelling salesman inputs *)
From Verif Require Export AcoTspGenSpec AcoUtilProofs AcoGradeProofs.
From Verif Require Import FfDistanceProofs.
From Coq Require Import Reals Lra Lia.
From Flocq Require Import Core.Core IEEE754.BinarySingleNaN.
From Flocq.Prop Require Import Relative.
Local Existing Instances Hfexp HNE Hprec53 Hmax1024.
Open Scope R_scope.

Definition uu : R := bpow radix2 (-53).
Lemma uu_pos : 0 < uu. Proof. apply bpow_gt_0. Qed.
Lemma uu_small : uu <= / 1048576.
Proof. unfold uu. change (/ 1048576) with (bpow radix2 (-20)). apply bpow_le; lia. Qed.
Lemma rnd_rel x : 0 <= x -> x = 0 \/ bpow radix2 (-1022) <= x -> x * (1 - uu) <= rnd x <= x * (1 + uu).
Proof.
  intros P [-> | H]; [rewrite rnd_0; lra|].
  destruct (relative_error_N_FLT_ex radix2 (-1074) 53 ltac:(lia) (fun x => negb (Z.even x)) x) as (e & He & E).
  { rewrite Rabs_pos_eq by exact P. exact H. }
  replace (rnd x) with (x * (1 + e)) by (symmetry; exact E).
  assert (Rabs e <= uu) as He'. { eapply Rle_trans; [exact He|]. unfold uu. change (/2) with (bpow radix2 (-1)). rewrite <- bpow_plus. apply bpow_le. lia. }
  apply Rabs_le_inv in He'. split; apply Rmult_le_compat_l; lra.
Qed.
Lemma rnd_abs x : rnd (Rabs x) = Rabs (rnd x).
Proof. apply round_NE_abs. auto with typeclass_instances. Qed.
Lemma rnd_bound x e : (-1074 < e)%Z -> Rabs x <= bpow radix2 e -> Rabs (rnd x) <= bpow radix2 e.
Proof.
  intros He H. apply abs_round_le_generic; [auto with typeclass_instances ..| |exact H].
  apply generic_format_bpow. unfold SpecFloat.fexp, SpecFloat.emin. lia.
Qed.
Lemma rnd_nonneg x : 0 <= x -> 0 <= rnd x.
Proof. intros H. rewrite <- rnd_0. apply rnd_le, H. Qed.
Lemma bpow_BOUND e : (e < 1024)%Z -> bpow radix2 e < bpow radix2 1024.
Proof. apply bpow_lt. Qed.

(** A difference that is zero or neither tiny nor huge *)
Definition tame (x : R) : Prop := x = 0 \/ bpow radix2 (-400) <= Rabs x <= bpow radix2 400.
Lemma diff_R a b : number a -> number b -> tame (f2r a - f2r b) ->
  number (fsub a b) /\ exists X, Rabs (f2r (fsub a b)) = X /\ Rabs (f2r a - f2r b) * (1 - uu) <= X <= Rabs (f2r a - f2r b) * (1 + uu) /\ (X = 0 \/ bpow radix2 (-401) <= X <= bpow radix2 401).
Proof.
  intros [Va Fa] [Vb Fb] T. set (d := f2r a - f2r b) in *.
  assert (Rabs d <= bpow radix2 400) as B. { destruct T as [-> | T]; [rewrite Rabs_R0; apply bpow_ge_0|lra]. }
  pose proof (rnd_bound d 400 ltac:(lia) B) as B'.
  destruct (fsub_R a b Va Vb Fa Fb) as [E F]. { apply Rle_lt_trans with (1 := B'). apply bpow_BOUND. lia. }
  fold d in E. split; [split; [apply fvalid_sub; assumption|exact F]|]. eexists. split; [reflexivity|]. rewrite E, <- rnd_abs.
  pose proof (rnd_rel (Rabs d) (Rabs_pos d)) as RR. rewrite <- rnd_abs in B'. destruct T as [T|T].
  - rewrite T, Rabs_R0, rnd_0. split; [lra|]. left. reflexivity.
  - split. { apply RR. right. eapply Rle_trans; [|apply T]. apply bpow_le. lia. }
    right. split.
    + rewrite rnd_abs. apply abs_round_ge_generic; [auto with typeclass_instances ..| |].
      * apply generic_format_bpow. unfold SpecFloat.fexp, SpecFloat.emin. lia.
      * eapply Rle_trans; [|apply T]. apply bpow_le. lia.
    + eapply Rle_trans; [exact B'|]. apply bpow_le. lia.
Qed.
Lemma square_R a X : number a -> Rabs (f2r a) = X -> X = 0 \/ bpow radix2 (-401) <= X <= bpow radix2 401 ->
  number (fmul a a) /\ 0 <= f2r (fmul a a) <= bpow radix2 802 /\ X * X * (1 - uu) <= f2r (fmul a a) <= X * X * (1 + uu) /\ (f2r (fmul a a) = 0 \/ bpow radix2 (-802) <= f2r (fmul a a)).
Proof.
  intros [V F] EX T.
  assert (f2r a * f2r a = X * X) as E2. { rewrite <- EX. rewrite <- Rabs_mult. rewrite Rabs_pos_eq; [reflexivity|]. apply Rle_0_sqr. }
  assert (0 <= X) as PX by (rewrite <- EX; apply Rabs_pos).
  assert (X * X <= bpow radix2 802) as B.
  { destruct T as [-> | T]; [rewrite Rmult_0_l; apply bpow_ge_0|]. change 802%Z with (401 + 401)%Z. rewrite bpow_plus. apply Rmult_le_compat; lra. }
  assert (0 <= X * X) as P by (apply Rmult_le_pos; lra).
  pose proof (rnd_bound (X * X) 802 ltac:(lia) ltac:(rewrite Rabs_pos_eq; assumption)) as B'.
  destruct (fmul_R a a V V F F) as [E F']. { rewrite E2. eapply Rle_lt_trans; [exact B'|]. apply bpow_BOUND. lia. }
  rewrite E2 in E. split; [split; [apply fvalid_mul; assumption|exact F']|]. rewrite E. pose proof (rnd_nonneg _ P) as P'. rewrite Rabs_pos_eq in B' by exact P'.
  split; [lra|]. destruct T as [-> | T].
  - rewrite Rmult_0_l, rnd_0. lra.
  - assert (bpow radix2 (-802) <= X * X) as L. { change (-802)%Z with (-401 + -401)%Z. rewrite bpow_plus. apply Rmult_le_compat; try apply bpow_ge_0; lra. }
    split. { apply rnd_rel; [exact P|]. right. eapply Rle_trans; [|exact L]. apply bpow_le. lia. }
    right. rewrite <- (Rabs_pos_eq (rnd _)) by exact P'. apply abs_round_ge_generic; [auto with typeclass_instances ..| |].
    + apply generic_format_bpow. unfold SpecFloat.fexp, SpecFloat.emin. lia.
    + rewrite Rabs_pos_eq by exact P. exact L.
Qed.
Lemma sum_R a b : number a -> number b -> 0 <= f2r a <= bpow radix2 802 -> 0 <= f2r b <= bpow radix2 802 ->
  f2r a = 0 \/ bpow radix2 (-802) <= f2r a -> f2r b = 0 \/ bpow radix2 (-802) <= f2r b ->
  number (fadd a b) /\ (f2r a + f2r b) * (1 - uu) <= f2r (fadd a b) <= (f2r a + f2r b) * (1 + uu) /\ 0 <= f2r (fadd a b) /\
  (f2r (fadd a b) = 0 \/ bpow radix2 (-802) <= f2r (fadd a b)).
Proof.
  intros [Va Fa] [Vb Fb] Ba Bb La Lb.
  assert (0 <= f2r a + f2r b <= bpow radix2 803) as B. { change 803%Z with (802 + 1)%Z. rewrite bpow_plus. change (bpow radix2 1) with 2. lra. }
  assert (f2r a + f2r b = 0 \/ bpow radix2 (-802) <= f2r a + f2r b) as L. { pose proof (bpow_ge_0 radix2 (-802)). destruct La, Lb; lra. }
  pose proof (rnd_bound (f2r a + f2r b) 803 ltac:(lia) ltac:(rewrite Rabs_pos_eq; lra)) as B'.
  destruct (fadd_R a b Va Vb Fa Fb) as [E F]. { eapply Rle_lt_trans; [exact B'|]. apply bpow_BOUND. lia. }
  split; [split; [apply fvalid_add; assumption|exact F]|]. rewrite E. pose proof (rnd_nonneg _ (proj1 B)) as P.
  split; [|split; [exact P|]].
  - apply rnd_rel; [lra|]. destruct L as [L|L]; [left; exact L|right]. eapply Rle_trans; [|exact L]. apply bpow_le. lia.
  - destruct L as [L|L]; [left; rewrite L; apply rnd_0|right]. rewrite <- (Rabs_pos_eq (rnd _)) by exact P. apply abs_round_ge_generic; [auto with typeclass_instances ..| |].
    + apply generic_format_bpow. unfold SpecFloat.fexp, SpecFloat.emin. lia.
    + rewrite Rabs_pos_eq by lra. exact L.
Qed.
Lemma sqrt_R a : number a -> 0 <= f2r a -> f2r a = 0 \/ bpow radix2 (-802) <= f2r a ->
  number (fsqrt a) /\ f2r (fsqrt a) = rnd (R_sqrt.sqrt (f2r a)) /\ R_sqrt.sqrt (f2r a) * (1 - uu) <= f2r (fsqrt a) <= R_sqrt.sqrt (f2r a) * (1 + uu).
Proof.
  intros [V F] P L. destruct (fvalid_ex a V) as [x ->]. rewrite fsqrt_B. rewrite f2r_B in *. rewrite ffinite_B in F.
  pose proof (Bsqrt_correct 53 1024 _ _ mode_NE x) as (H1 & H2 & _). cbn [round_mode] in H1.
  assert (is_finite (Bsqrt mode_NE x) = true) as F'.
  { rewrite H2. destruct x as [| | |[] mx ex Bx]; try discriminate F; try reflexivity.
    exfalso. cbn [B2R] in P. assert (F2R (Float radix2 (cond_Zopp true (Z.pos mx)) ex) < 0) by (apply F2R_lt_0; cbn; lia). lra. }
  split; [split; [apply fvalid_B2SF|rewrite ffinite_B; exact F']|]. rewrite f2r_B, H1. fold (rnd (R_sqrt.sqrt (B2R x))). split; [reflexivity|].
  apply rnd_rel; [apply sqrt_pos|]. destruct L as [L|L]; [left; rewrite L; apply sqrt_0|right].
  apply Rle_trans with (R_sqrt.sqrt (bpow radix2 (-802))); [|apply sqrt_le_1_alt, L].
  change (-802)%Z with (-401 + -401)%Z. rewrite bpow_plus, sqrt_square by apply bpow_ge_0. apply bpow_le. lia.
Qed.

(** ** The computed distance *)
Lemma pow_lo : (1 - uu) ^ 3 >= 1 - 3 * uu.
Proof. pose proof uu_pos. pose proof uu_small. cbn [pow]. nra. Qed.
Lemma sandwich_sq X d : 0 <= d -> 0 <= X -> d * (1 - uu) <= X <= d * (1 + uu) -> d * d * (1 - uu) ^ 2 <= X * X <= d * d * (1 + uu) ^ 2.
Proof.
  intros Pd PX [H1 H2]. pose proof uu_pos. pose proof uu_small. assert (0 <= d * (1 - uu)) by (apply Rmult_le_pos; lra).
  split.
  - replace (d * d * (1 - uu) ^ 2) with ((d * (1 - uu)) * (d * (1 - uu))) by ring. apply Rmult_le_compat; lra.
  - replace (d * d * (1 + uu) ^ 2) with ((d * (1 + uu)) * (d * (1 + uu))) by ring. apply Rmult_le_compat; lra.
Qed.
Lemma distance_R a b : number a.1 -> number a.2 -> number b.1 -> number b.2 ->
  tame (f2r a.1 - f2r b.1) -> tame (f2r a.2 - f2r b.2) ->
  number (city_distance a b) /\ euclid a b * (1 - uu) ^ 3 <= f2r (city_distance a b) <= euclid a b * (1 + uu) ^ 3.
Proof.
  intros N1 N2 N3 N4 T1 T2. pose proof uu_pos as UP. pose proof uu_small as US.
  destruct (diff_R _ _ N1 N3 T1) as [Nx (X & EX & BX & TX)]. destruct (diff_R _ _ N2 N4 T2) as [Ny (Y & EY & BY & TY)].
  destruct (square_R _ X Nx EX TX) as (Np & Bp & Sp & Lp). destruct (square_R _ Y Ny EY TY) as (Nq & Bq & Sq & Lq).
  destruct (sum_R _ _ Np Nq Bp Bq Lp Lq) as (Ns & Ss & Ps & Ls). destruct (sqrt_R _ Ns Ps Ls) as (Nd & _ & Sd).
  unfold city_distance. split; [exact Nd|]. 
  set (S := f2r (fadd _ _)) in *. set (P := f2r (fmul (fsub a.1 b.1) _)) in *. set (Q := f2r (fmul (fsub a.2 b.2) _)) in *.
  set (D := f2r (fsqrt _)) in *. unfold euclid. set (dx := f2r a.1 - f2r b.1) in *. set (dy := f2r a.2 - f2r b.2) in *.
  assert (PX : 0 <= X) by (rewrite <- EX; apply Rabs_pos). assert (PY : 0 <= Y) by (rewrite <- EY; apply Rabs_pos).
  apply sandwich_sq in BX; [|apply Rabs_pos|exact PX]. apply sandwich_sq in BY; [|apply Rabs_pos|exact PY].
  replace (Rabs dx * Rabs dx) with (dx ^ 2) in BX by (rewrite <- Rabs_mult, Rabs_pos_eq; [ring|apply Rle_0_sqr]).
  replace (Rabs dy * Rabs dy) with (dy ^ 2) in BY by (rewrite <- Rabs_mult, Rabs_pos_eq; [ring|apply Rle_0_sqr]).
  pose proof (pow2_ge_0 dx) as Qx. pose proof (pow2_ge_0 dy) as Qy. set (q := dx ^ 2 + dy ^ 2).
  assert (q * (1 - uu) ^ 4 <= S) as LS.
  { eapply Rle_trans; [|apply Ss]. replace (q * (1 - uu) ^ 4) with ((dx ^ 2 * (1 - uu) ^ 2 * (1 - uu) + dy ^ 2 * (1 - uu) ^ 2 * (1 - uu)) * (1 - uu)) by (unfold q; ring).
    apply Rmult_le_compat_r; [lra|]. apply Rplus_le_compat; (eapply Rle_trans; [|apply Sp || apply Sq]); apply Rmult_le_compat_r; lra. }
  assert (S <= q * (1 + uu) ^ 4) as US'.
  { eapply Rle_trans; [apply Ss|]. replace (q * (1 + uu) ^ 4) with ((dx ^ 2 * (1 + uu) ^ 2 * (1 + uu) + dy ^ 2 * (1 + uu) ^ 2 * (1 + uu)) * (1 + uu)) by (unfold q; ring).
    apply Rmult_le_compat_r; [lra|]. apply Rplus_le_compat; (eapply Rle_trans; [apply Sp || apply Sq|]); apply Rmult_le_compat_r; lra. }
  assert (Pq : 0 <= q) by (unfold q; lra).
  assert (R_sqrt.sqrt q * (1 - uu) ^ 2 <= R_sqrt.sqrt S) as L1.
  { rewrite <- (sqrt_square ((1 - uu) ^ 2)) by (apply pow2_ge_0). rewrite <- sqrt_mult by (try apply Rle_0_sqr; exact Pq). apply sqrt_le_1_alt.
    replace (q * ((1 - uu) ^ 2 * (1 - uu) ^ 2)) with (q * (1 - uu) ^ 4) by ring. exact LS. }
  assert (R_sqrt.sqrt S <= R_sqrt.sqrt q * (1 + uu) ^ 2) as U1.
  { rewrite <- (sqrt_square ((1 + uu) ^ 2)) by (apply pow2_ge_0). rewrite <- sqrt_mult by (try apply Rle_0_sqr; exact Pq). apply sqrt_le_1_alt.
    replace (q * ((1 + uu) ^ 2 * (1 + uu) ^ 2)) with (q * (1 + uu) ^ 4) by ring. exact US'. }
  split.
  - eapply Rle_trans; [|apply Sd]. replace (R_sqrt.sqrt q * (1 - uu) ^ 3) with (R_sqrt.sqrt q * (1 - uu) ^ 2 * (1 - uu)) by ring. apply Rmult_le_compat_r; lra.
  - eapply Rle_trans; [apply Sd|]. replace (R_sqrt.sqrt q * (1 + uu) ^ 3) with (R_sqrt.sqrt q * (1 + uu) ^ 2 * (1 + uu)) by ring. apply Rmult_le_compat_r; lra.
Qed.

(** ** The coordinates *)
Definition on_grid (x : R) : Prop := exists k : Z, x = IZR k * bpow radix2 (-98).
Lemma f2r_100 : f2r f_100 = 100.
Proof. unfold f_100. destruct (f_of_nat_exact 100 ltac:(lia)) as (_ & _ & E). rewrite E. rewrite INR_IZR_INZ. reflexivity. Qed.
Lemma format_multiple x e : generic_format radix2 (SpecFloat.fexp 53 1024) x -> bpow radix2 e <= Rabs x -> exists k : Z, x = IZR k * bpow radix2 (e - 52).
Proof.
  intros G H. assert (e + 1 <= mag radix2 x)%Z as M by (apply mag_ge_bpow; replace (e + 1 - 1)%Z with e by lia; exact H).
  red in G. set (m := Ztrunc (scaled_mantissa radix2 (SpecFloat.fexp 53 1024) x)) in G. unfold F2R in G. cbn [Fnum Fexp] in G.
  assert (e - 52 <= cexp radix2 (SpecFloat.fexp 53 1024) x)%Z as C. { unfold cexp, SpecFloat.fexp. lia. }
  exists (m * Zpower 2 (cexp radix2 (SpecFloat.fexp 53 1024) x - (e - 52)))%Z. rewrite G at 1. rewrite mult_IZR.
  change 2%Z with (radix_val radix2). rewrite IZR_Zpower by lia. rewrite Rmult_assoc, <- bpow_plus. do 2 f_equal. lia.
Qed.
Lemma coordinate_R r : exists v, gen_coordinate r = Ok (v, rng_tail r) /\ number v /\ 0 <= f2r v < 100 /\ on_grid (f2r v) /\ f2r v = rnd (IZR (Z.of_N (r 0%nat mod 2 ^ 52)) * bpow radix2 (-52) * 100).
Proof.
  unfold gen_coordinate, uni_f64. set (k := (r 0%nat mod 2 ^ 52)%N).
  assert (k < 2 ^ 52)%N as Hk by (apply N.mod_lt; discriminate).
  pose proof (fvalid_unit 52 k ltac:(lia) Hk) as Vu. pose proof (ffinite_unit 52 k) as Fu. pose proof (f2r_unit 52 k ltac:(lia) Hk) as Eu.
  replace (fsub f_100 f0) with f_100 by (vm_compute; reflexivity).
  assert (fvalid f_100) as V1 by (vm_compute; reflexivity). assert (ffinite f_100 = true) as F1 by (vm_compute; reflexivity).
  set (x := f2r (f_unit 52 k) * f2r f_100).
  assert (x = 0 \/ bpow radix2 (-46) <= x) as L.
  { unfold x. rewrite Eu, f2r_100. destruct (decide (k = 0%N)) as [-> | Hn]; [left; cbn; lra|right].
    assert (1 <= IZR (Z.of_N k)) by (apply IZR_le; lia). 
    apply Rle_trans with (bpow radix2 (- Z.of_N 52) * 100); [|pose proof (bpow_ge_0 radix2 (- Z.of_N 52)); nra].
    replace (-46)%Z with (- Z.of_N 52 + 6)%Z by lia. rewrite bpow_plus. apply Rmult_le_compat_l; [apply bpow_ge_0|]. change (bpow radix2 6) with 64. lra. }
  assert (0 <= x) as P. { destruct L as [-> | L]; [lra|]. eapply Rle_trans; [|exact L]. apply bpow_ge_0. }
  set (top := S754_finite false (6400 * 2 ^ 40 - 1) (-46)).
  assert (f2r top = 100 - bpow radix2 (-46)) as Et.
  { unfold f2r, top, SF2R, F2R. cbn [Fnum Fexp cond_Zopp]. 
    replace (IZR (Z.pos (6400 * 2 ^ 40 - 1))) with (100 * bpow radix2 46 - 1). { rewrite Rmult_minus_distr_r, Rmult_assoc, <- bpow_plus. change (bpow radix2 (46 + -46)) with 1. lra. }
    change (bpow radix2 46) with (IZR 70368744177664). rewrite <- mult_IZR, <- minus_IZR. reflexivity. }
  assert (x <= f2r top) as U.
  { rewrite Et. unfold x. rewrite Eu, f2r_100. assert (IZR (Z.of_N k) <= 2 ^ 52 - 1) as B.
    { rewrite pow_IZR. rewrite <- minus_IZR. apply IZR_le. change (2 ^ Z.of_nat 52)%Z with (Z.of_N (2 ^ 52)). lia. }
    replace (bpow radix2 (-46)) with (bpow radix2 (- Z.of_N 52) * 64) by (change 64 with (bpow radix2 6); rewrite <- bpow_plus; f_equal).
    assert (bpow radix2 (- Z.of_N 52) * 2 ^ 52 = 1) as B1. { replace (2 ^ 52) with (bpow radix2 52) by (rewrite pow_IZR; reflexivity). rewrite <- bpow_plus. reflexivity. }
    pose proof (bpow_gt_0 radix2 (- Z.of_N 52)). nra. }
  assert (fvalid top) as Vt by (vm_compute; reflexivity).
  assert (0 <= rnd x <= f2r top) as B. { split; [apply rnd_nonneg, P|]. rewrite <- (rnd_id top Vt). apply rnd_le, U. }
  assert (f2r top < 100) as T100. { rewrite Et. pose proof (bpow_gt_0 radix2 (-46)). lra. }
  assert (forall y, 0 <= y < 100 -> Rabs y < bpow radix2 1024) as S100.
  { intros y Hy. rewrite Rabs_pos_eq by lra. apply Rlt_trans with (bpow radix2 7); [|apply bpow_BOUND; lia]. change (bpow radix2 7) with 128. lra. }
  destruct (fmul_R _ f_100 Vu V1 Fu F1) as [E F]. { apply S100. unfold x in B. lra. }
  pose proof (fvalid_mul _ _ Vu V1) as Vm. fold x in E.
  assert (rnd (f2r (fmul (f_unit 52 k) f_100) + f2r f0) = rnd x) as E0. { rewrite f2r_f0, Rplus_0_r, rnd_id by exact Vm. exact E. }
  destruct (fadd_R _ f0 Vm fvalid_f0 F eq_refl) as [E' F']. { rewrite E0. apply S100. lra. }
  rewrite E0 in E'. pose proof (fvalid_add _ _ Vm fvalid_f0) as Va. set (v := fadd _ f0) in *.
  assert (flt v f_100 = true) as ->. { apply flt_R; [assumption ..|]. rewrite E', f2r_100. lra. }
  exists v. split; [reflexivity|]. split; [split; assumption|]. rewrite E'. split; [lra|].
  split; [|f_equal; unfold x; rewrite Eu, f2r_100; reflexivity]. destruct L as [-> | L]. { exists 0%Z. rewrite rnd_0. lra. }
  destruct (format_multiple (rnd x) (-46)) as [z Ez].
  - apply generic_format_round; auto with typeclass_instances.
  - apply abs_round_ge_generic; [auto with typeclass_instances ..| |rewrite Rabs_pos_eq; assumption].
    apply generic_format_bpow. unfold SpecFloat.fexp, SpecFloat.emin. lia.
  - exists z. exact Ez.
Qed.
Lemma grid_tame x y : on_grid x -> on_grid y -> 0 <= x < 100 -> 0 <= y < 100 -> tame (x - y).
Proof.
  intros [k ->] [j ->] Hx Hy. destruct (decide (k = j)) as [-> | N]; [left; lra|right].
  replace (IZR k * bpow radix2 (-98) - IZR j * bpow radix2 (-98)) with (IZR (k - j) * bpow radix2 (-98)) by (rewrite minus_IZR; ring).
  split.
  - rewrite Rabs_mult, (Rabs_pos_eq (bpow _ _)) by apply bpow_ge_0. apply Rle_trans with (1 * bpow radix2 (-98)); [rewrite Rmult_1_l; apply bpow_le; lia|].
    apply Rmult_le_compat_r; [apply bpow_ge_0|]. rewrite <- abs_IZR. apply IZR_le. lia.
  - rewrite minus_IZR. apply Rle_trans with (bpow radix2 7); [|apply bpow_le; lia]. change (bpow radix2 7) with 128. apply Rabs_le. split; lra.
Qed.
Definition grid_city (c : f64 * f64) : Prop := in_square c /\ on_grid (f2r c.1) /\ on_grid (f2r c.2).
Lemma city_R r : exists c r', gen_city r = Ok (c, r') /\ grid_city c.
Proof.
  unfold gen_city. destruct (coordinate_R r) as (x & -> & Nx & Bx & Gx & _). cbn [mbind outcome_bind].
  destruct (coordinate_R (rng_tail r)) as (y & -> & Ny & By & Gy & _). cbn [mbind outcome_bind]. eexists _, _. split; [reflexivity|]. split; [split_and!|split]; cbn; assumption || lra.
Qed.
Lemma cities_R n : forall r, exists l r', gen_cities n r = Ok (l, r') /\ length l = n /\ List.Forall grid_city l.
Proof.
  induction n as [|n IH]; intros r; [exists [], r; repeat split; constructor|].
  unfold gen_cities in *. cbn [repeatO]. destruct (city_R r) as (c & r1 & -> & G). cbn [mbind outcome_bind].
  destruct (IH r1) as (l & r2 & -> & L & F). cbn [mbind outcome_bind]. exists (c :: l), r2. split; [reflexivity|]. split; [cbn; congruence|constructor; assumption].
Qed.
Lemma rng_skip_at n : forall (r : rng) j, rng_skip n r j = r (n + j)%nat.
Proof. induction n as [|n IH]; intros r j; cbn [rng_skip]; [reflexivity|]. rewrite IH. unfold rng_tail. f_equal. Qed.
Lemma cities_draws n : forall r l r', gen_cities n r = Ok (l, r') -> r' = rng_skip (2 * n) r /\
  forall i x y, l !! i = Some (x, y) -> f2r x = rnd (IZR (Z.of_N (r (2 * i)%nat mod 2 ^ 52)) * bpow radix2 (-52) * 100) /\
    f2r y = rnd (IZR (Z.of_N (r (2 * i + 1)%nat mod 2 ^ 52)) * bpow radix2 (-52) * 100).
Proof.
  induction n as [|n IH]; intros r l r' H.
  - injection H as <- <-. split; [reflexivity|]. intros i x y Hi. rewrite lookup_nil in Hi. discriminate.
  - unfold gen_cities in H. cbn [repeatO] in H. apply obind_Ok in H as ([c rc] & Hc & H). unfold gen_city in Hc.
    destruct (coordinate_R r) as (x0 & Ex & _ & _ & _ & Vx). rewrite Ex in Hc. cbn [mbind outcome_bind] in Hc.
    destruct (coordinate_R (rng_tail r)) as (y0 & Ey & _ & _ & _ & Vy). rewrite Ey in Hc. cbn [mbind outcome_bind] in Hc. injection Hc as <- <-.
    apply obind_Ok in H as ([l1 r1] & H1 & H). injection H as <- <-. apply IH in H1 as [Hr HI]. split.
    + rewrite Hr. replace (2 * S n)%nat with (S (S (2 * n))) by lia. reflexivity.
    + intros [|i] x y Hi; cbn in Hi; [injection Hi as <- <-; split; [exact Vx|exact Vy]|].
      destruct (HI i x y Hi) as [H1 H2]. unfold rng_tail in H1, H2. replace (2 * S i)%nat with (S (S (2 * i))) by lia. replace (S (S (2 * i)) + 1)%nat with (S (S (2 * i + 1))) by lia. auto.
Qed.
Lemma generate_draws n r cities cost r' : generate_tsp_cost n r = Ok (cities, cost, r') -> (forall j, r' j = r (2 * n + j)%nat) /\
  forall i x y, cities !! i = Some (x, y) -> f2r x = rnd (IZR (Z.of_N (r (2 * i)%nat mod 2 ^ 52)) * bpow radix2 (-52) * 100) /\
    f2r y = rnd (IZR (Z.of_N (r (2 * i + 1)%nat mod 2 ^ 52)) * bpow radix2 (-52) * 100).
Proof.
  unfold generate_tsp_cost. intros H. apply obind_Ok in H as ([l r1] & H1 & H). apply obind_Ok in H as (m & H2 & H). injection H as <- <- <-.
  apply cities_draws in H1 as [-> HI]. split; [intros j; apply rng_skip_at|exact HI].
Qed.
Lemma generate_unit_draws n r cities cost r' : generate_tsp_cost n r = Ok (cities, cost, r') -> (forall j, r' j = r (2 * n + j)%nat) /\
  forall i x y, cities !! i = Some (x, y) -> f2r x = rnd (IZR (Z.of_N (r (2 * i)%nat mod 2 ^ 52)) * / 2 ^ 52 * 100) /\
    f2r y = rnd (IZR (Z.of_N (r (2 * i + 1)%nat mod 2 ^ 52)) * / 2 ^ 52 * 100).
Proof.
  intros H. apply generate_draws in H as [H1 H2]. split; [exact H1|]. replace (/ 2 ^ 52) with (bpow radix2 (-52)); [exact H2|].
  change (-52)%Z with (- (52))%Z. rewrite bpow_opp. f_equal. rewrite pow_IZR. reflexivity.
Qed.
Lemma grid_distance a b : grid_city a -> grid_city b ->
  number (city_distance a b) /\ euclid a b * (1 - uu) ^ 3 <= f2r (city_distance a b) <= euclid a b * (1 + uu) ^ 3.
Proof.
  intros [(N1 & N2 & B1 & B2) [G1 G2]] [(N3 & N4 & B3 & B4) [G3 G4]]. apply distance_R; try assumption; apply grid_tame; assumption.
Qed.

(** ** The cost matrix *)
Lemma euclid_sym a b : euclid a b = euclid b a.
Proof. unfold euclid. f_equal. ring. Qed.
Lemma euclid_pos a b : 0 <= euclid a b.
Proof. apply sqrt_pos. Qed.
Lemma euclid_0 a b : euclid a b = 0 <-> same_place a b.
Proof.
  unfold euclid, same_place. split.
  - intros H. apply sqrt_eq_0 in H; [|pose proof (pow2_ge_0 (f2r a.1 - f2r b.1)); pose proof (pow2_ge_0 (f2r a.2 - f2r b.2)); lra].
    pose proof (pow2_ge_0 (f2r a.1 - f2r b.1)). pose proof (pow2_ge_0 (f2r a.2 - f2r b.2)). split; apply Rminus_diag_uniq, Rsqr_0_uniq; unfold Rsqr; lra.
  - intros [-> ->]. rewrite <- sqrt_0. f_equal. ring.
Qed.
Lemma cond_1u n : 0 < (1 - uu) ^ n.
Proof. apply pow_lt. pose proof uu_small. lra. Qed.
Lemma cond_u1 n : 1 <= (1 + uu) ^ n.
Proof. apply pow_R1_Rle. pose proof uu_pos. lra. Qed.
Lemma sandwich_0 d D k j : 0 <= D -> D * (1 - uu) ^ k <= d <= D * (1 + uu) ^ j -> (d = 0 <-> D = 0).
Proof.
  intros P [H1 H2]. split; intros E.
  - rewrite E in H1. pose proof (cond_1u k). nra.
  - rewrite E in H1, H2. lra.
Qed.
Lemma euclid_lo a b : grid_city a -> grid_city b -> euclid a b = 0 \/ bpow radix2 (-98) <= euclid a b.
Proof.
  intros [_ [[k G1] [k' G2]]] [_ [[j G3] [j' G4]]]. unfold euclid. rewrite G1, G2, G3, G4. set (g := bpow radix2 (-98)).
  assert (0 < g) as Pg by apply bpow_gt_0.
  replace ((IZR k * g - IZR j * g) ^ 2 + (IZR k' * g - IZR j' * g) ^ 2) with (IZR ((k - j) ^ 2 + (k' - j') ^ 2) * (g * g)) by (rewrite plus_IZR, <- !(pow_IZR _ 2), !minus_IZR; ring).
  assert (0 <= (k - j) ^ 2 + (k' - j') ^ 2)%Z as P by (pose proof (Z.pow_even_nonneg (k - j) 2 ltac:(exists 1%Z; reflexivity)); pose proof (Z.pow_even_nonneg (k' - j') 2 ltac:(exists 1%Z; reflexivity)); lia).
  destruct (decide ((k - j) ^ 2 + (k' - j') ^ 2 = 0)%Z) as [-> | N]; [left; rewrite Rmult_0_l; apply sqrt_0|right].
  rewrite sqrt_mult; [|apply IZR_le; exact P|nra]. rewrite sqrt_square by lra. assert (1 <= R_sqrt.sqrt (IZR ((k - j) ^ 2 + (k' - j') ^ 2))).
  { rewrite <- sqrt_1. apply sqrt_le_1_alt. apply IZR_le. lia. }
  nra.
Qed.
Lemma euclid_hi a b : in_square a -> in_square b -> euclid a b <= 141.5.
Proof.
  intros (_ & _ & B1 & B2) (_ & _ & B3 & B4). unfold euclid. rewrite <- (sqrt_square 141.5) by lra. apply sqrt_le_1_alt. nra.
Qed.
Lemma cost_entry cities m i j a b : tsp_cost cities = Ok m -> List.Forall grid_city cities -> cities !! i = Some a -> cities !! j = Some b ->
  number (entry m i j) /\ euclid a b * (1 - uu) ^ 3 <= f2r (entry m i j) <= euclid a b * (1 + uu) ^ 3.
Proof.
  intros Hm HF Ha Hb. destruct (cost_spec cities) as (m' & Hm' & R & C & [_ S] & E). rewrite Hm in Hm'. injection Hm' as <-.
  pose proof (lookup_lt_Some _ _ _ Ha) as La. pose proof (lookup_lt_Some _ _ _ Hb) as Lb.
  assert (grid_city a) as Ga by (rewrite List.Forall_forall in HF; apply HF, elem_of_list_In, elem_of_list_lookup; eauto).
  assert (grid_city b) as Gb by (rewrite List.Forall_forall in HF; apply HF, elem_of_list_In, elem_of_list_lookup; eauto).
  destruct (Nat.le_ge_cases i j) as [Hij|Hij].
  - rewrite (E i j a b Hij Ha Hb). exact (grid_distance a b Ga Gb).
  - rewrite S by (split; lia). rewrite (E j i b a Hij Hb Ha). rewrite (euclid_sym a b). exact (grid_distance b a Gb Ga).
Qed.
Lemma cost_diagonal cities m i : tsp_cost cities = Ok m -> List.Forall grid_city cities -> (i < length cities)%nat -> entry m i i = f0.
Proof.
  intros Hm HF Hi. apply lookup_lt_is_Some in Hi as [a Ha]. destruct (cost_spec cities) as (m' & Hm' & R & C & _ & E). rewrite Hm in Hm'. injection Hm' as <-.
  rewrite (E i i a a (le_n _) Ha Ha). assert (grid_city a) as [([_ F1] & [_ F2] & _) _] by (rewrite List.Forall_forall in HF; apply HF, elem_of_list_In, elem_of_list_lookup; eauto).
  unfold city_distance. rewrite (sub_self a.1 F1), (sub_self a.2 F2). reflexivity.
Qed.
Lemma three_u : (1 - 4 * uu <= (1 - uu) ^ 3 /\ (1 + uu) ^ 3 <= 1 + 4 * uu).
Proof. pose proof uu_pos. pose proof uu_small. cbn [pow]. split; nra. Qed.

(** ** Tours *)
Definition total (g : nat * nat -> R) (es : list (nat * nat)) : R := fold_right Rplus 0 (map g es).
Lemma tour_length_eq cities p : tour_length cities p = total (fun e => leg cities e.1 e.2) (windows p).
Proof.
  unfold tour_length, total. f_equal. apply list_eq. intros k. change (map (A := nat) (B := R)) with (fmap (M := list) (A := nat) (B := R)). change (map (A := nat * nat) (B := R)) with (fmap (M := list) (A := nat * nat) (B := R)).
  rewrite !list_lookup_fmap. destruct (windows p !! k) as [e|] eqn:E.
  - pose proof E as E0. apply windows_lookup in E as (i & j & -> & Hi & Hj). apply lookup_lt_Some in E0. rewrite windows_length in E0.
    rewrite lookup_seq_lt by exact E0. cbn [fmap option_fmap option_map Nat.add]. rewrite Hi, Hj. reflexivity.
  - apply lookup_ge_None in E. rewrite windows_length in E. rewrite lookup_seq_ge by exact E. reflexivity.
Qed.
Lemma number_zero x : number x -> f2r x = 0 -> exists s, x = S754_zero s.
Proof.
  intros [V F] H. destruct x as [s| | |s m e]; try discriminate F; [eauto|]. exfalso. unfold f2r, SF2R in H. apply eq_0_F2R in H. destruct s; discriminate H.
Qed.
(** A running sum *)
Definition running (s : f64) : Prop := number s /\ 0 <= f2r s <= bpow radix2 70 /\ (s = f0 \/ bpow radix2 (-99) <= f2r s).
Definition weight (w : f64) : Prop := number w /\ 0 <= f2r w <= 142 /\ (f2r w = 0 \/ bpow radix2 (-99) <= f2r w).
Lemma add_weight s w : running s -> weight w -> running (fadd s w) /\ (f2r s + f2r w) * (1 - uu) <= f2r (fadd s w) <= (f2r s + f2r w) * (1 + uu).
Proof.
  intros ([Vs Fs] & Bs & Ls) ([Vw Fw] & Bw & Lw).
  set (big := S754_finite false (2 ^ 52) 18).
  assert (f2r big = bpow radix2 70) as Eb. { unfold f2r, big, SF2R, F2R. cbn [Fnum Fexp cond_Zopp]. change (IZR (Z.pos (2 ^ 52))) with (bpow radix2 52). rewrite <- bpow_plus. reflexivity. }
  assert (fvalid big) as Vb by (vm_compute; reflexivity).
  assert (fvalid (f_of_nat 142) /\ ffinite (f_of_nat 142) = true /\ f2r (f_of_nat 142) = 142) as (V2 & F2 & E2).
  { destruct (f_of_nat_exact 142 ltac:(lia)) as (V & F & E). split; [exact V|]. split; [exact F|]. rewrite E, INR_IZR_INZ. reflexivity. }
  assert (rnd (f2r big + 142) = bpow radix2 70) as Rb.
  { assert (fadd big (f_of_nat 142) = big) as A by (vm_compute; reflexivity).
    destruct (fadd_R big (f_of_nat 142) Vb V2 eq_refl F2) as [E _].
    - eapply Rle_lt_trans; [apply (rnd_bound _ 71); [lia|]|apply bpow_BOUND; lia]. rewrite Eb, E2. rewrite Rabs_pos_eq by (pose proof (bpow_ge_0 radix2 70); lra).
      change 71%Z with (70 + 1)%Z. rewrite bpow_plus. change (bpow radix2 1) with 2. assert (142 <= bpow radix2 70); [|lra]. apply Rle_trans with (bpow radix2 8); [change (bpow radix2 8) with 256; lra|apply bpow_le; lia].
    - rewrite E2 in E. rewrite <- E, A. exact Eb. }
  assert (0 <= f2r s + f2r w) as P by lra. pose proof (rnd_nonneg _ P) as P'.
  assert (rnd (f2r s + f2r w) <= bpow radix2 70) as U. { rewrite <- Rb. apply rnd_le. lra. }
  assert (f2r s = 0 \/ bpow radix2 (-99) <= f2r s) as Ls' by (destruct Ls as [-> | Ls]; [left; apply f2r_f0|right; exact Ls]).
  assert (f2r s + f2r w = 0 \/ bpow radix2 (-99) <= f2r s + f2r w) as L by (pose proof (bpow_ge_0 radix2 (-99)); destruct Ls', Lw; lra).
  destruct (fadd_R s w Vs Vw Fs Fw) as [E F]. { rewrite Rabs_pos_eq by exact P'. eapply Rle_lt_trans; [exact U|]. apply bpow_BOUND. lia. }
  split; [split_and!; [split; [apply fvalid_add; assumption|exact F]|rewrite E; lra ..|]|].
  - destruct L as [L|L].
    + left. assert (f2r s = 0) as Zs by lra. assert (f2r w = 0) as Zw by lra. destruct (number_zero w (conj Vw Fw) Zw) as [sw ->].
      destruct Ls as [-> | Ls]; [destruct sw; reflexivity|]. pose proof (bpow_gt_0 radix2 (-99)). lra.
    + right. rewrite E. rewrite <- (Rabs_pos_eq (rnd _)) by exact P'. apply abs_round_ge_generic; [auto with typeclass_instances ..| |rewrite Rabs_pos_eq; assumption].
      apply generic_format_bpow. unfold SpecFloat.fexp, SpecFloat.emin. lia.
  - rewrite E. apply rnd_rel; [exact P|]. destruct L as [L|L]; [left; exact L|right]. eapply Rle_trans; [|exact L]. apply bpow_le. lia.
Qed.
Lemma sum_weights (w : nat * nat -> f64) (g : nat * nat -> R) es : 
  (forall e, e ∈ es -> weight (w e) /\ 0 <= g e /\ g e * (1 - uu) ^ 3 <= f2r (w e) <= g e * (1 + uu) ^ 3) ->
  forall s, running s -> running (foldl fadd s (map w es)) /\
    (f2r s + total g es * (1 - uu) ^ 3) * (1 - uu) ^ length es <= f2r (foldl fadd s (map w es)) <= (f2r s + total g es * (1 + uu) ^ 3) * (1 + uu) ^ length es.
Proof.
  induction es as [|e es IH]; intros H s Hs.
  - cbn. split; [exact Hs|]. unfold total. cbn. lra.
  - cbn [map foldl length]. destruct (H e ltac:(left)) as (We & Pg & Be). destruct (add_weight s (w e) Hs We) as [R1 B1].
    assert (0 <= total g es) as Pt.
    { assert (forall e, e ∈ es -> 0 <= g e) as HP by (intros e' He'; apply (H e'); right; exact He'). clear -HP. unfold total. induction es as [|a es IH]; cbn; [lra|].
      assert (0 <= g a) by (apply HP; left). assert (0 <= fold_right Rplus 0 (map g es)); [|lra]. apply IH. intros; apply HP; right; assumption. }
    destruct (IH ltac:(intros e' He'; apply H; right; exact He') (fadd s (w e)) R1) as [R2 B2]. split; [exact R2|].
    change (total g (e :: es)) with (g e + total g es). set (t := total g es) in *. set (k := length es) in *.
    pose proof uu_pos. pose proof uu_small. pose proof (cond_1u 3). pose proof (cond_u1 3). pose proof (cond_1u k). pose proof (cond_u1 k).
    destruct Hs as (_ & [Ps _] & _). cbn [pow]. change ((1 - uu) * ((1 - uu) * ((1 - uu) * 1))) with ((1 - uu) ^ 3). change ((1 + uu) * ((1 + uu) * ((1 + uu) * 1))) with ((1 + uu) ^ 3).
    set (a := (1 - uu) ^ 3) in *. set (b := (1 + uu) ^ 3) in *. set (c := (1 - uu) ^ k) in *. set (d := (1 + uu) ^ k) in *.
    assert (0 <= t * a) by (apply Rmult_le_pos; lra). assert (0 <= t * b) by (apply Rmult_le_pos; lra).
    split.
    + eapply Rle_trans; [|apply B2]. rewrite <- Rmult_assoc. apply Rmult_le_compat_r; [lra|].
      apply Rle_trans with ((f2r s + f2r (w e)) * (1 - uu) + t * a); [|lra].
      apply Rle_trans with ((f2r s + f2r (w e)) * (1 - uu) + t * a * (1 - uu)); [|nra]. rewrite <- Rmult_plus_distr_r. apply Rmult_le_compat_r; lra.
    + eapply Rle_trans; [apply B2|]. rewrite <- Rmult_assoc. apply Rmult_le_compat_r; [lra|].
      apply Rle_trans with ((f2r s + f2r (w e)) * (1 + uu) + t * b); [lra|].
      apply Rle_trans with ((f2r s + f2r (w e)) * (1 + uu) + t * b * (1 + uu)); [nra|]. rewrite <- Rmult_plus_distr_r. apply Rmult_le_compat_r; lra.
Qed.
Lemma entry_weight cities m i j : tsp_cost cities = Ok m -> List.Forall grid_city cities -> (i < length cities)%nat -> (j < length cities)%nat ->
  weight (entry m i j) /\ 0 <= leg cities i j /\ leg cities i j * (1 - uu) ^ 3 <= f2r (entry m i j) <= leg cities i j * (1 + uu) ^ 3.
Proof.
  intros Hm HF Hi Hj. apply lookup_lt_is_Some in Hi as [a Ha]. apply lookup_lt_is_Some in Hj as [b Hb].
  assert (grid_city a) as Ga by (rewrite List.Forall_forall in HF; apply HF, elem_of_list_In, elem_of_list_lookup; eauto).
  assert (grid_city b) as Gb by (rewrite List.Forall_forall in HF; apply HF, elem_of_list_In, elem_of_list_lookup; eauto).
  destruct (cost_entry cities m i j a b Hm HF Ha Hb) as [N B]. unfold leg. rewrite Ha, Hb. pose proof (euclid_pos a b) as P. split; [|split; [exact P|exact B]].
  pose proof (euclid_hi a b (proj1 Ga) (proj1 Gb)) as U. destruct three_u as [U1 U2]. pose proof uu_pos. pose proof uu_small. pose proof (cond_1u 3) as C1. pose proof (cond_u1 3) as C3.
  set (k := (1 - uu) ^ 3) in *. set (l := (1 + uu) ^ 3) in *. set (d := euclid a b) in *.
  split; [exact N|]. assert (0 <= d * k) by (apply Rmult_le_pos; lra). split; [split; [lra|]|].
  - apply Rle_trans with (1 := proj2 B). apply Rle_trans with (141.5 * (1 + 4 * uu)); [|lra]. apply Rmult_le_compat; lra.
  - destruct (euclid_lo a b Ga Gb) as [Z|L]; [left; unfold d in B; rewrite Z in B; lra|right]. apply Rle_trans with (2 := proj1 B). change (-99)%Z with (-98 + -1)%Z. rewrite bpow_plus. apply Rmult_le_compat; try apply bpow_ge_0; [exact L|].
    change (bpow radix2 (-1)) with (/ 2). lra.
Qed.
(** The computed cost of a closed path *)
Lemma path_R cities m p : tsp_cost cities = Ok m -> List.Forall grid_city cities -> Forall (fun v => (v < length cities)%nat) p ->
  let c := float_sum (map (fun e => entry m e.1 e.2) (windows p)) in
  running c /\ tour_length cities p * (1 - uu) ^ (length p + 3) <= f2r c <= tour_length cities p * (1 + uu) ^ (length p + 3).
Proof.
  intros Hm HF Hp c. apply windows_range in Hp. rewrite Forall_forall in Hp.
  destruct (sum_weights (fun e => entry m e.1 e.2) (fun e => leg cities e.1 e.2) (windows p)) with (s := f0) as [R B].
  - intros e He. destruct (Hp e He). apply entry_weight; assumption.
  - split_and!; [split; reflexivity|rewrite f2r_f0; lra|rewrite f2r_f0; apply bpow_ge_0|left; reflexivity].
  - split; [exact R|]. rewrite tour_length_eq. rewrite f2r_f0, !Rplus_0_l, windows_length in B. rewrite !pow_add. unfold c, float_sum. lra.
Qed.
Lemma tour_length_pos cities p : 0 <= tour_length cities p.
Proof.
  rewrite tour_length_eq. unfold total. induction (windows p) as [|e es IH]; cbn; [lra|]. assert (0 <= leg cities e.1 e.2); [|lra].
  unfold leg. destruct (cities !! e.1), (cities !! e.2); try lra. apply euclid_pos.
Qed.
(** The grade of a closed path *)
Lemma grade_R c : running c -> (c = f0 /\ fdiv f1 c = finf) \/ (0 < f2r c /\ number (fdiv f1 c) /\ / f2r c * (1 - uu) <= f2r (fdiv f1 c) <= / f2r c * (1 + uu)).
Proof.
  intros ([V F] & B & [-> | L]); [left; split; reflexivity|right]. pose proof (bpow_gt_0 radix2 (-99)) as P99.
  assert (/ f2r c <= bpow radix2 99) as U. { change 99%Z with (- -99)%Z. rewrite bpow_opp. apply Rinv_le; [exact P99|exact L]. }
  assert (bpow radix2 (-70) <= / f2r c) as Lo. { change (-70)%Z with (- (70))%Z. rewrite bpow_opp. apply Rinv_le; lra. }
  pose proof (bpow_gt_0 radix2 (-70)).
  destruct (fdiv_R f1 c fvalid_f1 V eq_refl) as [E F']; [lra| |].
  - rewrite f2r_f1. unfold Rdiv. rewrite Rmult_1_l. eapply Rle_lt_trans; [apply (rnd_bound _ 99); [lia|rewrite Rabs_pos_eq; lra]|apply bpow_BOUND; lia].
  - rewrite f2r_f1 in E. unfold Rdiv in E. rewrite Rmult_1_l in E. split; [lra|]. split; [split; [apply fvalid_div; [apply fvalid_f1|exact V]|exact F']|].
    rewrite E. apply rnd_rel; [lra|]. right. eapply Rle_trans; [|exact Lo]. apply bpow_le. lia.
Qed.
(** A better grade means a shorter tour, up to rounding. *)
Lemma better_is_shorter cities m p q : tsp_cost cities = Ok m -> List.Forall grid_city cities ->
  Forall (fun v => (v < length cities)%nat) p -> Forall (fun v => (v < length cities)%nat) q -> length p = length q ->
  fle (fdiv f1 (float_sum (map (fun e => entry m e.1 e.2) (windows q)))) (fdiv f1 (float_sum (map (fun e => entry m e.1 e.2) (windows p)))) = true ->
  tour_length cities p * (1 - uu) ^ (length p + 4) <= tour_length cities q * (1 + uu) ^ (length p + 4).
Proof.
  intros Hm HF Hp Hq EL H. destruct (path_R cities m p Hm HF Hp) as [Rp Bp]. destruct (path_R cities m q Hm HF Hq) as [Rq Bq].
  set (cp := float_sum (map _ (windows p))) in *. set (cq := float_sum (map _ (windows q))) in *. rewrite <- EL in Bq.
  pose proof (tour_length_pos cities p) as Pp. pose proof (tour_length_pos cities q) as Pq.
  replace (length p + 4)%nat with (S (length p + 3))%nat by lia. set (k := (length p + 3)%nat) in *. cbn [pow].
  pose proof uu_pos. pose proof uu_small. pose proof (cond_1u k) as C1. pose proof (cond_u1 k) as C2.
  set (a := (1 - uu) ^ k) in *. set (b := (1 + uu) ^ k) in *. set (lp := tour_length cities p) in *. set (lq := tour_length cities q) in *.
  assert (0 <= lp * a) by (apply Rmult_le_pos; lra).
  assert (f2r cp * (1 - uu) <= f2r cq * (1 + uu)) as HC.
  { destruct (grade_R cp Rp) as [[E1 E2]|(P1 & [V1 F1] & B1)].
    - rewrite E1, f2r_f0. assert (0 <= f2r cq) by (destruct Rq as (_ & [? _] & _); assumption). rewrite Rmult_0_l. apply Rmult_le_pos; lra.
    - destruct (grade_R cq Rq) as [[E1 E2]|(P2 & [V2 F2] & B2)].
      + rewrite E2 in H. destruct (fdiv f1 cp) as [|[]| |[] ? ?]; try discriminate H; discriminate F1.
      + apply fle_R in H; [|assumption ..]. assert (/ f2r cq * (1 - uu) <= / f2r cp * (1 + uu)) as HI by lra.
        apply (Rmult_le_compat_l (f2r cp * f2r cq)) in HI; [|apply Rmult_le_pos; lra].
        replace (f2r cp * f2r cq * (/ f2r cq * (1 - uu))) with (f2r cp * (1 - uu)) in HI by (field; lra).
        replace (f2r cp * f2r cq * (/ f2r cp * (1 + uu))) with (f2r cq * (1 + uu)) in HI by (field; lra). exact HI. }
  apply Rle_trans with (f2r cp * (1 - uu)).
  - replace (lp * ((1 - uu) * a)) with (lp * a * (1 - uu)) by ring. apply Rmult_le_compat_r; lra.
  - eapply Rle_trans; [exact HC|]. replace (lq * ((1 + uu) * b)) with (lq * b * (1 + uu)) by ring. apply Rmult_le_compat_r; lra.
Qed.

(** ** Statements in terms of the specification *)
Lemma uu_eq : uu = half_ulp.
Proof. unfold uu, half_ulp. change (-53)%Z with (- (53))%Z. rewrite bpow_opp. f_equal. rewrite pow_IZR. reflexivity. Qed.
Lemma generate_Ok n r : exists cities cost r', generate_tsp_cost n r = Ok (cities, cost, r') /\ length cities = n /\ List.Forall grid_city cities /\ tsp_cost cities = Ok cost.
Proof.
  unfold generate_tsp_cost. destruct (cities_R n r) as (l & r' & -> & L & F). cbn [mbind outcome_bind].
  destruct (cost_spec l) as (m & Hm & _). rewrite Hm. cbn [mbind outcome_bind]. exists l, m, r'. auto.
Qed.
Lemma generate_inv n r cities cost r' : generate_tsp_cost n r = Ok (cities, cost, r') -> length cities = n /\ List.Forall grid_city cities /\ tsp_cost cities = Ok cost.
Proof. intros H. destruct (generate_Ok n r) as (c & m & r1 & E & X). rewrite E in H. injection H as <- <- <-. exact X. Qed.
Lemma grid_square l : List.Forall grid_city l -> List.Forall in_square l.
Proof. intros H. eapply List.Forall_impl; [|exact H]. intros c G. exact (proj1 G). Qed.
Lemma euclid_triangle a b c : euclid a c <= euclid a b + euclid b c.
Proof.
  assert (forall x y, euclid x y = dist_euc (f2r x.1) (f2r x.2) (f2r y.1) (f2r y.2)) as E.
  { intros x y. unfold euclid, dist_euc, Rsqr. f_equal. ring. }
  rewrite !E. apply triangle.
Qed.
Lemma accurate d e : 0 <= e -> e * (1 - uu) ^ 3 <= d <= e * (1 + uu) ^ 3 -> Rabs (d - e) <= 4 * half_ulp * e.
Proof.
  intros P [H1 H2]. destruct three_u as [U1 U2]. rewrite <- uu_eq. apply Rabs_le.
  assert (e * (1 - 4 * uu) <= e * (1 - uu) ^ 3) by (apply Rmult_le_compat_l; lra). assert (e * (1 + uu) ^ 3 <= e * (1 + 4 * uu)) by (apply Rmult_le_compat_l; lra). lra.
Qed.
Lemma metric_R cities m i j k : tsp_cost cities = Ok m -> List.Forall grid_city cities -> (i < length cities)%nat -> (j < length cities)%nat -> (k < length cities)%nat ->
  f2r (entry m i k) <= (f2r (entry m i j) + f2r (entry m j k)) * (1 + 8 * half_ulp).
Proof.
  intros Hm HF Hi Hj Hk. destruct (entry_weight cities m i k Hm HF Hi Hk) as (_ & P1 & B1). destruct (entry_weight cities m i j Hm HF Hi Hj) as (_ & P2 & B2). destruct (entry_weight cities m j k Hm HF Hj Hk) as (_ & P3 & B3).
  assert (leg cities i k <= leg cities i j + leg cities j k) as T.
  { apply lookup_lt_is_Some in Hi as [a Ha]. apply lookup_lt_is_Some in Hj as [b Hb]. apply lookup_lt_is_Some in Hk as [c Hc]. unfold leg. rewrite Ha, Hb, Hc. apply euclid_triangle. }
  set (x := leg cities i k) in *. set (y := leg cities i j) in *. set (z := leg cities j k) in *. destruct three_u as [U1 U2]. pose proof uu_pos as U3. pose proof uu_small as U4.
  rewrite <- uu_eq. set (a := (1 - uu) ^ 3) in *. set (b := (1 + uu) ^ 3) in *.
  assert (1 <= b) as Hb by apply cond_u1.
  apply Rle_trans with ((y + z) * b). { eapply Rle_trans; [apply B1|]. apply Rmult_le_compat_r; lra. }
  apply Rle_trans with ((y + z) * a * (1 + 8 * uu)).
  - rewrite Rmult_assoc. apply Rmult_le_compat_l; [lra|]. apply Rle_trans with ((1 - 3 * uu) * (1 + 8 * uu)); [nra|]. apply Rmult_le_compat_r; [lra|]. pose proof pow_lo. fold a in H. lra.
  - apply Rmult_le_compat_r; lra.
Qed.
Lemma heuristic_R cities m : tsp_cost cities = Ok m -> List.Forall grid_city cities ->
  exists h, create_heuristic m = Ok h /\ nrows h = length cities /\ ncols h = length cities /\
  forall i j a b, cities !! i = Some a -> cities !! j = Some b -> number (entry h i j) /\ (same_place a b -> entry h i j = f0) /\
    (~ same_place a b -> 0 < f2r (entry h i j) <= bpow radix2 99).
Proof.
  intros Hm HF. destruct (heuristic_spec m) as (h & Hh & R & C & E). destruct (cost_spec cities) as (m' & Hm' & R' & C' & _). rewrite Hm in Hm'. injection Hm' as <-.
  exists h. split; [exact Hh|]. split; [congruence|]. split; [congruence|]. intros i j a b Ha Hb.
  pose proof (lookup_lt_Some _ _ _ Ha) as Hi. pose proof (lookup_lt_Some _ _ _ Hb) as Hj.
  rewrite E by (split; lia). destruct (entry_weight cities m i j Hm HF Hi Hj) as (([V F] & B & L) & P & S). unfold leg in *. rewrite Ha, Hb in *.
  assert (f2r (entry m i j) = 0 <-> same_place a b) as Z. { rewrite (sandwich_0 _ _ 3 3 P S). apply euclid_0. }
  destruct (feq (entry m i j) f0) eqn:Q.
  - assert (same_place a b). { apply Z. destruct (entry m i j) as [s|[]| |[] mm ee]; try discriminate F; try discriminate Q. reflexivity. }
    split; [split; reflexivity|]. tauto.
  - assert (f2r (entry m i j) <> 0) as NZ. { intros Z0. destruct (number_zero _ (conj V F) Z0) as [s Es]. rewrite Es in Q. destruct s; discriminate Q. }
    destruct L as [L|L]; [contradiction|]. destruct (grade_R (entry m i j)) as [[E0 _]|(Pc & N & Bd)].
    + split; [split; assumption|]. split; [|right; exact L]. split; [lra|]. eapply Rle_trans; [apply B|]. apply Rle_trans with (bpow radix2 8); [change (bpow radix2 8) with 256; lra|apply bpow_le; lia].
    + rewrite E0, f2r_f0 in NZ. contradiction.
    + split; [exact N|]. split; [intros SP; apply Z in SP; contradiction|]. intros _. pose proof uu_pos. pose proof uu_small. assert (0 < / f2r (entry m i j)) by (apply Rinv_0_lt_compat, Pc).
      assert (0 < / f2r (entry m i j) * (1 - uu)) by (apply Rmult_lt_0_compat; lra). split; [lra|].
      change (fdiv f1 (entry m i j)) with (fdiv f1 (entry m i j)) in *. destruct N as [VN FN].
      destruct (fdiv_R f1 (entry m i j) fvalid_f1 V eq_refl NZ) as [ED _].
      * rewrite f2r_f1. unfold Rdiv. rewrite Rmult_1_l. eapply Rle_lt_trans; [apply (rnd_bound _ 99); [lia|]|apply bpow_BOUND; lia]. rewrite Rabs_pos_eq by lra.
        change 99%Z with (- -99)%Z. rewrite bpow_opp. apply Rinv_le; [apply bpow_gt_0|exact L].
      * rewrite ED, f2r_f1. unfold Rdiv. rewrite Rmult_1_l. rewrite <- (Rabs_pos_eq (rnd _)) by (apply rnd_nonneg; lra). apply rnd_bound; [lia|]. rewrite Rabs_pos_eq by lra.
        change 99%Z with (- -99)%Z. rewrite bpow_opp. apply Rinv_le; [apply bpow_gt_0|exact L].
Qed.
