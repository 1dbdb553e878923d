(** * The size of the numbers of a swarm *)
From Verif Require Import F64R PopulationSpec PopulationProofs PsoModel PsoSpec PsoRunProofs PsoBestProofs PsoBoundsProofs PsoRangeSpec AcoChoiceProofs AcoTspGenProofs AcoBoundProofs.
From Coq Require Import Reals Lra Lia.
From Flocq Require Import Core.
From Flocq.Prop Require Mult_error.
From Flocq.IEEE754 Require BinarySingleNaN.
Open Scope R_scope.

Notation tiny := (bpow radix2 (-1022)).
Lemma rnd_abs x : Rabs (rnd x) <= Rabs x * (1 + uu) + tiny.
Proof.
  destruct (Rle_dec 0 x) as [P|P].
  - pose proof (rnd_up x P). assert (0 <= rnd x) by (rewrite <- rnd_0; apply rnd_le; exact P). rewrite !Rabs_pos_eq by assumption. assumption.
  - pose proof (rnd_up (- x) ltac:(lra)) as U. rewrite rnd_opp in U. assert (rnd x <= 0) by (rewrite <- rnd_0; apply rnd_le; lra).
    rewrite (Rabs_left1 x), (Rabs_left1 (rnd x)) by lra. lra.
Qed.
Lemma fits x : x <= bpow radix2 1003 -> x < BOUND.
Proof. intros H. eapply Rle_lt_trans; [exact H|]. apply bpow_lt. lia. Qed.
Lemma within_le B C x : B <= C -> within B x -> within C x.
Proof. intros H (V & F & A). split; [exact V|]. split; [exact F|]. lra. Qed.
Lemma within_mul B C D x y : within B x -> within C y -> B * C * (1 + uu) + tiny <= D -> D <= bpow radix2 1003 -> within D (fmul x y).
Proof.
  intros (Vx & Fx & Ax) (Vy & Fy & Ay) H1 H2. pose proof uu_pos. pose proof (Rabs_pos (f2r x)). pose proof (Rabs_pos (f2r y)).
  assert (X : Rabs (rnd (f2r x * f2r y)) <= D).
  { eapply Rle_trans; [apply rnd_abs|]. rewrite Rabs_mult. eapply Rle_trans; [|exact H1]. apply Rplus_le_compat_r, Rmult_le_compat_r; [lra|]. apply Rmult_le_compat; lra. }
  destruct (fmul_R x y Vx Vy Fx Fy) as [E F]; [apply fits; lra|]. split; [apply fvalid_mul; assumption|]. split; [exact F|]. rewrite E. exact X.
Qed.
Lemma within_add B C D x y : within B x -> within C y -> (B + C) * (1 + uu) + tiny <= D -> D <= bpow radix2 1003 -> within D (fadd x y).
Proof.
  intros (Vx & Fx & Ax) (Vy & Fy & Ay) H1 H2. pose proof uu_pos.
  assert (X : Rabs (rnd (f2r x + f2r y)) <= D).
  { eapply Rle_trans; [apply rnd_abs|]. eapply Rle_trans; [|exact H1]. apply Rplus_le_compat_r, Rmult_le_compat_r; [lra|]. eapply Rle_trans; [apply Rabs_triang|]. lra. }
  destruct (fadd_R x y Vx Vy Fx Fy) as [E F]; [apply fits; lra|]. split; [apply fvalid_add; assumption|]. split; [exact F|]. rewrite E. exact X.
Qed.
Lemma within_sub B C D x y : within B x -> within C y -> (B + C) * (1 + uu) + tiny <= D -> D <= bpow radix2 1003 -> within D (fsub x y).
Proof.
  intros (Vx & Fx & Ax) (Vy & Fy & Ay) H1 H2. pose proof uu_pos.
  assert (X : Rabs (rnd (f2r x - f2r y)) <= D).
  { eapply Rle_trans; [apply rnd_abs|]. eapply Rle_trans; [|exact H1]. apply Rplus_le_compat_r, Rmult_le_compat_r; [lra|]. unfold Rminus. eapply Rle_trans; [apply Rabs_triang|]. rewrite Rabs_Ropp. lra. }
  destruct (fsub_R x y Vx Vy Fx Fy) as [E F]; [apply fits; lra|]. split; [apply fvalid_sub; assumption|]. split; [exact F|]. rewrite E. exact X.
Qed.
Lemma rnd_abs_le x b : fvalid b -> Rabs x <= Rabs (f2r b) -> Rabs (rnd x) <= Rabs (f2r b).
Proof.
  intros V H. pose proof (rnd_id b V) as I.
  assert (X : rnd (Rabs (f2r b)) = Rabs (f2r b)).
  { unfold Rabs. destruct (Rcase_abs (f2r b)); [rewrite rnd_opp, I; reflexivity|exact I]. }
  apply Rabs_le. apply Rabs_le_inv in H. split; [rewrite <- X, <- rnd_opp; apply rnd_le; lra|rewrite <- X; apply rnd_le; lra].
Qed.
Lemma within_factor c r : fvalid c -> ffinite c = true -> in01 r -> within (Rabs (f2r c)) (fmul c r).
Proof.
  intros V F I. pose proof I as (Vr & _ & _). destruct (in01_finite r Vr I) as [Fr Rr].
  assert (X : Rabs (rnd (f2r c * f2r r)) <= Rabs (f2r c)).
  { apply rnd_abs_le; [exact V|]. rewrite Rabs_mult, (Rabs_pos_eq (f2r r)) by lra. pose proof (Rabs_pos (f2r c)). nra. }
  destruct (fmul_R c r V Vr F Fr) as [E Fi]; [eapply Rle_lt_trans; [exact X|]; apply f2r_bound; exact V|].
  split; [apply fvalid_mul; assumption|]. split; [exact Fi|]. rewrite E. exact X.
Qed.

(** The rounding errors of one step: k = 1 + uu. *)
Lemma pow_k n : (n <= 6)%nat -> (1 + uu) ^ n <= 1 + 7 * uu.
Proof.
  intros H. apply Rle_trans with ((1 + uu) ^ 6); [apply Rle_pow; [pose proof uu_pos; lra|exact H]|].
  pose proof uu_pos as P. pose proof uu_small as Q. assert (0 <= uu * uu <= uu * / 1048576) by nra. assert (0 <= uu * uu * uu <= uu * / 1048576) by nra.
  assert (0 <= uu * uu * uu * uu <= uu * / 1048576) by nra. assert (0 <= uu * uu * uu * uu * uu <= uu * / 1048576) by nra. assert (0 <= uu * uu * uu * uu * uu * uu <= uu * / 1048576) by nra.
  replace ((1 + uu) ^ 6) with (1 + 6 * uu + 15 * (uu * uu) + 20 * (uu * uu * uu) + 15 * (uu * uu * uu * uu) + 6 * (uu * uu * uu * uu * uu) + uu * uu * uu * uu * uu * uu) by ring. lra.
Qed.
Lemma step_real (a b1 b2 M : R) : 0 <= a -> 0 <= b1 -> 0 <= b2 -> bpow radix2 (-900) <= M ->
  let k := 1 + uu in let s := (M + M) * k + tiny in let t1 := a * M * k + tiny in let t2 := b1 * s * k + tiny in let t3 := b2 * s * k + tiny in
  let u := (t1 + t2) * k + tiny in let v := (u + t3) * k + tiny in let x := (M + v) * k + tiny in
  s <= 4 * M /\ 0 <= t1 <= x /\ 0 <= t2 <= x /\ 0 <= t3 <= x /\ 0 <= u <= x /\ 0 <= v <= x /\ x <= (1 + 8 * uu) * (1 + a + 2 * b1 + 2 * b2) * M.
Proof.
  intros Ha H1 H2 HM k s t1 t2 t3 u v x. pose proof uu_pos as P. pose proof uu_small as Q. pose proof (bpow_gt_0 radix2 (-1022)) as Pt. pose proof (bpow_gt_0 radix2 (-900)) as PM.
  assert (T : tiny <= M * (uu * uu)).
  { apply Rle_trans with (bpow radix2 (-900) * (uu * uu)); [|apply Rmult_le_compat_r; nra]. unfold uu. rewrite <- !bpow_plus. apply bpow_le. lia. }
  assert (K : 1 <= k <= 2) by (unfold k; lra). assert (UU : 0 <= uu * uu <= uu * / 1048576) by nra.
  assert (HMp : 0 < M) by lra. assert (S0 : 2 * M <= s <= 2 * M * k ^ 2).
  { unfold s. split; [nra|]. unfold k. replace (2 * M * (1 + uu) ^ 2) with (2 * M * (1 + uu) + M * (2 * uu + 2 * (uu * uu))) by ring. nra. }
  assert (S4 : s <= 4 * M). { unfold s, k. assert (M * uu <= M * / 1048576) by (apply Rmult_le_compat_l; lra). assert (M * (uu * uu) <= M * (uu * / 1048576)) by (apply Rmult_le_compat_l; lra). nra. }
  assert (0 <= a * M) by (apply Rmult_le_pos; lra). assert (0 <= b1 * s) by (apply Rmult_le_pos; lra). assert (0 <= b2 * s) by (apply Rmult_le_pos; lra).
  assert (I : forall z, 0 <= z -> z <= z * k) by (intros z Hz; nra).
  assert (T1 : 0 <= t1) by (unfold t1; nra). assert (T2 : 0 <= t2) by (unfold t2; nra). assert (T3 : 0 <= t3) by (unfold t3; nra).
  assert (U1 : t1 + t2 <= u) by (unfold u; pose proof (I (t1 + t2) ltac:(lra)); lra). assert (V1 : u + t3 <= v) by (unfold v; pose proof (I (u + t3) ltac:(lra)); lra).
  assert (X1 : M + v <= x) by (unfold x; pose proof (I (M + v) ltac:(lra)); lra).
  split; [exact S4|]. repeat (split; [lra|]).
  assert (E : x = a * (M * k ^ 4) + b1 * (s * k ^ 4) + b2 * (s * k ^ 3) + (M * k + tiny * (2 * k ^ 3 + 2 * k ^ 2 + k + 1))).
  { unfold x, v, u, t1, t2, t3. ring. }
  rewrite E. set (g := 1 + 8 * uu).
  assert (P4 : k ^ 4 <= g). { eapply Rle_trans; [apply (pow_k 4); lia|]. unfold g. lra. }
  assert (P6 : k ^ 6 <= g). { eapply Rle_trans; [apply (pow_k 6); lia|]. unfold g. lra. }
  assert (P5 : k ^ 5 <= g). { eapply Rle_trans; [apply (pow_k 5); lia|]. unfold g. lra. }
  assert (C1 : M * k ^ 4 <= g * M) by (rewrite (Rmult_comm g M); apply Rmult_le_compat_l; lra).
  assert (C2 : s * k ^ 4 <= 2 * (g * M)).
  { apply Rle_trans with (2 * M * k ^ 2 * k ^ 4); [apply Rmult_le_compat_r; [apply pow_le; lra|lra]|]. replace (2 * M * k ^ 2 * k ^ 4) with (2 * (M * k ^ 6)) by ring. assert (M * k ^ 6 <= M * g) by (apply Rmult_le_compat_l; lra). lra. }
  assert (C3 : s * k ^ 3 <= 2 * (g * M)).
  { apply Rle_trans with (2 * M * k ^ 2 * k ^ 3); [apply Rmult_le_compat_r; [apply pow_le; lra|lra]|]. replace (2 * M * k ^ 2 * k ^ 3) with (2 * (M * k ^ 5)) by ring. assert (M * k ^ 5 <= M * g) by (apply Rmult_le_compat_l; lra). lra. }
  assert (C0 : M * k + tiny * (2 * k ^ 3 + 2 * k ^ 2 + k + 1) <= g * M).
  { assert (Z : 0 <= 2 * k ^ 3 + 2 * k ^ 2 + k + 1 <= 32).
    { assert (0 <= k ^ 2 <= 4) by (split; [apply pow_le; lra|]; replace 4 with (2 ^ 2) by ring; apply pow_incr; lra).
      assert (0 <= k ^ 3 <= 8) by (split; [apply pow_le; lra|]; replace 8 with (2 ^ 3) by ring; apply pow_incr; lra). lra. }
    assert (tiny * (2 * k ^ 3 + 2 * k ^ 2 + k + 1) <= M * (uu * uu) * 32) as Y by (apply Rmult_le_compat; lra).
    assert (M * (uu * uu) * 32 <= M * uu) as Y2 by nra. unfold g, k in *. nra. }
  assert (D1 : a * (M * k ^ 4) <= a * (g * M)) by (apply Rmult_le_compat_l; assumption).
  assert (D2 : b1 * (s * k ^ 4) <= b1 * (2 * (g * M))) by (apply Rmult_le_compat_l; assumption).
  assert (D3 : b2 * (s * k ^ 3) <= b2 * (2 * (g * M))) by (apply Rmult_le_compat_l; assumption).
  replace (g * (1 + a + 2 * b1 + 2 * b2) * M) with (g * M + a * (g * M) + b1 * (2 * (g * M)) + b2 * (2 * (g * M))) by ring. lra.
Qed.
Lemma growth_eq w c1 c2 : growth w c1 c2 = (1 + 8 * uu) * (1 + Rabs (f2r w) + 2 * Rabs (f2r c1) + 2 * Rabs (f2r c2)).
Proof.
  unfold growth. replace (/ 2 ^ 50) with (8 * uu); [reflexivity|]. unfold uu. change (bpow radix2 (-53)) with (/ IZR 9007199254740992).
  assert (E : 2 ^ 50 = IZR 1125899906842624) by (rewrite pow_IZR; reflexivity). rewrite E. lra.
Qed.
Lemma growth_1 w c1 c2 : 1 <= growth w c1 c2.
Proof. rewrite growth_eq. pose proof uu_pos. pose proof (Rabs_pos (f2r w)). pose proof (Rabs_pos (f2r c1)). pose proof (Rabs_pos (f2r c2)). nra. Qed.

Section Step.
Context (w c1 c2 : f64) (Vw : finite_f64 w) (V1 : finite_f64 c1) (V2 : finite_f64 c2).

Lemma coordinate_step M vi xi pi gi r1 r2 : bpow radix2 (-900) <= M -> growth w c1 c2 * M <= bpow radix2 1000 ->
  within M vi -> within M xi -> within M pi -> within M gi -> in01 r1 -> in01 r2 ->
  let v := fadd (fadd (fmul w vi) (fmul (fmul c1 r1) (fsub pi xi))) (fmul (fmul c2 r2) (fsub gi xi)) in
  within (growth w c1 c2 * M) v /\ within (growth w c1 c2 * M) (fadd xi v).
Proof.
  intros HM HA Hv Hx Hp Hg I1 I2 v. destruct Vw as [Vw1 Vw2], V1 as [V11 V12], V2 as [V21 V22].
  destruct (step_real (Rabs (f2r w)) (Rabs (f2r c1)) (Rabs (f2r c2)) M (Rabs_pos _) (Rabs_pos _) (Rabs_pos _) HM) as (S4 & T1 & T2 & T3 & U & V & X).
  rewrite <- growth_eq in X. pose proof (growth_1 w c1 c2) as G1. pose proof (bpow_gt_0 radix2 (-900)) as PM.
  assert (L : bpow radix2 1003 = 8 * bpow radix2 1000) by (change 1003%Z with (3 + 1000)%Z; rewrite bpow_plus; reflexivity).
  assert (HM2 : M <= bpow radix2 1000) by nra. pose proof (bpow_gt_0 radix2 1000) as P3.
  assert (Ww : within (Rabs (f2r w)) w) by (split; [exact Vw1|]; split; [exact Vw2|lra]).
  pose proof (within_factor c1 r1 V11 V12 I1) as Q1. pose proof (within_factor c2 r2 V21 V22 I2) as Q2.
  pose proof (within_mul _ _ _ _ _ Ww Hv (Rle_refl _) ltac:(lra)) as Z1.
  pose proof (within_sub _ _ _ _ _ Hp Hx (Rle_refl _) ltac:(lra)) as Zs. pose proof (within_sub _ _ _ _ _ Hg Hx (Rle_refl _) ltac:(lra)) as Zg.
  pose proof (within_mul _ _ _ _ _ Q1 Zs (Rle_refl _) ltac:(lra)) as Z2. pose proof (within_mul _ _ _ _ _ Q2 Zg (Rle_refl _) ltac:(lra)) as Z3.
  pose proof (within_add _ _ _ _ _ Z1 Z2 (Rle_refl _) ltac:(lra)) as Z4. pose proof (within_add _ _ _ _ _ Z4 Z3 (Rle_refl _) ltac:(lra)) as Z5.
  pose proof (within_add _ _ _ _ _ Hx Z5 (Rle_refl _) ltac:(lra)) as Z6. fold v in Z5, Z6.
  split; [apply (within_le _ _ _ (Rle_trans _ _ _ (proj2 V) X) Z5)|apply (within_le _ _ _ X Z6)].
Qed.
Lemma accelerated_within M v x p g v' : bpow radix2 (-900) <= M -> growth w c1 c2 * M <= bpow radix2 1000 -> accelerated w c1 c2 v x p g v' ->
  Forall (within M) v -> Forall (within M) x -> Forall (within M) p -> Forall (within M) g ->
  Forall (within (growth w c1 c2 * M)) v' /\ Forall (within (growth w c1 c2 * M)) (zip_with fadd x v').
Proof.
  intros HM HA. induction 1 as [|vi v xi x pi p gi g r1 r2 v' H1 H2 _ IH]; intros Fv Fx Fp Fg; [split; constructor|].
  apply Forall_cons in Fv as [Hv Fv], Fx as [Hx Fx], Fp as [Hp Fp], Fg as [Hg Fg]. destruct (IH Fv Fx Fp Fg) as [I1 I2].
  destruct (coordinate_step M vi xi pi gi r1 r2 HM HA Hv Hx Hp Hg H1 H2) as [J1 J2]. split; [constructor; assumption|]. cbn [zip_with]. constructor; assumption.
Qed.
Lemma next_within f M s s' : bpow radix2 (-900) <= M -> growth w c1 c2 * M <= bpow radix2 1000 -> next_swarm f w c1 c2 s s' -> swarm_within M s -> swarm_within (growth w c1 c2 * M) s'.
Proof.
  intros HM HA (F2 & HG & _) (Gs & Ps). pose proof (growth_1 w c1 c2) as G1. pose proof (bpow_gt_0 radix2 (-900)) as PM.
  assert (HL : M <= growth w c1 c2 * M) by nra. assert (Up : forall l, Forall (within M) l -> Forall (within (growth w c1 c2 * M)) l).
  { intros l Hl. eapply Forall_impl; [exact Hl|]. intros z. apply within_le. exact HL. }
  assert (P' : Forall (fun p => Forall (within (growth w c1 c2 * M)) (position p) /\ Forall (within (growth w c1 c2 * M)) (velocity p) /\ Forall (within (growth w c1 c2 * M)) (pbest p)) (particles s')).
  { clear HG. induction F2 as [|p p' ps ps' H F2 IH]; [constructor|]. apply Forall_cons in Ps as [(A & B & C) Ps]. constructor; [|exact (IH Ps)].
    destruct H as (Hv & Hx & _ & Hb). destruct (accelerated_within M _ _ _ _ _ HM HA Hv B A C Gs) as [I1 I2]. rewrite Hx.
    split; [exact I2|]. split; [exact I1|]. destruct (flt (value p') (pbest_value p)); destruct Hb as [-> _]; [rewrite Hx; exact I2|apply Up; exact C]. }
  split; [|exact P']. destruct HG as [[-> _]|(p' & Hp & -> & _)]; [apply Up; exact Gs|]. rewrite Forall_forall in P'. apply (P' p' Hp).
Qed.
Lemma evolution_within f l : forall s M, bpow radix2 (-900) <= M -> evolution f w c1 c2 s l -> swarm_within M s ->
  forall j s', (s :: l) !! j = Some s' -> growth w c1 c2 ^ j * M <= bpow radix2 1000 -> swarm_within (growth w c1 c2 ^ j * M) s'.
Proof.
  pose proof (growth_1 w c1 c2) as G1.
  induction l as [|s1 l IH]; intros s M HM EV HS j s' Hj HB; (destruct j as [|j]; cbn in Hj; [injection Hj as <-; rewrite pow_O, Rmult_1_l; exact HS|]); [discriminate|].
  inversion EV as [|? ? ? NX EV' E1]; subst. pose proof (bpow_gt_0 radix2 (-900)) as PM.
  assert (E : growth w c1 c2 ^ S j * M = growth w c1 c2 ^ j * (growth w c1 c2 * M)) by (cbn [pow]; ring). rewrite E in HB |- *.
  assert (H1 : 1 <= growth w c1 c2 ^ j) by (apply pow_R1_Rle; exact G1). assert (H2 : 0 < growth w c1 c2 * M) by nra.
  apply (IH s1 (growth w c1 c2 * M)); [nra|exact EV'| |exact Hj|exact HB]. apply (next_within f M s s1 HM); [nra|exact NX|exact HS].
Qed.
End Step.

(** ** The first generation *)
Lemma fabs_R x : fvalid x -> fvalid (fabs x) /\ f2r (fabs x) = Rabs (f2r x) /\ ffinite (fabs x) = ffinite x /\ (ffinite x = true -> fle f0 (fabs x) = true).
Proof.
  intros V. split; [destruct x; exact V|]. split; [|split; [destruct x; reflexivity|intros F; destruct x; try discriminate; reflexivity]].
  destruct x as [s|s| |s m e]; try (cbn; rewrite Rabs_R0; reflexivity). unfold f2r, fabs, SFabs, BinarySingleNaN.SF2R. rewrite <- F2R_Zabs. f_equal. f_equal. destruct s; reflexivity.
Qed.
Lemma fneg_R x : fvalid x -> fvalid (fneg x) /\ f2r (fneg x) = - f2r x /\ ffinite (fneg x) = ffinite x.
Proof.
  intros V. split; [destruct x; exact V|]. split; [|destruct x; reflexivity].
  destruct x as [s|s| |s m e]; try (cbn; rewrite Ropp_0; reflexivity). unfold f2r, fneg, SFopp, BinarySingleNaN.SF2R. rewrite <- F2R_Zopp. f_equal. f_equal. destruct s; reflexivity.
Qed.
Lemma rnd_double x : fvalid x -> rnd (2 * f2r x) = 2 * f2r x.
Proof.
  intros V. unfold rnd. apply round_generic; [auto with typeclass_instances|].
  change (SpecFloat.fexp 53 1024) with (FLT_exp (-1074) 53). replace (2 * f2r x) with (f2r x * bpow radix2 1) by (change (bpow radix2 1) with 2; ring).
  apply Mult_error.mult_bpow_pos_exact_FLT; [exact (fformat x V)|lia].
Qed.
(** Initial velocities. *)
Lemma velocity_within lo hi u : finite_f64 lo -> finite_f64 hi -> ffinite (fsub hi lo) = true -> 2 * Rabs (f2r (fsub hi lo)) < BOUND -> in01 u ->
  let W := fabs (fsub hi lo) in let v := fadd (fmul u (fsub W (fneg W))) (fneg W) in within (f2r W) v.
Proof.
  intros [Vl Fl] [Vh Fh] Fw HB Iu W v. assert (Vw : fvalid (fsub hi lo)) by (apply fvalid_sub; assumption).
  destruct (fabs_R _ Vw) as (VW & EW & FW & PW). fold W in VW, EW, FW, PW. rewrite Fw in FW. specialize (PW Fw).
  destruct (fneg_R W VW) as (VN & EN & FN). rewrite FW in FN. assert (P : 0 <= f2r W) by (rewrite EW; apply Rabs_pos).
  assert (ED : f2r W - f2r (fneg W) = 2 * f2r W) by (rewrite EN; ring).
  destruct (fsub_R W (fneg W) VW VN FW FN) as [ES FS]. { rewrite ED, rnd_double, Rabs_pos_eq by (try assumption; lra). rewrite EW. exact HB. }
  rewrite ED, rnd_double in ES by exact VW. assert (VS : fvalid (fsub W (fneg W))) by (apply fvalid_sub; assumption).
  assert (E1 : f2r (fsub W (fneg W)) + f2r (fneg W) = f2r W) by (rewrite ES, EN; ring).
  destruct (fadd_R (fsub W (fneg W)) (fneg W) VS VN FS FN) as [EA FA]. { rewrite E1, rnd_id by exact VW. apply f2r_bound. exact VW. }
  rewrite E1, rnd_id in EA by exact VW. assert (VA : fvalid (fadd (fsub W (fneg W)) (fneg W))) by (apply fvalid_add; assumption).
  pose proof Iu as (Vu & _). destruct (lerp_within (fneg W) W u) as ([V F] & L1 & L2);
    [split; assumption|split; assumption|apply fle_R; [assumption..|]; rewrite EN; lra|exact FS|exact Vu|exact Iu|apply fle_R; [assumption..|]; rewrite EA; lra|].
  fold v in V, F, L1, L2. apply fle_R in L1, L2; try assumption. rewrite EN in L1. split; [exact V|]. split; [exact F|]. apply Rabs_le. lra.
Qed.
Lemma initial_swarm f count dims lo hi r s r' (b : f64) : proper_range (lo, hi) -> fle (fadd (fsub hi lo) lo) hi = true -> fvalid b -> f2r b <= bpow radix2 1000 ->
  Rabs (f2r lo) <= f2r b -> Rabs (f2r hi) <= f2r b -> swarm_generate f count dims lo hi r = Ok (s, r') -> swarm_within (2 * f2r b) s.
Proof.
  intros (Hl & Hh & Hle & Fw) HB Vb B1 L1 L2 H. cbn [fst snd] in *. pose proof H as H0. apply swarm_generate_spec in H0 as ((FR & _ & (i & p & Hp & HG) & _) & _).
  pose proof (Rabs_pos (f2r lo)) as P0. destruct Hl as [Vl Fl], Hh as [Vh Fh].
  assert (Lt : 4 * bpow radix2 1000 < BOUND). { change (bpow radix2 1000 * 4) with (bpow radix2 1000 * 4). replace (4 * bpow radix2 1000) with (bpow radix2 (2 + 1000)) by (rewrite bpow_plus; reflexivity). apply bpow_lt. lia. }
  assert (X : Rabs (rnd (f2r hi - f2r lo)) <= 2 * f2r b).
  { pose proof (rnd_double b Vb) as D. apply Rabs_le. apply Rabs_le_inv in L1, L2. split; [rewrite <- D, <- rnd_opp; apply rnd_le; lra|rewrite <- D; apply rnd_le; lra]. }
  destruct (fsub_R hi lo Vh Vl Fh Fl) as [ES _]; [lra|].
  assert (HV : Forall (fun p => Forall (within (2 * f2r b)) (position p) /\ Forall (within (2 * f2r b)) (velocity p)) (particles s)).
  { unfold swarm_generate in H. destruct (generate_particles f count dims lo hi r) as [ps ra] eqn:E. apply obind_Ok in H as (p0 & Hp0 & H). injection H as <- <-. cbn [particles].
    eapply (generate_particles_within f count dims lo hi); [| |exact E].
    - intros u Vu Iu. destruct (lerp_within lo hi u (conj Vl Fl) (conj Vh Fh) Hle Fw Vu Iu HB) as ([V F] & A1 & A2).
      apply fle_R in A1, A2; try assumption. split; [exact V|]. split; [exact F|]. apply Rabs_le_inv in L1, L2. apply Rabs_le. lra.
    - intros u Vu Iu W. apply (within_le (f2r W)); [unfold W|exact (velocity_within lo hi u (conj Vl Fl) (conj Vh Fh) Fw ltac:(rewrite ES; lra) Iu)].
      rewrite (proj1 (proj2 (fabs_R _ (fvalid_sub _ _ Vh Vl)))), ES. exact X. }
  split.
  - rewrite HG. rewrite Forall_forall in HV. apply (HV p). eapply elem_of_list_lookup_2. exact Hp.
  - rewrite Forall_forall in HV, FR |- *. intros q Hq. destruct (HV q Hq) as [A B]. destruct (FR q Hq) as (_ & -> & _). auto.
Qed.
