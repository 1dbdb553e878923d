(** * The example programs: proofs *)
From Coq Require Import Reals Lra Lia.
From Verif Require Import GaSpec GaProofs PresetProofs BuilderModel BuilderSpec GaAssembleModel GaAssembleSpec GaAssembleProofs GaAssembleRunProofs GaOrderProofs GaFitSelSpec GaFitSelProofs
  CrossoverProofs WeakRunProofs PopulationSpec PopulationProofs F64R TfSpec TfModel TfF64Proofs FfDistanceProofs IntervalProofs ExampleModel ExampleSpec.
From Flocq Require Import Core BinarySingleNaN.
Local Existing Instances Hfexp HNE Hprec53 Hmax1024.
Open Scope nat_scope.
Notation pos := TfF64Proofs.pos.

Lemma iv_const n x : n <= 4000 -> fvalid x -> fle (f_of_nat n) x = true -> fle x (f_of_nat n) = true -> iv (Z.of_nat n) (Z.of_nat n) x.
Proof. intros Hn V H1 H2. apply (iv_between _ _ (f_of_nat n) (f_of_nat n)); auto; apply iv_nat; exact Hn. Qed.
Ltac cst n := apply (iv_const n); [lia|vm_compute; reflexivity..].
Ltac sm := unfold small; lia.

(** A division is NaN only for 0/0 and inf/inf. *)
Lemma fdiv_nn a b : nz a -> fin b -> nn (fdiv a b).
Proof.
  intros [Va (s & m & e & ->)] [Vb Fb]. split; [apply fvalid_div; assumption|].
  apply fvalid_ex in Va as [x Ex], Vb as [y Ey]. rewrite Ex, Ey in *. rewrite ffinite_B in Fb.
  destruct y as [sy| | |sy my ey By]; try discriminate Fb.
  - destruct x as [| | |sx mx ex Bx]; try discriminate Ex. reflexivity.
  - rewrite fdiv_B, is_nan_B. destruct x as [| | |sx mx ex Bx]; try discriminate Ex.
    pose proof (Bdiv_correct 53 1024 Hprec53 Hmax1024 mode_NE (B754_finite sx mx ex Bx) (B754_finite sy my ey By)) as C. 
    assert (Hy : B2R (B754_finite sy my ey By) <> 0%R). { cbn [B2R]. destruct sy; [apply Rlt_not_eq, F2R_lt_0|apply Rgt_not_eq, F2R_gt_0]; cbn; lia. }
    specialize (C Hy). destruct (Rlt_bool _ _) in C.
    + destruct C as (_ & C & _). destruct (Bdiv _ _ _); try reflexivity. discriminate C.
    + destruct (Bdiv _ _ _); try reflexivity. discriminate C.
Qed.

Lemma f_of_nat_pos g : pos (f_of_nat g).
Proof.
  destruct (decide (Z.of_nat g <= 2 ^ 53)%Z) as [H|H].
  - destruct (f_of_nat_exact g H) as (V & F & E). apply pos_of_R; auto. rewrite E. apply pos_INR.
  - split; [apply fvalid_of_Z|]. unfold f_of_nat. assert (V := fvalid_of_Z (Z.of_nat g)). rewrite f_of_Z_B in *.
    pose proof (binary_normalize_correct 53 1024 Hprec53 Hmax1024 mode_NE (Z.of_nat g) 0 false) as C. cbv zeta in C.
    assert (P : (0 < F2R (Float radix2 (Z.of_nat g) 0))%R) by (apply F2R_gt_0; cbn; lia).
    destruct (Rlt_bool _ _) in C.
    + destruct C as (C1 & C2 & _). refine (proj2 (pos_of_R _ V _ _)); [rewrite ffinite_B; exact C2|]. rewrite f2r_B, C1. change (0 <= rnd (F2R (Float radix2 (Z.of_nat g) 0)))%R.
      rewrite <- rnd_0. apply rnd_le. lra.
    + rewrite C. rewrite Rlt_bool_false by lra. reflexivity.
Qed.
Lemma pnz_iv lo hi x : iv lo hi x -> (0 < lo)%Z -> pnz x.
Proof.
  intros [[V F] [H _]] Hl. apply IZR_lt in Hl. split; [exact V|]. destruct x as [s| | |[] m e]; try discriminate F; eauto; exfalso.
  - unfold f2r in H. cbn in H. lra.
  - unfold f2r, SF2R in H. assert (F2R (Float radix2 (cond_Zopp true (Z.pos m)) e) < 0)%R by (apply F2R_lt_0; cbn; lia). lra.
Qed.
Lemma fdiv_pos a b : pos a -> pnz b -> pos (fdiv a b).
Proof.
  intros Pa [Vb (m & e & ->)]. destruct (pos_cases a Pa) as [[s ->]|[(ma & ea & ->)| ->]].
  - split; [apply fvalid_div; [exact (proj1 Pa)|exact Vb]|]. destruct s; reflexivity.
  - pose proof (proj1 Pa) as Va. split; [apply fvalid_div; assumption|].
    apply fvalid_ex in Va as [x Ex], Vb as [y Ey]. rewrite Ex, Ey in *. rewrite fdiv_B.
    destruct x as [| | |sx mx ex Bx]; try discriminate Ex. destruct y as [| | |sy my ey By]; try discriminate Ey. cbn in Ex, Ey. injection Ex as <- <- <-. injection Ey as <- <- <-.
    pose proof (Bdiv_correct 53 1024 Hprec53 Hmax1024 mode_NE (B754_finite false ma ea Bx) (B754_finite false m e By)) as C.
    assert (Px : (0 < B2R (B754_finite false ma ea Bx))%R) by (apply F2R_gt_0; cbn; lia).
    assert (Py : (0 < B2R (B754_finite false m e By))%R) by (apply F2R_gt_0; cbn; lia).
    specialize (C ltac:(lra)). destruct (Rlt_bool _ _) in C.
    + destruct C as (C1 & C2 & _). refine (proj2 (pos_of_R _ (fvalid_B2SF _) _ _)); [rewrite ffinite_B, C2; reflexivity|]. rewrite f2r_B, C1.
      change (0 <= rnd (B2R (B754_finite false ma ea Bx) / B2R (B754_finite false m e By)))%R. rewrite <- rnd_0. apply rnd_le. apply Rlt_le, Rdiv_lt_0_compat; assumption.
    + rewrite C. reflexivity.
  - split; [apply fvalid_div; [reflexivity|exact Vb]|]. reflexivity.
Qed.
Lemma iv_sqrt n x : iv 0 (n * n) x -> (0 <= n)%Z -> small n -> iv 0 n (fsqrt x).
Proof.
  intros [[V F] [H0 H1]] Hn Sn. destruct (sqrt_pos_f x (pos_of_R x V F H0)) as [Vs Hs]. apply fvalid_ex in V as [b ->]. rewrite fsqrt_B in *. rewrite ffinite_B in F. rewrite f2r_B in H0, H1.
  pose proof (Bsqrt_correct 53 1024 Hprec53 Hmax1024 mode_NE b) as (E & Ef & _).
  assert (Fs : ffinite (B2SF (Bsqrt mode_NE b)) = true).
  { rewrite ffinite_B, Ef. destruct b as [|[]| |[] m e B]; try discriminate F; try reflexivity. exfalso. cbn [B2R] in H0.
    assert (F2R (Float radix2 (cond_Zopp true (Z.pos m)) e) < 0)%R by (apply F2R_lt_0; cbn; lia). lra. }
  split; [split; assumption|]. rewrite f2r_B, E. apply rnd_iv; [sm|exact Sn|].
  split; [apply sqrt_pos|]. rewrite <- (sqrt_Rsqr (IZR n)) by (apply IZR_le; lia). apply sqrt_le_1_alt. unfold Rsqr. rewrite mult_IZR in H1. exact H1.
Qed.

Section L.
Context (L : libm) (HL : decent_libm L).
Local Instance NL : Num f64 := num_f64 L.

Lemma cos_iv x : finite_f64 x -> iv (-1) 1 (l_cos L x).
Proof using HL.
  intros F. destruct (dl_cos L HL x F) as ([V _] & H1 & H2). apply (iv_between (-1) 1 (fneg f1) f1); auto.
  - apply (iv_neg 1 1). cst 1.
  - cst 1.
Qed.
Lemma two_pi_iv : iv 0 7 (nmul (nlit 2 1) npi).
Proof.
  apply (iv_between 0 7 (f_of_nat 0) (f_of_nat 7)); [cst 0|cst 7|vm_compute; reflexivity..].
Qed.
(** One term of Rastrigin's function. *)
Lemma term_iv n x : (0 <= n <= 100)%Z -> iv (- n) n x ->
  iv 0 (n * n) (powi x 2) /\ iv (-10) 10 (nmul (nlit 10 1) (ncos (nmul (nmul (nlit 2 1) npi) x))).
Proof using HL.
  intros Hn Hx. split.
  - unfold powi, powi_pos. cbn [nmul nlit NL num_f64]. pose proof (iv_sq n x Hx ltac:(lia) ltac:(unfold small; nia)) as H.
    apply (iv_scale 1 0 (n * n)) with (x := fdiv (f_of_Z 1) (f_of_Z 1)) in H; [rewrite !Z.mul_1_l in H; exact H|cst 1|lia|sm|unfold small; nia].
  - cbn [nmul ncos NL num_f64]. apply (iv_scale 10 (-1) 1); [cst 10| |lia|sm|sm].
    apply cos_iv. eapply (proj1 (A := finite_f64 _)). apply (iv_mul 7 n); [eapply iv_weaken; [exact two_pi_iv|lia|lia]|exact Hx|lia|lia|unfold small; nia].
Qed.
Lemma fold_iv {A} (g : f64 -> A -> f64) lo hi (P : A -> Prop) : (lo <= 0 <= hi)%Z ->
  (forall a b r x, (-100000 <= a <= b)%Z -> (b <= 100000)%Z -> iv a b r -> P x -> iv (a + lo) (b + hi) (g r x)) -> forall xs acc a b,
  Forall P xs -> iv a b acc -> (-100000 <= a + lo * Z.of_nat (length xs))%Z -> (b + hi * Z.of_nat (length xs) <= 100000)%Z ->
  iv (a + lo * Z.of_nat (length xs)) (b + hi * Z.of_nat (length xs)) (foldl g acc xs).
Proof.
  intros Hs Hg. induction xs as [|x xs IH]; intros acc a b HP Ha H1 H2; cbn [foldl length] in *.
  - replace (a + lo * Z.of_nat 0)%Z with a by lia. replace (b + hi * Z.of_nat 0)%Z with b by lia. exact Ha.
  - apply Forall_cons in HP as [Hx HP]. rewrite Nat2Z.inj_succ in *.
    replace (a + lo * Z.succ (Z.of_nat (length xs)))%Z with ((a + lo) + lo * Z.of_nat (length xs))%Z in * by lia.
    replace (b + hi * Z.succ (Z.of_nat (length xs)))%Z with ((b + hi) + hi * Z.of_nat (length xs))%Z in * by lia.
    apply IH; [exact HP| |exact H1|exact H2]. assert (a <= b)%Z by (apply le_IZR; destruct Ha as [_ Ha]; lra). apply Hg; [nia|nia|exact Ha|exact Hx].
Qed.

Lemma rastrigin_iv x : length x = 3 -> Forall (iv (-6) 6) x -> exists v, rastrigin x = Ok v /\ iv 0 168 v.
Proof using HL.
  intros Hl HF. unfold rastrigin. rewrite bool_decide_eq_true_2 by (destruct x; discriminate). cbn [rassert mbind outcome_bind]. eexists. split; [reflexivity|].
  rewrite Hl. cbn [nadd NL num_f64].
  apply (iv_add (-30) 138 30 30); [| |sm|sm].
  - pose proof (fold_iv (fun result x_curr => nadd result (nsub (powi x_curr 2) (nmul (nlit 10 1) (ncos (nmul (nmul (nlit 2 1) npi) x_curr))))) (-10) 46 (iv (-6) 6) ltac:(lia)) as H.
    specialize (H ltac:(intros a b r y Ha Hb Hr Hy; destruct (term_iv 6 y ltac:(lia) Hy) as [T1 T2]; apply iv_add; [exact Hr|apply (iv_sub 0 36 (-10) 10); [exact T1|exact T2|sm|sm]|sm|sm])).
    specialize (H x (nlit 0 1) 0%Z 0%Z HF ltac:(cst 0)). rewrite Hl in H. apply H; lia.
  - apply (iv_scale 10 3 3); [cst 10|cst 3|lia|sm|sm].
Qed.
Lemma own_rastrigin_iv x : length x = 5 -> Forall (iv (-1) 1) x -> iv 0 105 (own_rastrigin L x).
Proof using HL.
  intros Hl HF. unfold own_rastrigin. rewrite Hl. cbn [nadd NL num_f64 num_here].
  apply (iv_add 50 50 (-50) 55); [| |sm|sm].
  - apply (iv_scale 10 5 5); [cst 10|cst 5|lia|sm|sm].
  - pose proof (fold_iv (fun sum x => nsub (nadd sum (powi x 2)) (nmul (nlit 10 1) (ncos (nmul (nmul (nlit 2 1) npi) x)))) (-10) 11 (iv (-1) 1) ltac:(lia)) as H.
    specialize (H ltac:(intros a b r y Ha Hb Hr Hy; destruct (term_iv 1 y ltac:(lia) Hy) as [T1 T2];
      replace (a + -10)%Z with (a + 0 - 10)%Z by lia; replace (b + 11)%Z with (b + 1 - - 10)%Z by lia; apply iv_sub; [apply iv_add; [exact Hr|exact T1|sm|sm]|exact T2|sm|sm])).
    specialize (H x (nlit 0 1) 0%Z 0%Z HF ltac:(cst 0)). rewrite Hl in H. apply H; lia.
Qed.
(** 1000 * exp(-v) *)
Lemma fitness_iv v : iv 0 168 v -> let w := nmul (nlit 1000 1) (nexp (nneg v)) in iv 0 3000 w /\ flt f0 w = true.
Proof using HL.
  intros Hv w. subst w. apply iv_neg in Hv. cbn [nexp nneg nmul nlit NL num_f64].
  assert (Hx : iv 0 3 (l_exp L (fneg v)) /\ flt f0 (l_exp L (fneg v)) = true).
  { pose proof (iv_not_nan _ _ _ Hv) as Hn. destruct Hv as [[V F] Hv]. destruct (dl_exp L HL _ V Hn) as [Ve He]. split.
    - apply (iv_between 0 3 f0 (f_of_nat 3)); [cst 0|cst 3|exact Ve|exact He|]. apply (dl_exp_le L HL); [exact V|].
      apply (iv_le (-168) (-0) _ 1); [split; [split; assumption|exact Hv]|lia|lia].
    - apply (dl_exp_pos L HL); [exact V|]. apply (iv_ge_neg (-168) (-0)); [split; [split; assumption|exact Hv]|lia|lia]. }
  destruct Hx as [Hi Hp]. split; [apply (iv_scale 1000 0 3); [cst 1000|exact Hi|lia|sm|sm]|].
  assert (H1000 : iv 1000 1000 (fdiv (f_of_Z 1000) (f_of_Z 1))) by cst 1000.
  pose proof (iv_scale 1000 0 3 _ _ H1000 Hi ltac:(lia) ltac:(sm) ltac:(sm)) as [[Vw Fw] Hw].
  destruct Hi as [[V F] Hi]. apply flt_R in Hp; auto using fvalid_f0. rewrite f2r_f0 in Hp. apply flt_R; auto using fvalid_f0. rewrite f2r_f0.
  destruct H1000 as [[V1 F1] H1]. destruct (fmul_R _ _ V1 V F1 F) as [E _].
  { apply (small_bound 0 3000); [sm|sm|]. apply rnd_iv; [sm|sm|]. rewrite mult_IZR in Hw. nra. }
  rewrite E. apply Rlt_le_trans with (f2r (l_exp L (fneg v))); [exact Hp|]. rewrite <- (rnd_id _ V) at 1. apply rnd_le. nra.
Qed.
Lemma quarter : finite_f64 (ndiv (nlit 1 1) (of_nat 4)) /\ f2r (ndiv (nlit 1 1) (of_nat 4)) = (1 / 4)%R.
Proof.
  assert (E : ndiv (nlit 1 1) (of_nat 4) =@{f64} S754_finite false 4503599627370496 (-54)) by (vm_compute; reflexivity). rewrite E.
  split; [split; reflexivity|]. unfold f2r, SF2R, F2R. cbn [Fnum Fexp cond_Zopp bpow]. change (Z.pow_pos radix2 54) with 18014398509481984%Z. lra.
Qed.
Lemma exp_iv x lo hi : iv lo hi x -> (hi <= 1)%Z -> iv 0 3 (l_exp L x).
Proof using HL.
  intros Hx Hh. pose proof (iv_not_nan _ _ _ Hx) as Hn. pose proof Hx as [[V F] _]. destruct (dl_exp L HL _ V Hn) as [Ve He].
  apply (iv_between 0 3 f0 (f_of_nat 3)); [cst 0|cst 3|exact Ve|exact He|]. apply (dl_exp_le L HL); [exact V|]. exact (iv_le _ _ _ 1 Hx ltac:(lia) Hh).
Qed.
Lemma ackley_iv x : length x = 4 -> Forall (iv (-1) 1) x -> exists v, ackley x = Ok v /\ iv (-43) 23 v.
Proof using HL.
  destruct x as [|a [|b [|c [|d [|]]]]]; try discriminate. intros _ HF. unfold ackley. rewrite bool_decide_eq_true_2 by discriminate.
  cbn [rassert mbind outcome_bind foldl fst snd length]. eexists. split; [reflexivity|]. rewrite !Forall_cons in HF. destruct HF as (Ha & Hb & Hc & Hd & _).
  assert (Hsq : forall x, iv (-1) 1 x -> iv 0 1 (powi x 2)) by (intros x Hx; apply (term_iv 1 x ltac:(lia) Hx)).
  assert (Hcos : forall x, iv (-1) 1 x -> iv (-1) 1 (ncos (nmul (nmul (nlit 2 1) npi) x))).
  { intros x Hx. apply cos_iv. eapply (proj1 (A := finite_f64 _)). apply (iv_mul 7 1); [eapply iv_weaken; [exact two_pi_iv|lia|lia]|exact Hx|lia|lia|sm]. }
  destruct quarter as [Q1 Q2].
  set (s1 := nadd (nadd (nadd (nadd (nlit 0 1) (powi a 2)) (powi b 2)) (powi c 2)) (powi d 2)).
  assert (H1 : iv 0 4 s1) by (apply (iv_add 0 3 0 1); [apply (iv_add 0 2 0 1); [apply (iv_add 0 1 0 1); [apply (iv_add 0 0 0 1); [cst 0|..]|..]|..]|..]; try (apply Hsq; assumption); sm).
  set (s2 := nadd _ (ncos (nmul _ d))).
  assert (H2 : iv (-4) 4 s2) by (apply (iv_add (-3) 3 (-1) 1); [apply (iv_add (-2) 2 (-1) 1); [apply (iv_add (-1) 1 (-1) 1); [apply (iv_add 0 0 (-1) 1); [cst 0|..]|..]|..]|..]; try (apply Hcos; assumption); sm).
  assert (H3 : iv 0 1 (nmul s1 (ndiv (nlit 1 1) (of_nat 4)))) by (destruct H1 as [F1 H1]; apply iv_mul_by; [exact F1|exact Q1|rewrite Q2; lra|sm|sm]).
  assert (H4 : iv (-1) 1 (nmul s2 (ndiv (nlit 1 1) (of_nat 4)))) by (destruct H2 as [F2 H2]; apply iv_mul_by; [exact F2|exact Q1|rewrite Q2; lra|sm|sm]).
  set (t1 := nmul s1 _) in *. set (t2 := nmul s2 _) in *. clearbody s1 s2 t1 t2.
  pose proof (iv_sqrt 1 t1 H3 ltac:(lia) ltac:(sm)) as H5. change (fsqrt t1) with (nsqrt t1) in H5.
  assert (Hc2 : iv (-1) 0 (nneg (nlit 2 10))).
  { apply (iv_between (-1) 0 (fneg f1) f0); [apply (iv_neg 1 1); cst 1|cst 0|vm_compute; reflexivity..]. }
  assert (H6 : iv (-1) 0 (nmul (nneg (nlit 2 10)) (nsqrt t1))).
  { destruct Hc2 as [Fc Hc2], H5 as [F5 H5]. apply iv_mul_by; [exact Fc|exact F5| |sm|sm]. split; nra. }
  pose proof (exp_iv _ _ _ H6 ltac:(lia)) as H7. pose proof (exp_iv _ _ _ H4 ltac:(lia)) as H8. change (l_exp L) with (nexp (T := f64)) in H7, H8.
  assert (H9 : iv (-60) 0 (nmul (nneg (nlit 20 1)) (nexp (nmul (nneg (nlit 2 10)) (nsqrt t1))))).
  { assert (H20 : iv (-20) (-20) (nneg (nlit 20 1))) by (apply (iv_neg 20 20); cst 20). destruct H20 as [F20 H20], H7 as [F7 H7].
    apply iv_mul_by; [exact F20|exact F7| |sm|sm]. split; nra. }
  apply (iv_add (-43) 20 0 3); [|apply (exp_iv _ 1 1); [cst 1|lia]|sm|sm].
  apply (iv_add (-63) 0 20 20); [|cst 20|sm|sm].
  apply (iv_sub (-60) 0 0 3); [exact H9|exact H8|sm|sm].
Qed.
End L.

(** ** The programs *)
Lemma preset_K {G} (p : ga_params) fit factor count mut gen (K : list G -> Prop) ck m0 s evs b m s' :
  (forall (x y : individual G) r c d r', K (chromosome x) -> K (chromosome y) -> lift_single single_point x y r = Ok ((c, d), r') -> K (chromosome c) /\ K (chromosome d)) ->
  (forall ch r t ch' r' t', K ch -> mut ch r t = Ok (ch', r', t') -> K ch') ->
  (forall r raw r', gen (N.to_nat (gp_size p)) r = Ok (raw, r') -> Forall (fun x => K (chromosome x)) raw) ->
  run (preset_run_config p fit factor count mut gen) ck m0 s = Ok (evs, b, m, s') ->
  all_shown evs (fun x => K (chromosome x)) /\ K (chromosome b).
Proof.
  intros HX HM HG H. destruct (run_K (preset_run_config p fit factor count mut gen) K) with (ck := ck) (m0 := m0) (s := s) (evs := evs) (b := b) (m := m) (s' := s') as [R1 R2]; [..|exact H| |].
  - intros mm pool t ch t' HP E. cbn [op_crossover preset_run_config] in E. apply obind_Ok in E as ([ch1 r] & E1 & E). injection E as <- _.
    exact (crossover_apply_post (lift_single single_point) (fun x => K (chromosome x)) (fun x => K (chromosome x)) pool t.1 ch1 r HP HX E1).
  - intros mm x t x' t' HK E. cbn [op_mutate preset_run_config] in E. apply obind_Ok in E as ([[x1 r] u] & E1 & E). injection E as <- _.
    unfold mutate_individual in E1. apply obind_Ok in E1 as ([[ch r1] t1] & E2 & E1). injection E1 as <- _ _. cbn [chromosome]. eapply HM; eauto.
  - intros mm pop ch t pop' t' _ HC E. cbn in E. injection E as <- _. exact HC.
  - intros raw s1 E. cbn [op_generate preset_run_config population_size] in E. apply obind_Ok in E as ([pop r] & E1 & E). injection E as <- _. eapply HG; exact E1.
  - split; [|exact R2]. intros e q x He Hq Hx. apply (R1 e x He). destruct e; cbn in Hq |- *; try discriminate Hq; injection Hq as <-; auto.
Qed.
(** Everything shown is comparable once every chromosome in [K] has a fitness. *)
Lemma least_shown {G St} (cfg : config G St) (K : list G -> Prop) ck m0 s evs b m s' :
  run cfg ck m0 s = Ok (evs, b, m, s') -> all_shown evs (fun x => K (chromosome x)) -> (forall ch, K ch -> F64.is_nan (op_fitness cfg ch) = false) ->
  (exists e q, e ∈ evs /\ shown e = Some q /\ b ∈ q) /\ all_shown evs (fun x => fle (op_fitness cfg (chromosome b)) (op_fitness cfg (chromosome x)) = true).
Proof.
  intros H HK Hn. destruct (run_evaluated cfg _ _ _ _ _ _ _ H) as (E1 & _ & _ & E2).
  destruct (run_best cfg _ _ _ _ _ _ _ H) as [B1 B2].
  - intros e q x He Hq Hx. rewrite (E1 e q x He Hq Hx). apply Hn. exact (HK e q x He Hq Hx).
  - split; [exact B1|]. intros e q x He Hq Hx. rewrite <- E2, <- (E1 e q x He Hq Hx). exact (B2 e q x He Hq Hx).
Qed.

(** *** ga_bsc.rs *)
Lemma ones_filter ch : length (List.filter (fun gene : bool => gene) ch) = ones ch.
Proof. induction ch as [|[] ch IH]; cbn; [reflexivity|rewrite IH; reflexivity|exact IH]. Qed.
Lemma ones_length ch : ones ch <= length ch.
Proof. induction ch as [|[] ch IH]; cbn; lia. Qed.
Lemma f_of_nat_le a b : (Z.of_nat a <= 2 ^ 53)%Z -> (Z.of_nat b <= 2 ^ 53)%Z -> fle (f_of_nat a) (f_of_nat b) = true -> a <= b.
Proof.
  intros Ha Hb H. destruct (f_of_nat_exact a Ha) as (V1 & F1 & E1), (f_of_nat_exact b Hb) as (V2 & F2 & E2). apply fle_R in H; auto. rewrite E1, E2 in H. apply INR_le. exact H.
Qed.
Definition bsc_config : config bool (rng * rng) :=
  preset_run_config (GAParams 6 usize_max (10 * 10 ^ 9)) wordmax_fitness f_0_2 6 (flip_bit f_0_05) (generate_bit_strings 10).
Lemma bsc_start ck s : ga_bsc_main ck s = run bsc_config ck (fresh_metrics bsc_config) s.
Proof. reflexivity. Qed.
Lemma ga_bsc_result ck s : exists evs b m s', ga_bsc_main ck s = Ok (evs, b, m, s') /\ length (chromosome b) = 10 /\ (exists e q, e ∈ evs /\ shown e = Some q /\ b ∈ q) /\
  all_shown evs (fun x => length (chromosome x) = 10 /\ ones (chromosome b) <= ones (chromosome x)).
Proof.
  assert (Hn : forall ch, length ch = 10 -> F64.is_nan (wordmax_fitness ch) = false).
  { intros ch Hl. unfold wordmax_fitness. rewrite ones_filter. pose proof (ones_length ch). destruct (f_of_nat_exact (ones ch)) as (V & F & _); [lia|]. apply ffinite_not_nan. exact F. }
  destruct (bitstring_end_to_end [PMaxDuration (10 * 10 ^ 9); PFitness wordmax_fitness; PDim 10; PPopulationSize 6]%N 10%N _ bsc_config eq_refl eq_refl eq_refl) as [HR _];
    [exact Hn|cbn [gc_params gp_size]; lia|].
  rewrite bsc_start. destruct (HR eq_refl ck (fresh_metrics bsc_config) s) as (evs & b & m & s' & H). exists evs, b, m, s'. split; [exact H|].
  destruct (fun HX HM HG => preset_K _ _ _ _ _ _ (fun ch => length ch = 10) _ _ _ _ _ _ _ HX HM HG H) as [K1 K2].
  - intros x y r c d r' Hx Hy E. destruct (lift_single_ok 10 x y r ltac:(lia) Hx Hy) as (c2 & d2 & r2 & E2 & H1 & H2). rewrite E in E2. injection E2 as -> -> _. auto.
  - intros ch r t ch' r' t' Hl E. rewrite (flip_length _ _ _ _ _ _ _ E). exact Hl.
  - intros r raw r' E. exact (gen_bits_length 10 _ r raw r' E).
  - split; [exact K2|]. destruct (least_shown bsc_config (fun ch => length ch = 10) _ _ _ _ _ _ _ H K1 Hn) as [B1 B2]. split; [exact B1|].
    intros e q x He Hq Hx. pose proof (K1 e q x He Hq Hx) as Hlx. split; [exact Hlx|]. pose proof (B2 e q x He Hq Hx) as B. cbn [op_fitness bsc_config preset_run_config] in B.
    unfold wordmax_fitness in B. rewrite !ones_filter in B. pose proof (ones_length (chromosome b)). pose proof (ones_length (chromosome x)). cbn beta in K2, Hlx. apply f_of_nat_le in B; lia.
Qed.

(** *** ga_rvc.rs and ga_ackley_test_function.rs *)
Section Rvc.
Context (secs : N) (dim : N) (fit : list f64 -> f64).
Hypothesis Hd : (0 < dim)%N.
Let n := N.to_nat dim.
Hypothesis Hn : forall ch, unit_cube n ch -> F64.is_nan (fit ch) = false.
Definition rvc_config : config f64 (rng * rng) :=
  preset_run_config (GAParams 100 usize_max (secs * 10 ^ 9)) fit f_0_2 100 (interchange f_0_05) (generate_random_points dim).
Lemma rvc_builder debug : realvalued_builder debug [PMaxDuration (secs * 10 ^ 9); PFitness fit; PDim dim]%N =
  Ok (inl (GAConfig (GAParams 100 usize_max (secs * 10 ^ 9)) fit (InterchangeNew f_0_05) SinglePointNew (TournamentNew f_0_2 100) BothParentsNew (RandomPointsNew dim) StdoutProbeNew)).
Proof using Hd. clear Hn. destruct dim as [|d]; [lia|]. destruct debug; reflexivity. Qed.
Lemma rvc_points r raw r' : generate_random_points dim (N.to_nat 100) r = Ok (raw, r') -> Forall (fun x => unit_cube n (chromosome x)) raw.
Proof using Hd. clear Hn.
  intros E. unfold generate_random_points in E. apply obind_Ok in E as (g & E1 & E). apply obind_Ok in E as ([pop g'] & E2 & E). injection E as <- <-.
  pose proof (random_points_default _ _ _ _ _ _ _ E1 E2) as HF2.
  assert (Eg : g = RandomPoints n (replicate n (f0, f1)) r).
  { unfold random_points_with_rng in E1. rewrite bool_decide_eq_true_2 in E1 by (unfold n; lia). cbn [rassert mbind outcome_bind] in E1. injection E1 as <-. reflexivity. }
  assert (HF3 : Forall (fun x => Forall finite_f64 (chromosome x)) pop).
  { apply (random_points_finite _ _ _ _ _ E2). rewrite Eg. cbn [rp_constraints]. apply Forall_forall. intros c Hc. apply elem_of_replicate in Hc as [-> _]. exact proper_unit. }
  destruct (random_points_generate_spec SharedRng g (N.to_nat 100)) as (pop2 & g2 & E3 & _ & _ & _ & HF).
  { rewrite Eg. cbn. rewrite replicate_length. reflexivity. }
  rewrite E2 in E3. injection E3 as <- _. rewrite Forall_forall in HF, HF2, HF3 |- *. intros x Hx. split; [|apply Forall_and; split; [exact (HF3 x Hx)|exact (HF2 x Hx)]].
  destruct (HF x Hx) as [Hl _]. rewrite Hl, Eg. reflexivity.
Qed.
Lemma rvc_result debug ck s : exists evs b m s', start_rvc debug [PMaxDuration (secs * 10 ^ 9); PFitness fit; PDim dim]%N ck s = Ok (evs, b, m, s') /\
  unit_cube n (chromosome b) /\ (exists e q, e ∈ evs /\ shown e = Some q /\ b ∈ q) /\
  all_shown evs (fun x => unit_cube n (chromosome x) /\ fle (fit (chromosome b)) (fit (chromosome x)) = true).
Proof using Hd Hn.
  unfold start_rvc. rewrite rvc_builder. cbn [mbind outcome_bind realvalued_solver gc_mutation gc_generator gc_selection gc_params gc_fitness].
  change (preset_run_config _ _ _ _ _ _) with rvc_config.
  destruct (realvalued_end_to_end debug _ dim _ rvc_config (rvc_builder debug) eq_refl eq_refl) as [HR _].
  - intros ch Hl HF. apply Hn. split; assumption.
  - cbn [gc_params gp_size]. lia.
  - destruct (HR eq_refl ck (fresh_metrics rvc_config) s) as (evs & b & m & s' & H). exists evs, b, m, s'. split; [exact H|].
    destruct (fun HX HM HG => preset_K _ _ _ _ _ _ (unit_cube n) _ _ _ _ _ _ _ HX HM HG H) as [K1 K2].
    + intros x y r c d r' [Hx1 Hx2] [Hy1 Hy2] E. destruct (lift_single_ok n x y r ltac:(unfold n; lia) Hx1 Hy1) as (c2 & d2 & r2 & E2 & H1 & H2). rewrite E in E2. injection E2 as -> -> _.
      unfold lift_single in E. apply obind_Ok in E as ([[c1 d1] r1] & E1 & E). injection E as <- <- <-. cbn [chromosome ind_from] in *.
      destruct (single_point_Forall _ _ _ _ _ _ _ Hx2 Hy2 E1) as [F1 F2]. split; split; assumption.
    + intros ch r t ch' r' t' [Hl HF] E. pose proof (mutation_perm (MutInterchange f_0_05) ch r t ch' r' t' E) as P. unfold unit_cube. rewrite P. auto.
    + intros r raw r' E. exact (rvc_points r raw r' E).
    + split; [exact K2|]. destruct (least_shown rvc_config (unit_cube n) _ _ _ _ _ _ _ H K1 Hn) as [B1 B2]. split; [exact B1|].
      intros e q x He Hq Hx. split; [exact (K1 e q x He Hq Hx)|exact (B2 e q x He Hq Hx)].
Qed.
End Rvc.

Section Real.
Context (L : libm) (HL : decent_libm L).
Notation ackleyL := (@ackley f64 (num_f64 L)).
Lemma cube_iv n ch : unit_cube n ch -> Forall (iv (-1) 1) ch.
Proof.
  intros [_ HF]. eapply Forall_impl; [exact HF|]. intros g (Fg & H0 & H1). apply (iv_weaken 0 1); [|lia|lia].
  apply (iv_between 0 1 f0 f1); [cst 0|cst 1|exact (proj1 Fg)|exact H0|apply flt_le; exact H1].
Qed.
Lemma ga_rvc_result debug ck s : exists evs b m s', ga_rvc_main L debug ck s = Ok (evs, b, m, s') /\
  unit_cube 5 (chromosome b) /\ (exists e q, e ∈ evs /\ shown e = Some q /\ b ∈ q) /\
  all_shown evs (fun x => unit_cube 5 (chromosome x) /\ fle (own_fitness L (chromosome b)) (own_fitness L (chromosome x)) = true).
Proof using HL.
  apply (rvc_result 10 5 (own_fitness L) ltac:(lia)). intros ch Hc.
  pose proof (own_rastrigin_iv L HL ch (proj1 Hc) (cube_iv _ _ Hc)) as Hi.
  destruct (fitness_iv L HL _ (iv_weaken _ _ 0 168 _ Hi ltac:(lia) ltac:(lia))) as [Hw _]. exact (iv_not_nan _ _ _ Hw).
Qed.
Lemma ga_ackley_result debug ck s : exists evs b m s' v, ga_ackley_main L debug ck s = Ok (evs, b, m, s') /\
  unit_cube 4 (chromosome b) /\ (exists e q, e ∈ evs /\ shown e = Some q /\ b ∈ q) /\ ackleyL (chromosome b) = Ok v /\
  all_shown evs (fun x => exists w, unit_cube 4 (chromosome x) /\ ackleyL (chromosome x) = Ok w /\ fle w v = true).
Proof using HL.
  destruct (rvc_result 5 4 (ackley_fitness L) ltac:(lia)) with (debug := debug) (ck := ck) (s := s) as (evs & b & m & s' & E & Hb & Hs & Ha).
  { intros ch Hc. destruct (ackley_iv L HL ch (proj1 Hc) (cube_iv _ _ Hc)) as (v & Ev & Hv). unfold ackley_fitness. change (num_here L) with (num_f64 L). change (NL L) with (num_f64 L) in Ev. rewrite Ev. exact (iv_not_nan _ _ _ (iv_neg _ _ _ Hv)). }
  destruct (ackley_iv L HL _ (proj1 Hb) (cube_iv _ _ Hb)) as (v & Ev & Hv). exists evs, b, m, s', v. split; [exact E|]. split; [exact Hb|]. split; [exact Hs|]. split; [exact Ev|].
  intros e q x He Hq Hx. destruct (Ha e q x He Hq Hx) as [Hc Hle]. destruct (ackley_iv L HL _ (proj1 Hc) (cube_iv _ _ Hc)) as (w & Ew & Hw). exists w. split; [exact Hc|]. split; [exact Ew|].
  unfold ackley_fitness in Hle. change (num_here L) with (num_f64 L) in Hle. change (NL L) with (num_f64 L) in Ew, Ev. rewrite Ev, Ew in Hle. cbn [nneg num_f64] in Hle.
  destruct Hv as [[Vv Fv] _], Hw as [[Vw Fw] _]. apply fle_R in Hle; try (apply neg_fin; split; assumption).
  assert (En : forall y, fvalid y -> f2r (fneg y) = (- f2r y)%R). { intros y [z ->]%fvalid_ex. rewrite fneg_B, !f2r_B. apply B2R_Bopp. }
  rewrite !En in Hle by assumption. apply fle_R; auto. lra.
Qed.

(** *** ga.rs *)
Definition box : list (f64 * f64) := let side := (fneg (f_5_12 L), f_5_12 L) in [side; side; side].
Lemma temp_fin g : fin (temperature (l_powf L) f_0_05 (f_of_nat 80) 500 g).
Proof using HL.
  unfold temperature. set (y := fadd f1 _).
  assert (Hy : pos y).
  { assert (P100 : pnz (f_of_nat 100)) by (apply (pnz_iv 100 100); [cst 100|lia]).
    assert (P500 : pnz (f_of_nat 500)) by (apply (pnz_iv 500 500); [cst 500|lia]).
    apply add_pos; [split; reflexivity|]. apply fdiv_pos; [|exact P500]. apply scale_pos; [exact P100|apply f_of_nat_pos]. }
  destruct Hy as [Vy Py]. clearbody y.
  destruct (dl_powf L HL (fsub f1 f_0_05) y) as (V & H0 & H1); [vm_compute; reflexivity|exact Vy|vm_compute; reflexivity|vm_compute; reflexivity|exact Py|].
  assert (Hi : iv 0 1 (l_powf L (fsub f1 f_0_05) y)) by (apply (iv_between 0 1 f0 f1); [cst 0|cst 1|exact V|exact H0|exact H1]).
  apply (iv_scale 80 0 1 (f_of_nat 80)) in Hi; [exact (proj1 Hi)|cst 80|lia|sm|sm].
Qed.
Context `{EqDecision f64}.
Definition example_config debug : config f64 streams :=
  assemble (N.to_nat 100) (N.to_nat 50000) duration_max (rastrigin_fitness L) (gen_points SharedRng box)
    (SelBoltzmann (l_powf L) (l_exp L) f_0_05 (f_of_nat 80) 500) (fun _ => 100) XoSinglePoint (mutation_fn MutIdentity) (ReplWeakParent debug).
Lemma ga_start debug ck s : ga_main L debug ck s = run (example_config debug) ck (fresh_metrics (example_config debug)) s.
Proof using Type. reflexivity. Qed.
Lemma space_iv ch : in_space box ch -> length ch = 3 /\ Forall (iv (-6) 6) ch.
Proof using Type.
  intros [Hl HF]. split; [exact Hl|]. apply Forall_forall. intros g Hg. destruct (HF g Hg) as (Fg & c & Hc & H1 & H2).
  assert (c = (fneg (f_5_12 L), f_5_12 L)) as ->. { unfold box in Hc. rewrite !elem_of_cons, elem_of_nil in Hc. tauto. } cbn [fst snd] in *.
  assert (H6 : fle (f_5_12 L) (f_of_nat 6) = true) by (vm_compute; reflexivity). assert (H6' : fle (fneg (f_of_nat 6)) (fneg (f_5_12 L)) = true) by (vm_compute; reflexivity).
  apply (iv_between (-6) 6 (fneg (f_of_nat 6)) (f_of_nat 6)); [apply (iv_neg 6 6); cst 6|cst 6|exact (proj1 Fg)|exact (fle_trans _ _ _ H6' H1)|exact (fle_trans _ _ _ H2 H6)].
Qed.
Lemma example_fitness ch : in_space box ch -> iv 0 3000 (rastrigin_fitness L ch) /\ flt f0 (rastrigin_fitness L ch) = true.
Proof using HL.
  intros Hc. destruct (space_iv ch Hc) as [Hl HF]. destruct (rastrigin_iv L HL ch Hl HF) as (v & Ev & Hv). unfold rastrigin_fitness. change (num_here L) with (NL L). rewrite Ev.
  exact (fitness_iv L HL v Hv).
Qed.
Lemma ga_result debug ck s : exists evs b m s', ga_main L debug ck s = Ok (evs, b, m, s') /\ omap new_best evs = [b] /\
  (exists q, head (populations evs) = Some q /\ length q = 100 /\ b ∈ q) /\ (forall e x, e ∈ evs -> mentions e x -> in_space box (chromosome x)) /\
  all_shown evs (fun x => fle (rastrigin_fitness L (chromosome b)) (rastrigin_fitness L (chromosome x)) = true).
Proof using HL.
  rewrite ga_start.
  assert (Hp : Forall proper_range box).
  { assert (P : proper_range (fneg (f_5_12 L), f_5_12 L)) by (repeat split; vm_compute; reflexivity). repeat constructor; exact P. }
  destruct (points_family (N.to_nat 100) (N.to_nat 50000) duration_max (rastrigin_fitness L) SharedRng box (SelBoltzmann (l_powf L) (l_exp L) f_0_05 (f_of_nat 80) 500) (fun _ => 100) XoSinglePoint MutIdentity
    (ReplWeakParent debug) ck (fresh_metrics (example_config debug)) s) as [HR _]; [reflexivity|exact I|discriminate|exact Hp|lia|reflexivity| |].
  - cbn [dependable_on]. split; [vm_compute; reflexivity|]. split; [vm_compute; reflexivity|]. split; [vm_compute; reflexivity|]. split; [vm_compute; reflexivity|]. split.
    + intros ch Hc. destruct (example_fitness ch Hc) as [Hi _]. exact (iv_not_nan _ _ _ Hi).
    + intros ch g Hc. destruct (example_fitness ch Hc) as [Hi Hpos].
      assert (Hz : nz (fneg (rastrigin_fitness L ch))).
      { destruct Hi as [[V F] _]. split; [apply neg_valid; exact V|]. destruct (rastrigin_fitness L ch) as [|[]| |sg mm ee]; try discriminate. cbn. eauto. }
      destruct (fdiv_nn _ _ Hz (temp_fin g)) as [V N]. exact (proj2 (dl_exp L HL _ V N)).
  - destruct (HR eq_refl) as (evs & b & m & s' & H1). fold (example_config debug) in H1. exists evs, b, m, s'. split; [exact H1|].
    destruct (weak_run_best (example_config debug) debug) with (ck := ck) (m0 := fresh_metrics (example_config debug)) (s := s) (evs := evs) (b := b) (m := m) (s' := s') as (Hb & q & Hq & Hbq).
    { intros mm pop ch t pop' t' E. cbn [op_replace example_config assemble replacement_fn] in E. apply obind_Ok in E as (p & E1 & E). injection E as <- _. exact E1. }
    { reflexivity. } { exact H1. }
    split; [exact Hb|]. split.
    { exists q. split; [exact Hq|]. split; [|exact Hbq]. destruct (run_flow _ _ _ _ _ _ _ _ H1) as (raw & s0 & ss & Hg & Hh & _). rewrite Hq in Hh. injection Hh as ->.
      cbn [op_generate example_config assemble population_size] in Hg. apply obind_Ok in Hg as ([pop r] & E1 & E). injection E as <- _.
      destruct (gen_points_spec SharedRng box (N.to_nat 100) (st_gen s)) as (raw2 & r2 & E2 & Hl & _); [discriminate|]. rewrite E1 in E2. injection E2 as -> _. unfold evaluate. rewrite fmap_length. exact Hl. }
    destruct (points_solver (N.to_nat 100) (N.to_nat 50000) duration_max (rastrigin_fitness L) SharedRng box (SelBoltzmann (l_powf L) (l_exp L) f_0_05 (f_of_nat 80) 500) (fun _ => 100) XoSinglePoint MutIdentity
      (ReplWeakParent debug) ck (fresh_metrics (example_config debug)) s) as [_ HS]; [reflexivity|discriminate|exact Hp|]. destruct (HS evs b m s' H1) as [HS1 _]. split; [exact HS1|].
    refine (proj2 (least_shown (example_config debug) (in_space box) _ _ _ _ _ _ _ H1 _ _)).
    + intros e qq x He Hqq Hx. apply (HS1 e x He). destruct e; cbn in Hqq |- *; try discriminate Hqq; injection Hqq as <-; auto.
    + intros ch Hc. destruct (example_fitness ch Hc) as [Hi _]. exact (iv_not_nan _ _ _ Hi).
Qed.
End Real.
