(** * Proofs about the population generators *)
From Verif Require Import SelectionProofs F64R SusProofs.
From Verif Require Export PopulationModel PopulationSpec.
From Coq Require Import Reals Lra Psatz.
From Flocq Require Import Core BinarySingleNaN Plus_error Relative.
Local Existing Instances Hfexp HNE Hprec53 Hmax1024.
Local Instance Hmono53 : Monotone_exp (SpecFloat.fexp 53 1024) := fexp_monotone 53 1024.
Open Scope nat_scope.

(** ** Shape *)
Lemma one_point_spec cs : forall r xs r', one_point cs r = (xs, r') ->
  length xs = length cs /\ forall i c, cs !! i = Some c -> xs !! i = Some (scale c (uni_f64 (rng_skip i r)).1).
Proof.
  induction cs as [|c cs IH]; intros r xs r' H; cbn [one_point] in H.
  - injection H as <- <-. split; [reflexivity|]. intros; discriminate.
  - destruct (uni_f64 r) as [u r1] eqn:E. destruct (one_point cs r1) as [ys r2] eqn:E2. injection H as <- <-.
    destruct (IH _ _ _ E2) as [Hl Hi]. split; [cbn; lia|]. intros [|i] c' Hc.
    + injection Hc as <-. cbn [rng_skip lookup list_lookup]. rewrite E. reflexivity.
    + injection E as _ <-. exact (Hi i c' Hc).
Qed.
Lemma repeatM_Forall {A} (f : rng -> A * rng) (P : A -> Prop) : (forall r, P (f r).1) ->
  forall n r l r', repeatM n f r = (l, r') -> length l = n /\ Forall P l.
Proof.
  intros Hf. induction n as [|n IH]; intros r l r' H; cbn [repeatM] in H; [injection H as <- <-; auto|].
  destruct (f r) as [x r1] eqn:E. destruct (repeatM n f r1) as [xs r2] eqn:E2. injection H as <- <-.
  destruct (IH _ _ _ E2) as [Hl HF]. split; [cbn; lia|]. constructor; [|exact HF]. specialize (Hf r). rewrite E in Hf. exact Hf.
Qed.

Lemma uni_in_unit r : in_unit_draws (uni_f64 r).1.
Proof. exists (r 0%nat mod 2 ^ 52)%N. split; [apply N.mod_lt; discriminate|reflexivity]. Qed.

Lemma generate_points_spec dim n cs r :
  (dim <> length cs -> generate_with_constraints dim n cs r = Panic) /\
  (dim = length cs -> exists pts r', generate_with_constraints dim n cs r = Ok (pts, r') /\ length pts = n /\
     Forall (fun p => Forall2 (fun c x => exists u, in_unit_draws u /\ x = scale c u) cs p) pts).
Proof.
  unfold generate_with_constraints. split; intros H.
  - rewrite (bool_decide_eq_false_2 _ H). reflexivity.
  - rewrite (bool_decide_eq_true_2 _ H). cbn [rassert mbind outcome_bind].
    destruct (repeatM n (one_point cs) r) as [pts r'] eqn:E. eexists _, _. split; [reflexivity|].
    eapply repeatM_Forall; [|exact E]. intros r0. destruct (one_point cs r0) as [xs r1] eqn:E1.
    destruct (one_point_spec _ _ _ _ E1) as [Hl Hi]. apply Forall2_same_length_lookup_2; [cbn; lia|].
    intros i c x Hc Hx. cbn in Hx. rewrite (Hi i c Hc) in Hx. injection Hx as <-. eexists. split; [apply uni_in_unit|reflexivity].
Qed.

(** ** Constraints *)
Lemma FLT_eq : SpecFloat.fexp 53 1024 = FLT_exp (-1074) 53. Proof. reflexivity. Qed.

Lemma rnd_rel x : (bpow radix2 (-1022) <= x)%R -> (rnd x <= x * (1 + bpow radix2 (-53)))%R.
Proof.
  intros H. assert (H0 : (0 < bpow radix2 (-1022))%R) by apply bpow_gt_0.
  pose proof (relative_error_N_FLT radix2 (-1074) 53 eq_refl (fun x => negb (Z.even x)) x) as He.
  rewrite Rabs_pos_eq in He by lra. specialize (He H). change (-53 + 1)%Z with (-52)%Z in He.
  unfold rnd. rewrite FLT_eq. replace (bpow radix2 (-53)) with (/ 2 * bpow radix2 (-52))%R.
  - 
    change (- (53) + 1)%Z with (-52)%Z in He. pose proof (Rle_trans _ _ _ (Rle_abs _) He) as H1. revert H1. generalize (bpow radix2 (-52)) (round radix2 (FLT_exp (-1074) 53) ZnearestE x). clear. intros; lra.
  - change (bpow radix2 (-53)) with (bpow radix2 (-1 + -52)). rewrite bpow_plus. reflexivity.
Qed.

Lemma scaled_le_width (lo hi u : R) : generic_format radix2 (SpecFloat.fexp 53 1024) lo -> generic_format radix2 (SpecFloat.fexp 53 1024) hi ->
  (lo <= hi)%R -> (0 <= u <= 1 - bpow radix2 (-52))%R -> (rnd (rnd (hi - lo) * u) <= hi - lo)%R.
Proof.
  intros Fl Fh Hle Hu. set (d := (hi - lo)%R). assert (Hd : (0 <= d)%R) by (unfold d; lra).
  assert (He : (0 < bpow radix2 (-52) < 1)%R).
  { split; [apply bpow_gt_0|]. change 1%R with (bpow radix2 0). apply bpow_lt. reflexivity. }
  destruct (Rle_dec d (bpow radix2 (-1021))) as [Hs|Hs].
  - assert (Ed : rnd d = d).
    { apply round_generic; auto with typeclass_instances. unfold d, Rminus. rewrite FLT_eq in *.
      apply FLT_format_plus_small; auto with typeclass_instances; [apply generic_format_opp; exact Fl|].
      fold (hi - lo)%R. fold d. rewrite Rabs_pos_eq by exact Hd. exact Hs. }
    rewrite Ed. rewrite <- Ed at 2. apply rnd_le. rewrite <- (Rmult_1_r d) at 2. apply Rmult_le_compat_l; lra.
  - assert (H22 : (bpow radix2 (-1022) <= bpow radix2 (-1021))%R) by (apply bpow_le; lia).
    assert (Hw : (rnd d <= d * (1 + bpow radix2 (-53)))%R) by (apply rnd_rel; lra).
    assert (Hw0 : (0 <= rnd d)%R) by (rewrite <- rnd_0; apply rnd_le; exact Hd).
    destruct (Rle_dec (bpow radix2 (-1022)) (rnd d * u)) as [Hn|Hn].
    + eapply Rle_trans; [apply rnd_rel; exact Hn|].
      assert (E53 : bpow radix2 (-52) = (2 * bpow radix2 (-53))%R).
      { change (-52)%Z with (1 + -53)%Z. rewrite bpow_plus. reflexivity. }
      set (e := bpow radix2 (-53)) in *. assert (e0 : (0 < e)%R) by apply bpow_gt_0.
      rewrite E53 in Hu, He. 
      apply Rle_trans with (d * (1 + e) * (1 - 2 * e) * (1 + e))%R.
      * apply Rmult_le_compat_r; [lra|]. apply Rmult_le_compat; lra.
      * replace (d * (1 + e) * (1 - 2 * e) * (1 + e))%R with (d * ((1 + e) * (1 - 2 * e) * (1 + e)))%R by ring.
        rewrite <- (Rmult_1_r d) at 2. apply Rmult_le_compat_l; [exact Hd|]. nra.
    + apply Rle_trans with (rnd (bpow radix2 (-1022))); [apply rnd_le; lra|].
      unfold rnd. rewrite round_generic; auto with typeclass_instances; [lra|].
      rewrite FLT_eq. apply generic_format_bpow. unfold FLT_exp. cbn. lia.
Qed.

Lemma unit_upper u : in_unit_draws u -> fvalid u /\ ffinite u = true /\ (0 <= f2r u <= 1 - bpow radix2 (-52))%R.
Proof.
  intros (k & Hk & ->). split; [apply fvalid_unit; [lia|exact Hk]|]. split; [apply ffinite_unit|].
  rewrite f2r_unit by (lia || exact Hk). assert (H0 : (0 < bpow radix2 (-52))%R) by apply bpow_gt_0.
  change (- Z.of_N 52)%Z with (-52)%Z. split.
  - apply Rmult_le_pos; [apply IZR_le; lia|lra].
  - assert (Hk' : (IZR (Z.of_N k) <= IZR (2 ^ 52) - 1)%R).
    { rewrite <- minus_IZR. apply IZR_le. apply N2Z.inj_lt in Hk. change (Z.of_N (2 ^ 52)) with (2 ^ 52)%Z in Hk. lia. }
    apply Rle_trans with ((IZR (2 ^ 52) - 1) * bpow radix2 (-52))%R; [apply Rmult_le_compat_r; lra|].
    rewrite Rmult_minus_distr_r. apply Req_le. f_equal; [|lra].
    change (bpow radix2 (-52)) with (/ IZR (2 ^ 52))%R. apply Rinv_r. apply IZR_neq. lia.
Qed.

Lemma fformat x : fvalid x -> generic_format radix2 (SpecFloat.fexp 53 1024) (f2r x).
Proof. intros [a ->]%fvalid_ex. rewrite f2r_B. apply generic_format_B2R. Qed.

Lemma scale_within lo hi u : finite_f64 lo -> finite_f64 hi -> fle lo hi = true -> ffinite (fsub hi lo) = true -> in_unit_draws u ->
  finite_f64 (scale (lo, hi) u) /\ fle lo (scale (lo, hi) u) = true /\ fle (scale (lo, hi) u) hi = true.
Proof.
  intros [Vl Fl] [Vh Fh] Hle Fw Hu. destruct (unit_upper u Hu) as (Vu & Fu & Hu').
  apply fle_R in Hle; auto.
  assert (Hw : f2r (fsub hi lo) = rnd (f2r hi - f2r lo)).
  { destruct (Rlt_le_dec (Rabs (rnd (f2r hi - f2r lo))) BOUND) as [H|H].
    - apply (fsub_R hi lo Vh Vl Fh Fl H).
    - exfalso. revert Fw H. destruct (fvalid_ex hi Vh) as [a ->], (fvalid_ex lo Vl) as [b ->].
      rewrite fsub_B, ffinite_B, !f2r_B. intros Fw H. rewrite ffinite_B in Fh, Fl.
      pose proof (Bminus_correct 53 1024 _ _ mode_NE a b Fh Fl) as C. unfold rnd in H.
      rewrite Rlt_bool_false in C by exact H. destruct C as [C _].
      destruct (Bminus mode_NE a b) as [s|s| |s m e B]; cbn in Fw, C; try discriminate;
      destruct (Bsign a); discriminate. }
  assert (Vw : fvalid (fsub hi lo)) by (apply fvalid_sub; auto).
  assert (Hw0 : (0 <= f2r (fsub hi lo))%R) by (rewrite Hw, <- rnd_0; apply rnd_le; lra).
  assert (Hfw : fle f0 (fsub hi lo) = true) by (apply fle_R; auto using fvalid_f0).
  destruct (fmul_shrinks (fsub hi lo) u Vw Fw Hfw Vu Fu ltac:(pose proof (bpow_gt_0 radix2 (-52)); lra)) as (Vm & Fm & Hm0 & Hm1).
  apply fle_R in Hm0, Hm1; auto using fvalid_f0. rewrite f2r_f0 in Hm0.
  assert (Em : f2r (fmul (fsub hi lo) u) = rnd (rnd (f2r hi - f2r lo) * f2r u)).
  { rewrite <- Hw. apply fmul_R; auto. 
    assert (B : (0 <= rnd (f2r (fsub hi lo) * f2r u) <= f2r (fsub hi lo))%R).
    { pose proof (bpow_gt_0 radix2 (-52)). split.
      - rewrite <- rnd_0. apply rnd_le. apply Rmult_le_pos; lra.
      - rewrite <- (rnd_id (fsub hi lo) Vw) at 2. apply rnd_le. rewrite <- (Rmult_1_r (f2r (fsub hi lo))) at 2. apply Rmult_le_compat_l; lra. }
    rewrite Rabs_pos_eq by lra. pose proof (f2r_bound _ Vw) as B2. rewrite Rabs_pos_eq in B2 by lra. lra. }
  assert (Hup : (f2r (fmul (fsub hi lo) u) <= f2r hi - f2r lo)%R).
  { rewrite Em. apply scaled_le_width; auto using fformat. }
  assert (Hb : (f2r lo <= rnd (f2r (fmul (fsub hi lo) u) + f2r lo) <= f2r hi)%R).
  { split.
    - rewrite <- (rnd_id lo Vl) at 1. apply rnd_le. lra.
    - rewrite <- (rnd_id hi Vh). apply rnd_le. lra. }
  destruct (fadd_R (fmul (fsub hi lo) u) lo Vm Vl Fm Fl) as [Ea Fa].
  { pose proof (f2r_bound _ Vl) as B1. pose proof (f2r_bound _ Vh) as B2. apply Rabs_def2 in B1, B2. apply Rabs_def1; lra. }
  unfold scale. cbn [fst snd]. assert (Va : fvalid (fadd (fmul (fsub hi lo) u) lo)) by (apply fvalid_add; auto).
  split; [split; auto|]. split; apply fle_R; auto; rewrite Ea; lra.
Qed.

(** ** Generators *)
Lemma individuals_props {G} (P : list G -> Prop) (chs : list (list G)) : Forall P chs ->
  Forall (fun x => P (chromosome x) /\ fitness x = fmin) (individuals chs).
Proof. intros H. apply Forall_fmap. eapply Forall_impl; [exact H|]. intros ch Hc. split; [exact Hc|reflexivity]. Qed.
Lemma individuals_length {G} (chs : list (list G)) : length (individuals chs) = length chs.
Proof. apply fmap_length. Qed.

Lemma random_points_construct dim cs r :
  (random_points_with_constraints dim cs r = Panic <-> dim = 0 \/ dim <> length cs) /\
  (forall g, random_points_with_constraints dim cs r = Ok g -> rp_dim g = dim /\ rp_constraints g = cs /\ rp_rng g = r) /\
  (random_points_with_rng dim r = Panic <-> dim = 0) /\
  (forall g, random_points_with_rng dim r = Ok g -> rp_dim g = dim /\ rp_constraints g = replicate dim (f0, f1) /\ rp_rng g = r).
Proof.
  unfold random_points_with_constraints, random_points_with_rng. split_and!.
  - destruct (decide (0 < dim)) as [H|H]; [|rewrite (bool_decide_eq_false_2 _ H); cbn; split; [intros _; lia|reflexivity]].
    rewrite (bool_decide_eq_true_2 _ H). cbn [rassert mbind outcome_bind].
    destruct (decide (dim = length cs)) as [E|E]; [rewrite (bool_decide_eq_true_2 _ E)|rewrite (bool_decide_eq_false_2 _ E)]; cbn; split; intros HH; try discriminate; try reflexivity; try tauto; lia.
  - intros g H. oinv. auto.
  - destruct (decide (0 < dim)) as [H|H]; [rewrite (bool_decide_eq_true_2 _ H)|rewrite (bool_decide_eq_false_2 _ H)]; cbn; split; intros HH; try discriminate; try reflexivity; lia.
  - intros g H. oinv. auto.
Qed.

Lemma random_points_generate_spec kind g count : rp_dim g = length (rp_constraints g) ->
  exists pop g', random_points_generate kind g count = Ok (pop, g') /\ length pop = count /\
    rp_dim g' = rp_dim g /\ rp_constraints g' = rp_constraints g /\
    Forall (fun x => length (chromosome x) = rp_dim g /\ fitness x = fmin) pop.
Proof.
  intros H. unfold random_points_generate. destruct (proj2 (generate_points_spec (rp_dim g) count (rp_constraints g) (rp_rng g)) H) as (pts & r' & -> & Hl & HF).
  cbn [mbind outcome_bind]. eexists _, _. split; [reflexivity|]. rewrite individuals_length. cbn [rp_dim rp_constraints]. split_and!; auto.
  apply (individuals_props (fun ch => length ch = rp_dim g)). eapply Forall_impl; [exact HF|]. intros p Hp. apply Forall2_length in Hp. congruence.
Qed.
Lemma random_points_generate_mismatch kind g count : rp_dim g <> length (rp_constraints g) -> random_points_generate kind g count = Panic.
Proof. intros H. unfold random_points_generate. rewrite (proj1 (generate_points_spec _ _ _ _) H). reflexivity. Qed.

Lemma random_points_within kind g count pop g' : random_points_generate kind g count = Ok (pop, g') ->
  Forall proper_range (rp_constraints g) ->
  Forall (fun x => Forall2 (fun c v => fle c.1 v = true /\ fle v c.2 = true) (rp_constraints g) (chromosome x)) pop.
Proof.
  intros H Hc. unfold random_points_generate in H. apply obind_Ok in H as ([pts r1] & H1 & H). injection H as <- <-.
  destruct (generate_points_spec (rp_dim g) count (rp_constraints g) (rp_rng g)) as [A B].
  destruct (decide (rp_dim g = length (rp_constraints g))) as [E|E]; [|rewrite (A E) in H1; discriminate].
  destruct (B E) as (pts' & r' & E' & _ & HF). rewrite H1 in E'. injection E' as <- <-.
  apply Forall_fmap. eapply Forall_impl; [exact HF|]. intros p Hp. cbn. clear -Hp Hc.
  induction Hp as [|[lo hi] x cs xs (u & Hu & ->) Hp IH]; [constructor|]. apply Forall_cons in Hc as [(Fl & Fh & Hle & Fw) Hc].
  constructor; [|auto]. cbn in *. destruct (scale_within lo hi u Fl Fh Hle Fw Hu) as (_ & ? & ?). auto.
Qed.

(** Every vector of draws is possible. *)
Lemma uni_surj u rest : in_unit_draws u -> exists r, uni_f64 r = (u, rest).
Proof.
  intros (k & Hk & ->). exists (fun n => match n with 0 => k | S n => rest n end). unfold uni_f64.
  rewrite N.mod_small by exact Hk. reflexivity.
Qed.

(** The default constraints: the coordinates are the draws themselves. *)
Lemma scale_default u : in_unit_draws u -> scale (f0, f1) u = u.
Proof.
  intros (k & Hk & ->). unfold scale. cbn [fst snd]. change (fsub f1 f0) with f1.
  pose proof (fvalid_unit 52 k ltac:(lia) Hk) as V. pose proof (ffinite_unit 52 k) as F.
  destruct (f_unit 52 k) as [s|s| |s m e] eqn:E; try discriminate.
  - destruct k; [|discriminate]. injection E as <-. reflexivity.
  - assert (s = false) as -> by (destruct k; [discriminate|injection E; auto]).
    destruct (fmul_R f1 (S754_finite false m e) fvalid_f1 V eq_refl eq_refl) as [Em Fm].
    { rewrite f2r_f1, Rmult_1_l. rewrite rnd_id by exact V. apply f2r_bound. exact V. }
    rewrite f2r_f1, Rmult_1_l, rnd_id in Em by exact V.
    assert (Vm : fvalid (fmul f1 (S754_finite false m e))) by (apply fvalid_mul; auto using fvalid_f1).
    assert (Ee : fmul f1 (S754_finite false m e) = S754_finite false m e).
    { destruct (fvalid_ex _ Vm) as [a Ea], (fvalid_ex _ V) as [b Eb]. rewrite Ea, Eb in *. f_equal.
      rewrite !f2r_B in Em. rewrite ffinite_B in Fm. apply B2R_Bsign_inj; auto.
      - destruct b; try discriminate; reflexivity.
      - assert (0 < B2R b)%R.
        { rewrite <- f2r_B, <- Eb. unfold f2r, SF2R, F2R. cbn [Fnum Fexp cond_Zopp].
          apply Rmult_lt_0_compat; [apply IZR_lt; lia|apply bpow_gt_0]. }
        assert (Sb : Bsign b = false) by (destruct b; try discriminate; injection Eb as <-; reflexivity). rewrite Sb.
        destruct a as [sa|sa| |[|] ma ea Ba]; try discriminate; try reflexivity; exfalso; cbn in Em.
        + lra.
        + rewrite <- Em in H. unfold F2R in H. cbn [Fnum Fexp cond_Zopp] in H.
          assert (H1 : (IZR (Z.neg ma) < 0)%R) by (apply IZR_lt; lia).
          pose proof (Rmult_lt_compat_r _ _ _ (bpow_gt_0 radix2 ea) H1) as H2. rewrite Rmult_0_l in H2.
          exact (Rlt_irrefl _ (Rlt_trans _ _ _ H H2)). }
    rewrite Ee. reflexivity.
Qed.

Lemma random_points_finite kind g count pop g' : random_points_generate kind g count = Ok (pop, g') ->
  Forall proper_range (rp_constraints g) -> Forall (fun x => Forall finite_f64 (chromosome x)) pop.
Proof.
  intros H Hc. unfold random_points_generate in H. apply obind_Ok in H as ([pts r1] & H1 & H). injection H as <- <-.
  destruct (generate_points_spec (rp_dim g) count (rp_constraints g) (rp_rng g)) as [A B].
  destruct (decide (rp_dim g = length (rp_constraints g))) as [E|E]; [|rewrite (A E) in H1; discriminate].
  destruct (B E) as (pts' & r' & E' & _ & HF). rewrite H1 in E'. injection E' as <- <-.
  apply Forall_fmap. eapply Forall_impl; [exact HF|]. intros p Hp. cbn. clear -Hp Hc.
  induction Hp as [|[lo hi] x cs xs (u & Hu & ->) Hp IH]; [constructor|]. apply Forall_cons in Hc as [(Fl & Fh & Hle & Fw) Hc].
  constructor; [|auto]. cbn in *. exact (proj1 (scale_within lo hi u Fl Fh Hle Fw Hu)).
Qed.
Lemma proper_unit : proper_range (f0, f1).
Proof. repeat split; vm_compute; reflexivity. Qed.

Lemma random_points_default kind dim r g count pop g' : random_points_with_rng dim r = Ok g ->
  random_points_generate kind g count = Ok (pop, g') ->
  Forall (fun x => Forall (fun v => fle f0 v = true /\ flt v f1 = true) (chromosome x)) pop.
Proof.
  intros Hg H. destruct (random_points_construct dim [] r) as (_ & _ & _ & C). destruct (C g Hg) as (Hd & Hc & Hr).
  unfold random_points_generate in H. apply obind_Ok in H as ([pts r1] & H1 & H). injection H as <- <-.
  destruct (generate_points_spec (rp_dim g) count (rp_constraints g) (rp_rng g)) as [A B].
  destruct (decide (rp_dim g = length (rp_constraints g))) as [E|E]; [|rewrite (A E) in H1; discriminate].
  destruct (B E) as (pts' & r' & E' & _ & HF). rewrite H1 in E'. injection E' as <- <-.
  apply Forall_fmap. eapply Forall_impl; [exact HF|]. intros p Hp. cbn. rewrite Hc in Hp. clear -Hp. revert dim Hp.
  induction p as [|x xs IH]; intros dim Hp; [constructor|]. destruct dim as [|dim]; [inversion Hp|]. cbn in Hp.
  apply Forall2_cons in Hp as [(u & Hu & ->) Hp]. constructor; [|eauto]. rewrite scale_default by exact Hu.
  destruct Hu as (k & Hk & ->). apply f_unit_range. exact Hk.
Qed.

Lemma bit_strings_spec g count : exists pop g', bit_strings_generate g count = (pop, g') /\ length pop = count /\ bs_dim g' = bs_dim g /\
  Forall (fun x => length (chromosome x) = bs_dim g /\ fitness x = fmin) pop.
Proof.
  unfold bit_strings_generate. destruct (repeatM count (repeatM (bs_dim g) gen_bool) (bs_rng g)) as [rows r1] eqn:E.
  eexists _, _. split; [reflexivity|]. rewrite individuals_length.
  destruct (repeatM_Forall (repeatM (bs_dim g) gen_bool) (fun ch => length ch = bs_dim g)) with (2 := E) as [Hl HF].
  - intros r. destruct (repeatM (bs_dim g) gen_bool r) as [l r'] eqn:E'. apply repeatM_length in E'. exact E'.
  - split_and!; auto. apply (individuals_props (fun ch => length ch = bs_dim g)). exact HF.
Qed.
Lemma bits_surj (row : list bool) rest : exists r, repeatM (length row) gen_bool r = (row, rest).
Proof.
  induction row as [|b row IH]; [exists rest; reflexivity|]. destruct IH as [r Hr].
  exists (fun n => match n with 0 => if b then 1%N else 0%N | S n => r n end). cbn [length repeatM]. unfold gen_bool at 1.
  change (rng_tail _) with r. rewrite Hr. destruct b; reflexivity.
Qed.
Lemma bit_strings_surj dim (rows : list (list bool)) : Forall (fun row => length row = dim) rows ->
  exists r r', bit_strings_generate (BitStrings dim r) (length rows) = (individuals rows, BitStrings dim r').
Proof.
  intros H. assert (Hr : exists r, repeatM (length rows) (repeatM dim gen_bool) r = (rows, fun _ => 0%N)).
  { induction H as [|row rows Hd Hrs IH]; [eexists; reflexivity|]. destruct IH as [r Hr].
    destruct (bits_surj row r) as [r1 H1]. exists r1. cbn [length repeatM]. rewrite <- Hd at 1. rewrite H1, Hr. reflexivity. }
  destruct Hr as [r Hr]. exists r. eexists. unfold bit_strings_generate. cbn [bs_dim bs_rng]. rewrite Hr. reflexivity.
Qed.

Lemma repeatO_Forall {A} (f : rng -> outcome (A * rng)) (P : A -> Prop) : (forall r, exists x r', f r = Ok (x, r') /\ P x) ->
  forall n r, exists l r', repeatO n f r = Ok (l, r') /\ length l = n /\ Forall P l.
Proof.
  intros Hf. induction n as [|n IH]; intros r; [exists [], r; auto|]. destruct (Hf r) as (x & r1 & E & Hx).
  destruct (IH r1) as (l & r2 & E2 & Hl & HF). exists (x :: l), r2. cbn [repeatO]. rewrite E. cbn [mbind outcome_bind]. rewrite E2. cbn.
  split_and!; auto.
Qed.
Lemma random_permutations_spec {G} (g : random_permutations G) count :
  exists pop g', random_permutations_generate g count = Ok (pop, g') /\ length pop = count /\ perm_genes g' = perm_genes g /\
  Forall (fun x => chromosome x ≡ₚ perm_genes g /\ fitness x = fmin) pop.
Proof.
  unfold random_permutations_generate.
  destruct (repeatO_Forall (shuffle (perm_genes g)) (fun ch => ch ≡ₚ perm_genes g)) with (n := count) (r := perm_rng g) as (rows & r' & -> & Hl & HF).
  - intros r. destruct (shuffle_ok (perm_genes g) r) as (l & r' & E). exists l, r'. split; [exact E|]. eapply shuffle_perm; eauto.
  - cbn [mbind outcome_bind]. eexists _, _. split; [reflexivity|]. rewrite individuals_length. split_and!; auto.
    apply (individuals_props (fun ch => ch ≡ₚ perm_genes g)). exact HF.
Qed.
Lemma random_permutations_surj {G} (genes : list G) (rows : list (list G)) : Forall (fun row => row ≡ₚ genes) rows ->
  exists r r', random_permutations_generate (RandomPermutations genes r) (length rows) = Ok (individuals rows, RandomPermutations genes r').
Proof.
  intros H. assert (Hr : exists r, repeatO (length rows) (shuffle genes) r = Ok (rows, fun _ => 0%N)).
  { induction H as [|row rows Hd Hrs IH]; [eexists; reflexivity|]. destruct IH as [r Hr].
    destruct (shuffle_surj genes row r Hd) as [r1 H1]. exists r1. cbn [length repeatO]. rewrite H1. cbn [mbind outcome_bind]. rewrite Hr. reflexivity. }
  destruct Hr as [r Hr]. exists r. eexists. unfold random_permutations_generate. cbn [perm_genes perm_rng]. rewrite Hr. reflexivity.
Qed.

Lemma random_points_repeats g count pop g' : random_points_generate ValueRng g count = Ok (pop, g') ->
  g' = g /\ random_points_generate ValueRng g' count = Ok (pop, g').
Proof.
  intros H. assert (E : g' = g).
  { unfold random_points_generate in H. apply obind_Ok in H as ([pts r1] & H1 & H). injection H as _ <-. cbn [after_clone]. destruct g; reflexivity. }
  rewrite E in *. auto.
Qed.

Lemma random_points_all dim cs r kind count :
  (random_points_with_constraints dim cs r = Panic <-> dim = 0 \/ dim <> length cs) /\
  (random_points_with_rng dim r = Panic <-> dim = 0) /\
  forall g, (random_points_with_constraints dim cs r = Ok g \/ random_points_with_rng dim r = Ok g) ->
  exists pop g', random_points_generate kind g count = Ok (pop, g') /\ length pop = count /\
    rp_dim g' = dim /\ rp_constraints g' = rp_constraints g /\
    Forall (fun x => length (chromosome x) = dim /\ fitness x = fmin) pop.
Proof.
  destruct (random_points_construct dim cs r) as (C1 & C2 & C3 & C4). split; [exact C1|]. split; [exact C3|]. intros g Hg.
  assert (Hd : rp_dim g = dim /\ rp_dim g = length (rp_constraints g)).
  { destruct Hg as [H|H].
    - destruct (C2 g H) as (E1 & E2 & _). split; [exact E1|]. rewrite E1, E2.
      destruct (decide (dim = length cs)); [assumption|]. rewrite (proj2 C1 ltac:(auto)) in H. discriminate.
    - destruct (C4 g H) as (E1 & E2 & _). rewrite E1, E2, replicate_length. auto. }
  destruct Hd as [Hd Hl]. destruct (random_points_generate_spec kind g count Hl) as (pop & g' & E & H1 & H2 & H3 & H4).
  exists pop, g'. rewrite Hd in *. auto.
Qed.
