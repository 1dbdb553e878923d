(** * Stochastic universal sampling: termination and its failures *)
From Verif Require Import SelectionProofs F64R SelectionRProofs.
From Coq Require Import Reals Lra Psatz.
From Flocq Require Import Core BinarySingleNaN Plus_error Relative.
Local Existing Instances Hfexp HNE Hprec53 Hmax1024.
Local Instance Hmono53 : Monotone_exp (SpecFloat.fexp 53 1024) := fexp_monotone 53 1024.
Open Scope nat_scope.

(** ** Bit patterns *)
Lemma fvalid_of_bits n : fvalid (f_of_bits n).
Proof.
  unfold f_of_bits. cbv zeta.
  assert (He : ((n / 2 ^ 52) mod 2048 < 2048)%N) by (apply N.mod_lt; discriminate).
  assert (Hm : (n mod 2 ^ 52 < 2 ^ 52)%N) by (apply N.mod_lt; discriminate).
  revert He Hm. generalize ((n / 2 ^ 52) mod 2048)%N (n mod 2 ^ 52)%N. intros e m He Hm.
  set (s := N.odd _). clearbody s.
  assert (Hnorm : (0 < e)%N -> (e < 2047)%N ->
    fvalid match (m + 2 ^ 52)%N with N0 => S754_nan | Npos p => S754_finite s p (Z.of_N e - 1075) end).
  { intros H0 H1. destruct (m + 2 ^ 52)%N as [|p] eqn:E; [reflexivity|].
    assert (Hp : (2 ^ 52 <= Z.pos p < 2 ^ 53)%Z) by lia.
    unfold fvalid, SpecFloat.valid_binary, SpecFloat.bounded, SpecFloat.canonical_mantissa.
    assert (Hd : Z.pos (SpecFloat.digits2_pos p) = 53%Z).
    { rewrite Digits.Zpos_digits2_pos. apply Digits.Zdigits_unique. rewrite Z.abs_eq by lia. exact Hp. }
    rewrite Hd. unfold SpecFloat.fexp, SpecFloat.emin. apply andb_true_iff. split; [apply Zeq_bool_true; lia|apply Zle_bool_true; lia]. }
  destruct e as [|pe].
  - destruct m as [|p]; [reflexivity|]. unfold fvalid, SpecFloat.valid_binary, SpecFloat.bounded, SpecFloat.canonical_mantissa.
    assert (Hp : (Z.pos p < 2 ^ 52)%Z) by lia.
    assert (Hd : (Z.pos (SpecFloat.digits2_pos p) <= 52)%Z).
    { rewrite Digits.Zpos_digits2_pos. apply Digits.Zdigits_le_Zpower. rewrite Z.abs_eq by lia. exact Hp. }
    unfold SpecFloat.fexp, SpecFloat.emin. apply andb_true_iff. split; [apply Zeq_bool_true; lia|reflexivity].
  - destruct (decide (N.pos pe = 2047)%N) as [Heq|Hne].
    + injection Heq as ->. destruct m; reflexivity.
    + specialize (Hnorm ltac:(lia) ltac:(lia)). clear He Hm.
      repeat (destruct pe as [pe|pe|]; try exact Hnorm). congruence.
Qed.

Lemma gen_range_f64_Ok lo hi r v r' : gen_range_f64 lo hi r = Ok (v, r') -> fvalid lo ->
  fvalid v /\ ffinite v = true /\ ffinite lo = true /\ ffinite hi = true /\ fle lo v = true /\ fle v hi = true /\ r' = rng_tail r.
Proof.
  unfold gen_range_f64. intros H V.
  destruct (fle lo hi && fgt hi (S754_infinity true) && flt lo finf && fgt lo (S754_infinity true) && flt hi finf) eqn:E; [|discriminate].
  repeat rewrite andb_true_iff in E. destruct E as [[[[E1 E2] E3] E4] E5].
  assert (Fl : ffinite lo = true) by (destruct lo as [s|s| |s m e]; try reflexivity; try destruct s; cbn in *; discriminate).
  assert (Fh : ffinite hi = true) by (destruct hi as [s|s| |s m e]; try reflexivity; try destruct s; cbn in *; discriminate).
  injection H as <- <-. destruct (fle lo (f_of_bits (r 0)) && fle (f_of_bits (r 0)) hi) eqn:E6.
  - apply andb_true_iff in E6 as [E6 E7]. split_and!; auto using fvalid_of_bits.
    destruct (f_of_bits (r 0)) as [s|s| |s m e]; try reflexivity.
    + destruct s; [destruct lo as [[]|[]| |[] ? ?]|destruct hi as [[]|[]| |[] ? ?]]; cbn in *; discriminate.
    + destruct lo as [[]|[]| |[] ? ?]; cbn in *; discriminate.
  - split_and!; auto. apply fle_refl. apply ffinite_not_nan; auto.
Qed.

(** ** Addition of nonnegative numbers *)
Lemma fadd_pos x y : fvalid x -> fvalid y -> ffinite x = true -> ffinite y = true -> (0 <= f2r x)%R -> (0 <= f2r y)%R ->
  (ffinite (fadd x y) = true /\ f2r (fadd x y) = rnd (f2r x + f2r y)) \/ fadd x y = finf.
Proof.
  intros Vx Vy Fx Fy Hx Hy.
  destruct (Rlt_le_dec (Rabs (rnd (f2r x + f2r y))) BOUND) as [H|H].
  - left. destruct (fadd_R x y Vx Vy Fx Fy H) as [E1 E2]. split; auto.
  - right. destruct (fvalid_ex x Vx) as [a Ea], (fvalid_ex y Vy) as [b Eb]. subst x y.
    rewrite fadd_B. rewrite ffinite_B in *. rewrite f2r_B in *.
    pose proof (Bplus_correct 53 1024 Hprec53 Hmax1024 mode_NE a b Fx Fy) as C.
    rewrite f2r_B in *. unfold rnd in H. cbn [round_mode] in C.
    rewrite Rlt_bool_false in C by exact H. destruct C as [C1 C2]. rewrite C1. unfold binary_overflow. cbn.
    destruct a as [sa|sa| |sa ma ea Ba]; try discriminate; cbn [Bsign].
    + exfalso. cbn [B2R] in H. rewrite Rplus_0_l in H. rewrite round_generic in H; auto with typeclass_instances.
      2:{ apply generic_format_B2R. } pose proof (abs_B2R_lt_emax 53 1024 b). lra.
    + destruct sa; [|reflexivity]. exfalso. cbn [B2R] in Hx. pose proof (F2R_lt_0 radix2 (Float radix2 (cond_Zopp true (Z.pos ma)) ea) ltac:(cbn; lia)). lra.
Qed.

Lemma rnd_plus_error x y : fvalid x -> fvalid y -> (0 <= f2r x)%R -> (0 <= f2r y)%R ->
  ((f2r x + f2r y) * (1 - / 9007199254740992) <= rnd (f2r x + f2r y))%R.
Proof.
  intros Vx Vy Hx Hy. destruct (fvalid_ex x Vx) as [a Ea], (fvalid_ex y Vy) as [b Eb]. subst x y. rewrite f2r_B in *. rewrite f2r_B in *.
  destruct (@FLT_plus_error_N_ex radix2 (-1074)%Z 53%Z eq_refl (fun x => negb (Z.even x)) (B2R a) (B2R b)) as (eps & He & E).
  { apply (generic_format_B2R 53 1024 a). }
  { apply (generic_format_B2R 53 1024 b). }
  unfold rnd. change (SpecFloat.fexp 53 1024) with (FLT_exp (-1074) 53). change ZnearestE with (Znearest (fun x => negb (Z.even x))).
  rewrite E. apply Rmult_le_compat_l; [lra|].
  assert (Hu : (u_ro radix2 53 / (1 + u_ro radix2 53) <= / 9007199254740992)%R).
  { unfold u_ro. change (bpow radix2 (-(53) + 1)) with (/ IZR 4503599627370496)%R. 
    apply Rmult_le_reg_r with (1 + / 2 * / 4503599627370496)%R; [lra|]. unfold Rdiv. rewrite Rmult_assoc, Rinv_l by lra. lra. }
  apply Rabs_def2b in He as [? _] || apply Rabs_le_inv in He. lra.
Qed.

(** ** Cumulative sums of nonnegative numbers *)
Lemma nonneg_R x : nonneg_finite x -> (0 <= f2r x)%R.
Proof. intros (V & F & H). apply fle_R in H; auto using fvalid_f0. Qed.
Lemma nonneg_of_R x : fvalid x -> ffinite x = true -> (0 <= f2r x)%R -> nonneg_finite x.
Proof. intros V F H. split_and!; auto. apply fle_R; auto using fvalid_f0; exact H. Qed.

Lemma fadd_inf_nonneg x : nonneg_finite x -> fadd finf x = finf.
Proof. intros (V & F & H). destruct x as [s|s| |s m e]; try discriminate; reflexivity. Qed.
Lemma foldl_inf l : Forall nonneg_finite l -> foldl fadd finf l = finf.
Proof. induction 1 as [|x l Hx _ IH]; [reflexivity|]. cbn [foldl]. rewrite fadd_inf_nonneg by auto. exact IH. Qed.
Lemma fadd_nonneg x y : nonneg_finite x -> nonneg_finite y ->
  (nonneg_finite (fadd x y) /\ (f2r x <= f2r (fadd x y))%R) \/ fadd x y = finf.
Proof.
  intros Hx Hy. pose proof (nonneg_R _ Hx) as Rx. pose proof (nonneg_R _ Hy) as Ry.
  destruct Hx as (Vx & Fx & _), Hy as (Vy & Fy & _).
  destruct (fadd_pos x y Vx Vy Fx Fy Rx Ry) as [[F E]|E]; [left|right; exact E].
  assert (Hle : (f2r x <= f2r (fadd x y))%R).
  { rewrite E. rewrite <- (rnd_id x Vx) at 1. apply rnd_le. lra. }
  split; [|exact Hle]. apply nonneg_of_R; auto using fvalid_add. lra.
Qed.
Lemma foldl_mono l : forall acc, nonneg_finite acc -> Forall nonneg_finite l -> ffinite (foldl fadd acc l) = true ->
  nonneg_finite (foldl fadd acc l) /\ (f2r acc <= f2r (foldl fadd acc l))%R.
Proof.
  induction l as [|x l IH]; intros acc Ha Hl F; [split; [exact Ha|apply Rle_refl]|].
  inversion_clear Hl as [|? ? Hx Hl']. cbn [foldl] in *. destruct (fadd_nonneg acc x Ha Hx) as [[Hn Hle]|E].
  - destruct (IH _ Hn Hl' F) as [H1 H2]. split; [exact H1|]. lra.
  - rewrite E, foldl_inf in F by auto. discriminate.
Qed.
Lemma foldl_fin_prefix l1 : forall l2 acc, nonneg_finite acc -> Forall nonneg_finite (l1 ++ l2) -> ffinite (foldl fadd acc (l1 ++ l2)) = true ->
  nonneg_finite (foldl fadd acc l1) /\ (f2r (foldl fadd acc l1) <= f2r (foldl fadd acc (l1 ++ l2)))%R.
Proof.
  intros l2 acc Ha Hall F. apply Forall_app in Hall as [H1 H2]. rewrite foldl_app in *.
  destruct (decide (ffinite (foldl fadd acc l1) = true)) as [F1|F1].
  - destruct (foldl_mono l1 acc Ha H1 F1) as [N _]. split; [exact N|].
    destruct (foldl_mono l2 _ N H2 F) as [_ ?]. exact H.
  - exfalso. apply F1. clear F1. revert acc Ha F. induction H1 as [|x l1 Hx Hl1 IH]; intros acc Ha F; [apply Ha|].
    cbn [foldl] in *. destruct (fadd_nonneg acc x Ha Hx) as [[Hn _]|E]; [auto|].
    rewrite E, (foldl_inf l1), (foldl_inf l2) in F by auto. discriminate.
Qed.
Lemma nonneg_f0 : nonneg_finite f0. Proof. split_and!; reflexivity. Qed.

(** ** Termination of the pointer loop *)
Section Term.
Variables (total d : f64) (count : nat).
Hypothesis Hd : nonneg_finite d.
Hypothesis Hdpos : (0 < f2r d)%R.
Hypothesis Htd : (f2r total <= 1.5 * INR count * f2r d)%R.
Hypothesis Hcount : (Z.of_nat count <= 2 ^ 50)%Z.

Definition good_pointer (p : f64) (k : nat) : Prop :=
  p = finf \/ (nonneg_finite p /\ (INR k * (f2r d / 2) <= f2r p)%R).

Lemma good_pointer_step p k cs : good_pointer p k -> fle p cs = true -> nonneg_finite cs -> (f2r cs <= f2r total)%R ->
  good_pointer (fadd p d) (S k) /\ k <= 3 * count.
Proof.
  intros Hp Hle Hcs Hct. destruct Hp as [->|[Hp Hk]].
  { destruct Hcs as (_ & F & _). destruct cs as [s|s| |[] m e]; cbn in *; discriminate. }
  pose proof (nonneg_R _ Hp) as Rp. apply fle_R in Hle; [|apply Hp|apply Hcs|apply Hp|apply Hcs].
  assert (Hc53 : (INR count <= 1125899906842624)%R).
  { rewrite INR_IZR_INZ. apply IZR_le. lia. }
  split.
  - destruct (fadd_nonneg p d Hp Hd) as [[Hn _]|E]; [right|left; exact E]. split; [exact Hn|].
    destruct Hp as (Vp & Fp & _), Hd as (Vd & Fd & _).
    destruct (fadd_pos p d Vp Vd Fp Fd Rp ltac:(lra)) as [[_ E]|E].
    2:{ rewrite E in Hn. destruct Hn as (_ & Hn & _). discriminate. }
    rewrite E, S_INR. pose proof (rnd_plus_error p d Vp Vd Rp ltac:(lra)) as Herr.
    assert (Hc0 : (0 <= INR count)%R) by apply pos_INR.
    assert (f2r total <= 1.5 * 1125899906842624 * f2r d)%R by nra.
    lra.
  - destruct (decide (k <= 3 * count)) as [|Hgt]; [assumption|exfalso].
    assert (INR (3 * count + 1) <= INR k)%R by (apply le_INR; lia).
    rewrite plus_INR, mult_INR in H. change (INR 3) with (IZR 3) in H || (replace (INR 3) with 3%R in H by (cbn; lra)).
    cbn [INR] in H. nra.
Qed.

Lemma sus_while_terminates cs i : nonneg_finite cs -> (f2r cs <= f2r total)%R -> forall fuel p sel,
  good_pointer p (length sel) -> (3 * count + 1 < fuel + length sel) ->  0 < fuel ->
  exists p' sel', sus_while fuel cs d i p sel = Ok (p', sel') /\ good_pointer p' (length sel').
Proof.
  intros Hcs Hct. induction fuel as [|fuel IH]; intros p sel Hp Hf H0; [lia|].
  cbn [sus_while]. unfold fge. destruct (fle p cs) eqn:E; [|eauto].
  destruct (good_pointer_step p _ cs Hp E Hcs Hct) as [Hp' Hk].
  apply IH; rewrite ?app_length; cbn [length]; rewrite ?Nat.add_1_r; auto; lia.
Qed.
End Term.

Section Sus.
Context {G : Type}.
Notation population := (list (individual G)).

Lemma sus_terminates fuel count (pop : population) r :
  Forall (fun p => nonneg_finite (fitness p)) pop -> ffinite (total_fitness pop) = true ->
  (Z.of_nat count <= 2 ^ 50)%Z -> 3 * count + 2 <= fuel -> sus fuel count pop r <> Diverge.
Proof.
  intros Hn Ft Hc Hfuel. unfold sus. set (total := total_fitness pop) in *. set (d := fdiv total (f_of_nat count)).
  destruct (fgt d f0) eqn:Hd; [|discriminate]. cbn [rassert mbind outcome_bind].
  destruct (gen_range_f64 f0 d r) as [[p0 r1]| |] eqn:Ep; [|discriminate|].
  2:{ exfalso. unfold gen_range_f64 in Ep. repeat case_match; discriminate. }
  cbn [mbind outcome_bind].
  destruct (gen_range_f64_Ok _ _ _ _ _ Ep fvalid_f0) as (Vp & Fp & _ & Fd & H0p & Hpd & _).
  assert (Hfs : Forall nonneg_finite (fitness <$> pop)) by (apply Forall_fmap; exact Hn).
  destruct (foldl_mono (fitness <$> pop) f0 nonneg_f0 Hfs Ft) as [Nt _]. change (nonneg_finite total) in Nt.
  destruct (f_of_nat_exact count ltac:(lia)) as (Vn & Fn & En).
  pose proof (nonneg_R _ Nt) as Rt. destruct Nt as (Vt & _ & H0t).
  assert (Vd : fvalid d) by (apply fvalid_div; auto).
  assert (Cpos : 0 < count).
  { destruct count; [|lia]. exfalso. unfold d in Fd. destruct total as [[]|[]| |[] m e]; cbn in Fd; discriminate. }
  assert (C1 : (1 <= INR count)%R) by (apply (le_INR 1); lia).
  assert (Hx : (0 <= f2r total / INR count <= f2r total)%R).
  { split; [apply Rmult_le_pos; [lra|left; apply Rinv_0_lt_compat; lra]|]. apply Rmult_le_reg_r with (INR count); [lra|].
    unfold Rdiv. rewrite Rmult_assoc, Rinv_l by lra. nra. }
  assert (Hrx : (0 <= rnd (f2r total / INR count) <= f2r total)%R).
  { split; [rewrite <- rnd_0; apply rnd_le; lra|]. rewrite <- (rnd_id total Vt) at 2. apply rnd_le. lra. }
  assert (Ed : f2r d = rnd (f2r total / INR count)).
  { unfold d. rewrite <- En. apply fdiv_R; auto; rewrite En; [lra|].
    rewrite Rabs_pos_eq by lra. eapply Rle_lt_trans; [apply Hrx|]. eapply Rle_lt_trans; [apply RRle_abs|]. apply f2r_bound; auto. }
  unfold fgt in Hd. apply flt_R in Hd; auto using fvalid_f0. rewrite f2r_f0 in Hd.
  assert (Nd : nonneg_finite d) by (apply nonneg_of_R; auto; lra).
  assert (Htd : (f2r total <= 1.5 * INR count * f2r d)%R).
  { pose proof (error_le_half_ulp_round radix2 (SpecFloat.fexp 53 1024) (fun x => negb (Z.even x)) (f2r total / INR count)) as He.
    change (round radix2 (SpecFloat.fexp 53 1024) (Znearest (fun x => negb (Z.even x))) (f2r total / INR count)) with (rnd (f2r total / INR count)) in He.
    rewrite <- Ed in He. pose proof (ulp_le_id radix2 (SpecFloat.fexp 53 1024) (f2r d) Hd) as Hu.
    assert (generic_format radix2 (SpecFloat.fexp 53 1024) (f2r d)) as Gd.
    { destruct (fvalid_ex d Vd) as [b Eb]. rewrite Eb, f2r_B. apply generic_format_B2R. }
    specialize (Hu Gd). apply Rabs_le_inv in He.
    assert (f2r total / INR count <= 1.5 * f2r d)%R by lra.
    replace (f2r total) with (f2r total / INR count * INR count)%R by (field; lra).
    replace (1.5 * INR count * f2r d)%R with (1.5 * f2r d * INR count)%R by ring.
    apply Rmult_le_compat_r; lra. }
  assert (Hloop : forall l (done : list (individual G)) cs p sel, pop = done ++ l -> cs = foldl fadd f0 (fitness <$> done) ->
     good_pointer d p (length sel) -> exists s, ofold (sus_step fuel d) (cs, p, sel) (imap (fun i q => (length done + i, q)) l) = Ok s).
  { induction l as [|q l IH]; intros done cs p sel Epop Ecs Hp; [eexists; reflexivity|].
    cbn [imap]. rewrite Nat.add_0_r.
    assert (Hpre : nonneg_finite (fadd cs (fitness q)) /\ (f2r (fadd cs (fitness q)) <= f2r total)%R).
    { assert (E2 : fadd cs (fitness q) = foldl fadd f0 (fitness <$> (done ++ [q]))) by (rewrite fmap_app, foldl_app, Ecs; reflexivity).
      assert (E3 : pop = (done ++ [q]) ++ l) by (rewrite <- app_assoc; exact Epop).
      rewrite E2. unfold total, total_fitness, sum_f64. rewrite E3, (fmap_app _ (done ++ [q])).
      apply foldl_fin_prefix; [apply nonneg_f0|rewrite <- fmap_app, <- E3; exact Hfs|rewrite <- fmap_app, <- E3; exact Ft]. }
    destruct Hpre as [Hcs Hct].
    destruct (sus_while_terminates total d count Nd Hd Htd Hc (fadd cs (fitness q)) (length done) Hcs Hct fuel p sel Hp) as (p' & sel' & E & Hp'); [lia|lia|].
    assert (Es : sus_step fuel d (cs, p, sel) (length done, q) = Ok (fadd cs (fitness q), p', sel')).
    { unfold sus_step. cbn [fst snd]. rewrite E. reflexivity. }
    rewrite (ofold_cons_Ok _ _ _ _ _ Es).
    erewrite imap_ext; [apply (IH (done ++ [q]) _ p' sel')|].
    - rewrite <- app_assoc. exact Epop.
    - rewrite fmap_app, foldl_app, Ecs. reflexivity.
    - exact Hp'.
    - intros i x _. cbn. rewrite app_length. cbn. f_equal. lia. }
  destruct (Hloop pop [] f0 p0 [] eq_refl eq_refl) as [[[cs p] sel] E].
  { right. split; [split_and!; auto|]. cbn [length INR]. rewrite Rmult_0_l. apply nonneg_R. split_and!; auto. }
  change (imap (fun i q => (length (@nil (individual G)) + i, q)) pop) with (imap pair pop) in E. rewrite E. cbn [mbind outcome_bind]. destruct (bool_decide _); discriminate.
Qed.
End Sus.

(** Addition of a nonnegative number is monotone as long as the larger sum stays finite. *)
Lemma fadd_mono_l p q d : nonneg_finite p -> nonneg_finite q -> nonneg_finite d -> fle p q = true -> ffinite (fadd q d) = true ->
  nonneg_finite (fadd p d) /\ fle (fadd p d) (fadd q d) = true.
Proof.
  intros Np Nq Nd Hle Fq. pose proof (nonneg_R _ Np) as Rp. pose proof (nonneg_R _ Nq) as Rq. pose proof (nonneg_R _ Nd) as Rd.
  destruct Np as (Vp & Fp & _), Nq as (Vq & Fqq & _), Nd as (Vd & Fd & _).
  apply fle_R in Hle; auto.
  destruct (fadd_pos q d Vq Vd Fqq Fd Rq Rd) as [[_ Eq]|E]; [|rewrite E in Fq; discriminate].
  assert (Hr : (0 <= rnd (f2r p + f2r d) <= rnd (f2r q + f2r d))%R).
  { split; [rewrite <- rnd_0; apply rnd_le; lra|apply rnd_le; lra]. }
  assert (Vs : fvalid (fadd q d)) by (apply fvalid_add; auto).
  destruct (fadd_R p d Vp Vd Fp Fd) as [E1 F1].
  { rewrite Rabs_pos_eq by apply Hr. eapply Rle_lt_trans; [apply Hr|]. rewrite <- Eq.
    eapply Rle_lt_trans; [apply RRle_abs|]. apply f2r_bound; auto. }
  split; [apply nonneg_of_R; auto using fvalid_add; lra|]. apply fle_R; auto using fvalid_add. lra.
Qed.

(** ** Failures *)
Lemma sus_zero_pointer : exists (pop : list (individual bool)) r,
  Forall (fun p => nonneg_finite (fitness p) /\ flt f0 (fitness p) = true) pop /\
  (forall fuel, 3 <= fuel -> sus fuel 1 pop r = Panic).
Proof.
  exists [Ind [] f1], (rng_of [0]%N). split; [repeat constructor|].
  intros [|[|[|fuel]]] H; try lia. vm_compute. reflexivity.
Qed.

(** Total 2^-60 with partial sum 1: the pointer gets stuck at 2^-7 and never passes 1. *)
Lemma sus_diverges : exists (pop : list (individual bool)), Forall (fun p => fvalid (fitness p) /\ ffinite (fitness p) = true) pop /\
  flt f0 (total_fitness pop) = true /\ (forall fuel r, sus fuel 1 pop r = Diverge).
Proof.
  set (tiny := S754_finite false 4503599627370496 (-112)). set (stuck := S754_finite false 4503599627370496 (-59)).
  exists [Ind [] f1; Ind [] (fneg f1); Ind [] tiny].
  split; [repeat constructor|]. split; [reflexivity|]. intros fuel r. unfold sus.
  assert (Et : total_fitness [@Ind bool [] f1; Ind [] (fneg f1); Ind [] tiny] = tiny) by (vm_compute; reflexivity).
  rewrite Et. assert (Ed : fdiv tiny (f_of_nat 1) = tiny) by (vm_compute; reflexivity). rewrite Ed.
  change (fgt tiny f0) with true. cbn [rassert mbind outcome_bind].
  destruct (gen_range_f64 f0 tiny r) as [[p0 r1]| |] eqn:Ep.
  2,3: exfalso; unfold gen_range_f64 in Ep; cbn in Ep; repeat case_match; discriminate.
  destruct (gen_range_f64_Ok _ _ _ _ _ Ep fvalid_f0) as (Vp & Fp & _ & _ & H0p & Hpd & _).
  cbn [mbind outcome_bind imap]. rewrite ofold_cons.
  assert (Hw : forall fuel p sel, nonneg_finite p -> fle p stuck = true ->
     sus_while fuel (fadd f0 (fitness (@Ind bool [] f1))) tiny 0 p sel = Diverge).
  { clear. assert (Vt : nonneg_finite tiny) by (split_and!; reflexivity). assert (Vs : nonneg_finite stuck) by (split_and!; reflexivity).
    induction fuel as [|fuel IH]; intros p sel Np Hp; [reflexivity|]. cbn [sus_while].
    assert (Hge : fge (fadd f0 (fitness (@Ind bool [] f1))) p = true) by (apply (fle_trans _ stuck); [exact Hp|reflexivity]).
    assert (Es : fadd stuck tiny = stuck) by (vm_compute; reflexivity).
    destruct (fadd_mono_l p stuck tiny Np Vs Vt Hp) as [N H]; [rewrite Es; reflexivity|]. rewrite Es in H.
    rewrite Hge. apply IH; auto. }
  assert (Es : sus_step fuel tiny (f0, p0, []) (0, @Ind bool [] f1) = Diverge).
  { unfold sus_step. rewrite Hw; [reflexivity|split_and!; auto|]. apply (fle_trans _ tiny); [exact Hpd|reflexivity]. }
  rewrite Es. reflexivity.
Qed.

(** ** Packaging for the property theorems *)
Section Package.
Context {G : Type}.
Implicit Types pop : list (individual G).

Lemma sus_result fuel count pop r sel r' : sus fuel count pop r = Ok (sel, r') ->
  let fs := fitness <$> pop in
  let d := fdiv (total_fitness pop) (f_of_nat count) in
  length sel = count /\
  (forall k1 k2 i1 i2, k1 <= k2 -> sel !! k1 = Some i1 -> sel !! k2 = Some i2 -> i1 <= i2) /\
  exists p0, fle f0 p0 = true /\ fle p0 d = true /\ pointer_hits fs p0 d sel /\ pointers_exhausted fs p0 d sel.
Proof.
  intros H. destruct (sus_spec _ _ _ _ _ _ H) as (_ & Hl & p0 & Hp & Hh & He). cbv zeta.
  split; [exact Hl|]. split; [apply (pointer_hits_sorted _ _ _ _ Hh)|]. exists p0.
  destruct (gen_range_f64_Ok _ _ _ _ _ Hp fvalid_f0) as (_ & _ & _ & _ & H0 & H1 & _). auto.
Qed.

Lemma selection_counts pop count r :
  let valid sel := length sel = count /\ Forall (fun i => i < length pop) sel in
  (forall kind, (pop = [] -> random_sel kind count pop r = Panic) /\
     (pop <> [] -> exists sel r', random_sel kind count pop r = Ok (sel, r') /\ valid sel)) /\
  ((length pop < count -> unique_random count pop r = Panic) /\
   (count <= length pop -> exists sel r', unique_random count pop r = Ok (sel, r') /\ valid sel)) /\
  ((0 < count -> pop = [] -> rank count pop r = Panic) /\
   (count = 0 \/ pop <> [] -> exists sel r', rank count pop r = Ok (sel, r') /\ valid sel)) /\
  (forall rr, (fle f0 rr && fle rr f1 = false \/ pop = [] -> rank_r rr count pop r = Panic) /\
     (fle f0 rr = true -> fle rr f1 = true -> pop <> [] ->
        exists sel r', rank_r rr count pop r = Ok (sel, r') /\ valid sel)) /\
  (forall factor, fvalid factor -> unit_factor factor -> pop <> [] -> (Z.of_nat (length pop) <= 2 ^ 53)%Z -> comparable pop ->
     exists sel r', tournament factor count pop r = Ok (sel, r') /\ valid sel) /\
  (forall fuel sel r', sus fuel count pop r = Ok (sel, r') -> valid sel) /\
  (forall powf exp alpha temp_0 g mg,
     let ws := boltzmann_weights powf exp alpha temp_0 g mg pop in
     let bad := fle f0 alpha && fle alpha f1 = false \/ fle (f_of_nat 5) temp_0 && fle temp_0 (f_of_nat 100) = false \/
                length pop < count \/ (0 < count /\ Exists (fun w => fle f0 w = false) ws) in
     (bad -> boltzmann powf exp alpha temp_0 g mg count pop r = Panic) /\
     (~ bad -> exists sel r', boltzmann powf exp alpha temp_0 g mg count pop r = Ok (sel, r') /\ valid sel)) /\
  (exists sel r', roulette_wheel count pop r = Ok (sel, r') /\ length sel <= count /\ Forall (fun i => i < length pop) sel).
Proof.
  cbv zeta. split; [|split; [|split; [|split; [|split; [|split; [|split]]]]]].
  - intros kind. destruct (random_sel_spec kind count pop r) as (H1 & H2 & _). auto.
  - destruct (unique_random_spec count pop r) as (H1 & H2 & _). split; [exact H1|]. intros H.
    destruct (H2 H) as (sel & r' & E & ? & ? & _). eauto 10.
  - destruct (rank_spec count pop r) as (H1 & H2 & _). split; [exact H1|]. intros H.
    destruct (H2 H) as (sel & draws & r' & E & Hl & Hf). exists sel, r'. split; [exact E|]. split; [exact Hl|].
    apply Forall_lookup. intros k s Hs. destruct (Forall2_lookup_r _ _ _ _ _ Hf Hs) as ([i j] & _ & a & b & Ha & Hb & ->).
    cbn in *. apply lookup_lt_Some in Ha, Hb. case_match; auto.
  - intros rr. destruct (rank_r_spec rr count pop r) as (H1 & H2). split; [exact H1|]. intros Ha Hb Hc.
    destruct (H2 Ha Hb Hc) as (sel & draws & r' & E & ? & ? & _). eauto 10.
  - intros factor V U Hne Hb Hc. destruct (tournament_spec factor count pop r V U Hne Hb Hc) as (sel & groups & r' & E & Hl & Hf).
    exists sel, r'. split; [exact E|]. split; [exact Hl|]. apply Forall_lookup. intros k s Hs.
    destruct (Forall2_lookup_r _ _ _ _ _ Hf Hs) as (grp & _ & _ & _ & Hg & Hw & _). rewrite Forall_forall in Hg. auto.
  - intros fuel sel r' H. destruct (sus_spec _ _ _ _ _ _ H) as (_ & Hl & p0 & Hp & Hh & He). split; [exact Hl|].
    rewrite <- (fmap_length fitness pop). apply (pointer_hits_sorted _ _ _ _ Hh).
  - intros powf exp alpha temp_0 g mg. destruct (boltzmann_spec powf exp alpha temp_0 g mg count pop r) as [H1 H2].
    split; [exact H1|]. intros H. destruct (H2 H) as (sel & r' & E & ? & ? & _). eauto 10.
  - apply roulette_le.
Qed.

Lemma random_reaches pop kind sel : pop <> [] -> Forall (fun i => i < length pop) sel ->
  (exists r r', random_sel kind (length sel) pop r = Ok (sel, r')) /\
  (NoDup sel -> exists r r', unique_random (length sel) pop r = Ok (sel, r')).
Proof.
  intros Hne Hall. split.
  - destruct (random_sel_spec kind (length sel) pop (fun _ => 0%N)) as (_ & _ & H). apply H; auto.
  - intros Hnd. destruct (unique_random_spec (length sel) pop (fun _ => 0%N)) as (_ & _ & H). apply H; auto.
Qed.

Lemma random_repeats pop pop2 count r r' sel : length pop2 = length pop -> random_sel ValueRng count pop r = Ok (sel, r') ->
  random_sel ValueRng count pop2 r' = Ok (sel, r').
Proof.
  intros Hl H. pose proof (random_sel_same _ _ _ _ _ H) as ->. rewrite <- H. rewrite !random_sel_eq, Hl.
  destruct (decide (0 < length pop)) as [H0|H0]; [|rewrite bool_decide_eq_false_2 by exact H0; reflexivity].
  rewrite bool_decide_eq_true_2 by exact H0. cbn [rassert mbind outcome_bind].
  assert (E : forall n r, repeatO n (pick pop2) r = repeatO n (pick pop) r).
  { assert (Ep : forall r, pick pop2 r = pick pop r).
    { intros r0. unfold pick. rewrite Hl. destruct (gen_range_is_Ok 0 (length pop) r0 H0) as (i & -> & Hi). cbn [mbind outcome_bind].
      destruct (lookup_lt_is_Some_2 pop i) as [p Hp]; [lia|]. destruct (lookup_lt_is_Some_2 pop2 i) as [p2 Hp2]; [lia|].
      rewrite (proj2 (index_Ok _ _ _) Hp), (proj2 (index_Ok _ _ _) Hp2). reflexivity. }
    induction n as [|n IH]; intros r0; [reflexivity|]. cbn [repeatO]. rewrite Ep. destruct (pick pop r0) as [[x r1]| |]; cbn [mbind outcome_bind]; [|reflexivity..].
    rewrite IH. reflexivity. }
  rewrite E. reflexivity.
Qed.

Lemma distinct_selection pop count r r' sel :
  (unique_random count pop r = Ok (sel, r') -> NoDup sel) /\
  (unique_random count pop r = Panic <-> length pop < count) /\
  (forall powf exp alpha temp_0 g mg, boltzmann powf exp alpha temp_0 g mg count pop r = Ok (sel, r') -> NoDup sel).
Proof.
  destruct (unique_random_spec count pop r) as (H1 & H2 & _). split; [|split; [split; [|exact H1]|]].
  - intros H. destruct (decide (count <= length pop)) as [Hle|Hle]; [|rewrite H1 in H by lia; discriminate].
    destruct (H2 Hle) as (sel' & r2 & E & _ & _ & Hn). congruence.
  - intros H. destruct (decide (count <= length pop)) as [Hle|Hle]; [|lia].
    destruct (H2 Hle) as (sel' & r2 & E & _). congruence.
  - intros powf exp alpha temp_0 g mg H. unfold boltzmann in H.
    apply obind_Ok in H as (? & _ & H). apply obind_Ok in H as (? & _ & H). apply obind_Ok in H as ([o r1] & Hs & H).
    apply obind_Ok in H as (s & Ho & H). apply unwrap_Ok in Ho. subst o. apply obind_Ok in H as (? & _ & H). injection H as -> ->.
    unfold sample_weighted in Hs. case_decide; [injection Hs as <- <-; constructor|]. case_decide; [discriminate|].
    destruct (forallb _ _); [|discriminate]. apply obind_Ok in Hs as ([s r2] & Hs & E). injection E as <- <-.
    apply sample_indices_Ok in Hs. tauto.
Qed.

Lemma tournament_group_possible factor pop grp rest : unit_factor factor -> comparable pop -> NoDup grp -> Forall (fun i => i < length pop) grp ->
  length grp = tournament_size factor (length pop) ->
  exists s r, tournament_winner pop grp s /\ tournament factor 1 pop r = Ok ([s], rest).
Proof.
  intros [U0 U1] Hc Hnd Hall Hl. assert (Hne : grp <> []).
  { apply length_pos_ne. rewrite Hl. unfold tournament_size. lia. }
  destruct (tournament_spin_surj pop grp rest Hnd Hall Hne Hc) as (s & r & Hw & E). exists s, r. split; [exact Hw|].
  unfold tournament. rewrite U0, U1. cbn [andb rassert mbind outcome_bind repeatO]. rewrite <- Hl, E. reflexivity.
Qed.

Lemma rank_ok count pop r : pop <> [] ->
  exists sel draws r', rank count pop r = Ok (sel, r') /\ length sel = count /\ Forall2 (rank_winner pop) draws sel.
Proof. intros H. destruct (rank_spec count pop r) as (_ & H2 & _). apply H2. auto. Qed.
Lemma rank_possible pop draws : Forall (fun ij => ij.1 < length pop /\ ij.2 < length pop) draws ->
  exists r sel r', rank (length draws) pop r = Ok (sel, r') /\ Forall2 (rank_winner pop) draws sel.
Proof. intros H. destruct (rank_spec (length draws) pop (fun _ => 0%N)) as (_ & _ & H2). apply H2; auto. Qed.
End Package.

Lemma tournament_ceil_refuted :
  exists (pop : list (individual bool)) (r : rng) (s : nat) (w : individual bool) r',
    length pop = 3 /\ Zceil (INR 3 * f2r fhalf) = 2%Z /\
    tournament fhalf 1 pop r = Ok ([s], r') /\ pop !! s = Some w /\
    (forall j a, pop !! j = Some a -> j <> s -> flt (fitness w) (fitness a) = true) /\
    (forall grp s', NoDup grp -> Forall (fun i => i < 3) grp -> length grp = 2 -> tournament_winner pop grp s' -> s' <> s).
Proof.
  set (pop := [Ind [] f0; Ind [] fhalf; Ind [] f1] : list (individual bool)).
  assert (Hother : forall j a, pop !! j = Some a -> j <> 0 -> flt f0 (fitness a) = true).
  { intros [|[|[|j]]] a Ha Hj; cbn in Ha; try discriminate; [congruence| |]; injection Ha as <-; reflexivity. }
  exists pop, (rng_of [2; 1]%N), 0, (Ind [] f0). eexists. split; [reflexivity|]. split.
  { apply Zceil_imp. replace (f2r fhalf) with (/ 2)%R.
    - rewrite (INR_IZR_INZ 3). change (Z.of_nat 3) with 3%Z. change (2 - 1)%Z with 1%Z. lra.
    - unfold f2r, fhalf, SF2R, F2R. cbn [Fnum Fexp cond_Zopp]. change (bpow radix2 (-53)) with (/ IZR 9007199254740992)%R. lra. }
  split; [vm_compute; reflexivity|]. split; [reflexivity|]. split; [exact Hother|].
  intros grp s' Hnd Hall Hl [Hin Hw] ->.
  destruct grp as [|x [|y [|]]]; try discriminate.
  assert (Hxy : exists j, j ∈ [x; y] /\ j <> 0).
  { inversion_clear Hnd as [|? ? Hx _]. rewrite elem_of_list_singleton in Hx. destruct x.
    - exists y. split; [right; left|congruence].
    - exists (S x). split; [left|lia]. }
  destruct Hxy as (j & Hj & Hj0). rewrite Forall_forall in Hall. specialize (Hall j Hj).
  destruct (lookup_lt_is_Some_2 pop j) as [a Ha]; [cbn; lia|].
  specialize (Hw j a (Ind [] f0) Hj Ha eq_refl). specialize (Hother j a Ha Hj0).
  cbn [fitness] in *. pose proof (flt_le_trans _ _ _ Hother Hw) as Hbad. rewrite flt_irrefl in Hbad. discriminate.
Qed.
