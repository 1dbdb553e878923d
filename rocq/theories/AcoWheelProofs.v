(** * Proofs: the stretch of draws that leads an ant to each place *)
From Verif Require Export AcoChoiceProofs ChanceSpec.
From Verif Require Import AcoCostProofs SusProofs F64R.
From Coq Require Import Reals Lra Lia.
From Flocq Require Import Core.Core IEEE754.BinarySingleNaN.
From Flocq.Prop Require Import Relative Plus_error.
Local Existing Instances Hfexp HNE Hprec53 Hmax1024.
Open Scope R_scope.

(** Subtraction too makes a relative error of at most 2^-53. *)
Lemma sub_rel x y : fvalid x -> fvalid y -> 0 <= f2r x - f2r y ->
  (f2r x - f2r y) * (1 - uu) <= rnd (f2r x - f2r y) <= (f2r x - f2r y) * (1 + uu).
Proof.
  intros Vx Vy P.
  assert (generic_format radix2 (FLT_exp (-1074) 53) (f2r x)) as Gx.
  { apply generic_FLT. rewrite <- (rnd_id x Vx). apply generic_format_round; auto with typeclass_instances. }
  assert (generic_format radix2 (FLT_exp (-1074) 53) (- f2r y)) as Gy.
  { apply generic_format_opp. apply generic_FLT. rewrite <- (rnd_id y Vy). apply generic_format_round; auto with typeclass_instances. }
  destruct (FLT_plus_error_N_ex radix2 (-1074) 53 (fun x => negb (Z.even x)) (f2r x) (- f2r y) Gx Gy) as (e & He & E).
  replace (rnd (f2r x - f2r y)) with ((f2r x - f2r y) * (1 + e)) by (symmetry; exact E).
  assert (Rabs e <= uu) as He'.
  { eapply Rle_trans; [exact He|]. assert (u_ro radix2 53 = uu) as ->.
    { unfold u_ro, uu. change (/2) with (bpow radix2 (-1)). rewrite <- bpow_plus. reflexivity. }
    pose proof uu_pos. apply Rmult_le_reg_r with (1 + uu); [lra|]. unfold Rdiv. rewrite Rmult_assoc, Rinv_l by lra. nra. }
  apply Rabs_le_inv in He'. split; apply Rmult_le_compat_l; lra.
Qed.

Section Spin.
Variable row : nat -> outcome f64.
Variable e : nat -> f64.
Variable d : R.
Hypothesis Hd : 0 <= d.
Lemma spin_stretch order : forall random next v k S,
  (forall u, u ∈ order -> forall g, row u = Ok g -> g = e u) -> (forall u, u ∈ order -> nonneg_finite (e u)) ->
  fvalid random -> ffinite random = true -> 0 <= f2r random <= d -> Rabs (f2r random - (d - S)) <= INR k * uu * d ->
  spin row random order next = Ok v ->
  (exists j, order !! j = Some v /\ S + exact_total (map e (take j order)) - INR (k + j) * uu * d <= d <= S + exact_total (map e (take j order)) + f2r (e v) + INR (k + j) * uu * d) \/
  (v = next /\ S + exact_total (map e order) - INR (k + length order) * uu * d <= d).
Proof using Hd.
  induction order as [|u order IH]; intros random next v k S Hrow He V F R A H; cbn [spin] in H.
  - injection H as <-. right. split; [reflexivity|]. cbn [length map exact_total fold_right]. rewrite Nat.add_0_r. apply Rabs_le_inv in A. lra.
  - apply obind_Ok in H as (g & Hg & H). cbn beta zeta in H. rewrite (Hrow u ltac:(left) g Hg) in H.
    pose proof (He u ltac:(left)) as Nu. pose proof (nonneg_R _ Nu) as Pu. destruct Nu as (Vu & Fu & _).
    pose proof uu_pos as U0. pose proof uu_small as U1.
    destruct (fsub_R random (e u) V Vu F Fu) as [E F'].
    { pose proof (f2r_bound _ V) as B1. pose proof (f2r_bound _ Vu) as B2. apply Rabs_def2 in B1, B2.
      assert (rnd (f2r random - f2r (e u)) <= f2r random)%R by (rewrite <- (rnd_id random V) at 2; apply rnd_le; lra).
      assert (- f2r (e u) <= rnd (f2r random - f2r (e u)))%R.
      { rewrite <- (rnd_id (e u) Vu) at 1. rewrite <- rnd_opp. apply rnd_le. lra. }
      apply Rabs_def1; lra. }
    destruct (Rle_lt_dec (f2r random) (f2r (e u))) as [L|L].
    + rewrite (fsub_le0 _ _ V Vu F Fu) in H by lra. injection H as <-. left. exists 0%nat. split; [reflexivity|]. cbn [take map exact_total fold_right]. rewrite Nat.add_0_r. apply Rabs_le_inv in A. lra.
    + pose proof (sub_rel random (e u) V Vu ltac:(lra)) as B.
      destruct (fle (fsub random (e u)) f0) eqn:Ef.
      { exfalso. apply fle_R in Ef; auto using fvalid_f0, fvalid_sub. rewrite f2r_f0, E in Ef. nra. }
      destruct (IH (fsub random (e u)) next v (k + 1)%nat (S + f2r (e u))) as [(j & Hj & D)|[-> D]]; auto.
      * intros w Hw. apply Hrow. right. exact Hw.
      * intros w Hw. apply He. right. exact Hw.
      * apply fvalid_sub; auto.
      * rewrite E. split; [nra|]. eapply Rle_trans; [apply rnd_le with (y := f2r random); lra|]. rewrite rnd_id by exact V. lra.
      * rewrite E, plus_INR. apply Rabs_le_inv in A. apply Rabs_le. change (INR 1) with 1. nra.
      * left. exists (Datatypes.S j). split; [exact Hj|]. change (take (Datatypes.S j) (u :: order)) with (u :: take j order). change (exact_total (map e (u :: take j order))) with (f2r (e u) + exact_total (map e (take j order))).
        replace (k + Datatypes.S j)%nat with (k + 1 + j)%nat by lia. lra.
      * right. split; [reflexivity|]. cbn [length]. change (exact_total (map e (u :: order))) with (f2r (e u) + exact_total (map e order)). replace (k + Datatypes.S (length order))%nat with (k + 1 + length order)%nat by lia. lra.
Qed.
End Spin.

Lemma goodness_total (row : nat -> outcome f64) e order : forall s t, (forall u, u ∈ order -> forall g, row u = Ok g -> g = e u) ->
  ofold (fun s v => g ← row v; Ok (fadd s g)) s order = Ok t -> t = foldl fadd s (map e order).
Proof.
  induction order as [|u order IH]; intros s t Hrow H; cbn [ofold] in H; [injection H as <-; reflexivity|].
  apply obind_Ok in H as (s1 & H1 & H). apply obind_Ok in H1 as (g & Hg & H1). injection H1 as <-. rewrite (Hrow u ltac:(left) g Hg) in H.
  cbn [map foldl]. apply IH; [|exact H]. intros w Hw. apply Hrow. right. exact Hw.
Qed.

Lemma total_app l l' : exact_total (l ++ l') = exact_total l + exact_total l'.
Proof. unfold exact_total. induction l as [|x l IH]; [cbn; lra|]. cbn [app fold_right]. rewrite IH. lra. Qed.
Lemma total_pos l : Forall nonneg_finite l -> 0 <= exact_total l.
Proof. exact (exact_sum_pos l). Qed.
Lemma total_take_mono l i j : Forall nonneg_finite l -> (i <= j)%nat -> exact_total (take i l) <= exact_total (take j l).
Proof.
  intros H L. rewrite <- (take_drop i (take j l)). rewrite take_take. replace (i `min` j)%nat with i by lia. rewrite total_app.
  assert (0 <= exact_total (drop i (take j l))) by (apply total_pos, Forall_drop, Forall_take, H). lra.
Qed.

Lemma step_stretch g a l v a' : ant_step g a = Ok (l, v, a') -> a_stuck a = false ->
  (forall rate, a_rate a = Some rate -> flt (gen_f64 (a_rng a)).1 rate = false) ->
  (forall u, u ∈ a_unvisited a -> nonneg_finite (entry g l u)) ->
  exists order d, order ≡ₚ a_unvisited a /\
    gen_range_f64 f0 (foldl fadd f0 (map (entry g l) order)) (match a_rate a with None => a_rng a | Some _ => rng_tail (a_rng a) end) = Ok (d, a_rng a') /\
    0 <= f2r d /\
    let before j := exact_total (map (entry g l) (take j order)) in
    let off j := INR j * / 2 ^ 53 * f2r d in
    ((exists j, order !! j = Some v /\ before j - off j <= f2r d <= before j + f2r (entry g l v) + off j) \/
     (v = l /\ before (length order) - off (length order) <= f2r d)) /\
    (forall j w, order !! j = Some w -> before j + off (length order) < f2r d < before j + f2r (entry g l w) - off (length order) -> v = w).
Proof.
  intros H Es Hr Hrow. destruct (step_cases _ _ _ _ _ H) as [El [(E & _)|_]]; [congruence|].
  unfold ant_step in H. rewrite El in H. cbn [unwrap mbind outcome_bind] in H. rewrite Es in H.
  apply obind_Ok in H as ([] & _ & H). apply obind_Ok in H as ([] & _ & H). apply obind_Ok in H as ([order h] & Hsh & H).
  apply shuffle_perm in Hsh. apply obind_Ok in H as ([w r] & Hw & H). injection H as <- E2.
  assert (roulette (fun v => mget g l v) order l (match a_rate a with None => a_rng a | Some _ => rng_tail (a_rng a) end) = Ok (w, r)) as Hw'.
  { destruct (a_rate a) as [rate|]; [|exact Hw]. specialize (Hr rate eq_refl). change (gen_f64 (a_rng a)) with (f_unit 53 (a_rng a 0%nat mod 2 ^ 53), rng_tail (a_rng a)) in *. cbn [fst] in Hr. cbv beta iota in Hw. rewrite Hr in Hw. exact Hw. }
  clear Hw. rename Hw' into Hw. assert (a_rng a' = r) as Er by (rewrite <- E2; reflexivity). clear E2.
  unfold roulette in Hw. apply obind_Ok in Hw as (s & Hs & Hw). apply obind_Ok in Hw as ([d r1] & Hd & Hw). apply obind_Ok in Hw as (w' & Hspin & Hw). injection Hw as -> ->.
  assert (forall u, u ∈ order -> forall gu, mget g l u = Ok gu -> gu = entry g l u) as Hme. { intros u _ gu Hgu. apply AcoChoiceProofs.mget_Ok in Hgu as [_ ->]. reflexivity. }
  assert (forall u, u ∈ order -> nonneg_finite (entry g l u)) as Hnn. { intros u Hu. apply Hrow. rewrite <- Hsh. exact Hu. }
  exists order, d. split; [exact Hsh|]. rewrite Er. rewrite (goodness_total _ (entry g l) order f0 s Hme Hs) in Hd. split; [exact Hd|].
  destruct (gen_range_f64_Ok _ _ _ _ _ Hd fvalid_f0) as (Vd & Fd & _ & _ & L0 & _ & _). apply fle_R in L0; auto using fvalid_f0. rewrite f2r_f0 in L0. split; [exact L0|].
  intros before off. 
  assert (/ 2 ^ 53 = uu) as EU. { unfold uu. change (-53)%Z with (- (53))%Z. rewrite bpow_opp. f_equal. rewrite pow_IZR. reflexivity. }
  assert (Forall nonneg_finite (map (entry g l) order)) as Hall. { apply Forall_forall. intros x Hx. apply elem_of_list_In, in_map_iff in Hx as (u & <- & Hu). apply Hnn. apply elem_of_list_In. exact Hu. }
  assert (forall i j, (i <= j)%nat -> before i <= before j) as Mono. { intros i j L. unfold before. rewrite <- !firstn_map. apply total_take_mono; [exact Hall|exact L]. }
  assert (forall j x, order !! j = Some x -> before (S j) = before j + f2r (entry g l x)) as Step.
  { intros j x Hx. unfold before. rewrite (take_S_r _ _ _ Hx), map_app, total_app. cbn [map exact_total fold_right]. lra. }
  assert (forall i j, (i <= j)%nat -> off i <= off j) as OM. { intros i j L. unfold off. rewrite EU. pose proof uu_pos. apply Rmult_le_compat_r; [exact L0|]. apply Rmult_le_compat_r; [lra|]. apply le_INR. exact L. }
  pose proof (spin_stretch _ (entry g l) (f2r d) L0 order d l w 0 0 Hme Hnn Vd Fd) as X.
  destruct X as [(j & Hj & D)|[-> D]]; [lra|cbn [INR]; rewrite Rminus_0_r, Rminus_diag_eq, Rabs_R0 by reflexivity; lra|exact Hspin| |].
  - rewrite <- EU in D. change (exact_total (map (entry g l) (take j order))) with (before j) in D. change (INR (0 + j) * / 2 ^ 53 * f2r d) with (off j) in D. split; [left; exists j; split; [exact Hj|lra]|].
    intros i x Hx B. pose proof (lookup_lt_Some _ _ _ Hj) as Lj. pose proof (lookup_lt_Some _ _ _ Hx) as Li. pose proof (OM j (length order) ltac:(lia)) as O.
    destruct (lt_eq_lt_dec i j) as [[L|L]|L]; [exfalso|congruence|exfalso].
    + pose proof (Mono (S i) j ltac:(lia)) as M. rewrite (Step _ _ Hx) in M. lra.
    + pose proof (Mono (S j) i ltac:(lia)) as M. rewrite (Step _ _ Hj) in M. lra.
  - rewrite <- EU in D. split; [right; split; [reflexivity|]; unfold before, off; rewrite take_ge by lia; cbn [plus] in D; lra|].
    intros i x Hx B. exfalso. pose proof (lookup_lt_Some _ _ _ Hx) as Li. pose proof (Mono (S i) (length order) ltac:(lia)) as M. rewrite (Step _ _ Hx) in M. unfold before at 2 in M. rewrite take_ge in M by lia. unfold off in B. cbn [plus] in D. lra.
Qed.
