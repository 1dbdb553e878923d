(** * Proofs about an ant's choice of the next place *)
From Verif Require Export AcoAntProofs.
From Verif Require Import F64R SusProofs.
From Coq Require Import Reals Lra.
From Flocq Require Import Core BinarySingleNaN.
Open Scope nat_scope.
Local Existing Instances Hfexp HNE Hprec53 Hmax1024.

Lemma finite_between x y : fle f0 x = true -> fle x y = true -> ffinite y = true -> ffinite x = true.
Proof. destruct x as [s|[]| |s m e], y as [s'|s'| |s' m' e']; try discriminate; auto. Qed.

Lemma rnd_opp x : rnd (- x) = (- rnd x)%R.
Proof. unfold rnd. apply round_NE_opp. Qed.

(** ** The roulette wheel *)
Lemma spin_positive row order : forall random next v,
  (forall u g, u ∈ order -> row u = Ok g -> nonneg_finite g) ->
  fvalid random -> ffinite random = true -> flt f0 random = true ->
  spin row random order next = Ok v -> v = next \/ (v ∈ order /\ exists g, row v = Ok g /\ flt f0 g = true).
Proof.
  induction order as [|u order IH]; intros random next v Hrow Vr Fr Hr H; cbn [spin] in H; [injection H as <-; auto|].
  apply obind_Ok in H as (g & Hg & H). cbn beta zeta in H. destruct (Hrow u g ltac:(left) Hg) as (Vg & Fg & Pg).
  apply flt_R in Hr; auto using fvalid_f0. rewrite f2r_f0 in Hr. pose proof Pg as Pg'. apply fle_R in Pg; auto using fvalid_f0. rewrite f2r_f0 in Pg.
  destruct (fsub_R random g Vr Vg Fr Fg) as [E F].
  { pose proof (f2r_bound _ Vr) as B1. pose proof (f2r_bound _ Vg) as B2. apply Rabs_def2 in B1, B2.
    assert (rnd (f2r random - f2r g) <= f2r random)%R by (rewrite <- (rnd_id random Vr) at 2; apply rnd_le; lra).
    assert (- f2r g <= rnd (f2r random - f2r g))%R.
    { rewrite <- (rnd_id g Vg) at 1. rewrite <- rnd_opp. apply rnd_le. lra. }
    apply Rabs_def1; lra. }
  destruct (fle (fsub random g) f0) eqn:Ef.
  - injection H as <-. right. split; [left|]. exists g. split; [exact Hg|]. apply flt_R; auto using fvalid_f0. rewrite f2r_f0.
    destruct (Rle_lt_or_eq_dec _ _ Pg) as [|Z]; [auto|]. exfalso.
    apply fle_R in Ef; auto using fvalid_f0, fvalid_sub. rewrite f2r_f0, E, <- Z, Rminus_0_r, rnd_id in Ef; auto. lra.
  - destruct (IH (fsub random g) next v) as [|[Hv Hex]]; auto.
    + intros w g' Hw. apply Hrow. right. exact Hw.
    + apply fvalid_sub; auto.
    + apply not_fle_flt; auto using ffinite_not_nan.
    + right. split; [right; exact Hv|exact Hex].
Qed.

(** ** Exploitation *)
Lemma exploit_fold_max (row : nat -> outcome f64) order : forall st st',
  ofold (fun (st : nat * f64) v => g ← row v; Ok (if flt (snd st) g then (v, g) else st)) st order = Ok st' ->
  (forall u g, u ∈ order -> row u = Ok g -> F64.is_nan g = false) -> F64.is_nan (snd st) = false ->
  F64.is_nan (snd st') = false /\ fle (snd st) (snd st') = true /\
  (forall u g, u ∈ order -> row u = Ok g -> fle g (snd st') = true) /\
  ((fst st' = fst st /\ snd st' = snd st) \/ (fst st' ∈ order /\ row (fst st') = Ok (snd st'))).
Proof.
  induction order as [|u order IH]; intros st st' H Hrow Hn; cbn [ofold] in H.
  - injection H as <-. split_and!; auto; [apply fle_refl; auto|]. intros u g Hu. inversion Hu.
  - apply obind_Ok in H as (st1 & H1 & H). apply obind_Ok in H1 as (g & Hg & H1). injection H1 as <-.
    pose proof (Hrow u g ltac:(left) Hg) as Ng.
    destruct (flt (snd st) g) eqn:E.
    + destruct (IH _ _ H) as (N & L & A & D); [intros; eapply Hrow; [right|]; eauto|exact Ng|]. cbn [fst snd] in *. split_and!; auto.
      * eapply fle_trans; [apply flt_le; exact E|exact L].
      * intros w gw Hw Hgw. apply elem_of_cons in Hw as [->|Hw]; [|eauto]. rewrite Hg in Hgw. injection Hgw as <-. exact L.
      * right. destruct D as [[D1 D2]|[D1 D2]]; [|split; [right; exact D1|exact D2]]. rewrite D1, D2. split; [left|exact Hg].
    + destruct (IH _ _ H) as (N & L & A & D); [intros; eapply Hrow; [right|]; eauto|exact Hn|]. split_and!; auto.
      * intros w gw Hw Hgw. apply elem_of_cons in Hw as [->|Hw]; [|eauto]. rewrite Hg in Hgw. injection Hgw as <-.
        eapply fle_trans; [|exact L]. apply not_flt_fle; auto.
      * destruct D as [D|[D1 D2]]; [auto|]. right. split; [right; exact D1|exact D2].
Qed.
Lemma exploit_max row order lst v : exploit row order lst = Ok v -> order <> [] ->
  (forall u g, u ∈ order -> row u = Ok g -> flt fmin g = true) ->
  v ∈ order /\ exists gv, row v = Ok gv /\ forall u g, u ∈ order -> row u = Ok g -> fle g gv = true.
Proof.
  intros H Hne Hrow. apply obind_Ok in H as ([w x] & H1 & H). injection H as <-.
  destruct (exploit_fold_max row order _ _ H1) as (N & L & A & D); [intros; eapply flt_nan_r; eapply Hrow; eauto|reflexivity|]. cbn [fst snd] in *.
  destruct D as [[-> ->]|[D1 D2]]; [|eauto]. exfalso. destruct order as [|u order]; [congruence|]. cbn [ofold] in H1.
  apply obind_Ok in H1 as (st1 & H1 & _). apply obind_Ok in H1 as (g & Hg & _).
  pose proof (A u g ltac:(left) Hg) as HA. pose proof (Hrow u g ltac:(left) Hg) as HB.
  pose proof (fle_lt_trans _ _ _ HA HB) as X. rewrite flt_irrefl in X. discriminate.
Qed.

(** ** No overflow, no panic *)
Lemma bpow900_format k : (Z.of_nat k <= 2 ^ 53)%Z -> rnd (INR k * bpow radix2 900) = (INR k * bpow radix2 900)%R.
Proof.
  intros Hk. apply round_generic; auto with typeclass_instances. rewrite INR_IZR_INZ.
  destruct (Z.eq_dec (Z.of_nat k) (2 ^ 53)) as [E|N].
  - rewrite E. change (IZR (2 ^ 53)) with (bpow radix2 53). rewrite <- bpow_plus. apply generic_format_bpow. unfold SpecFloat.fexp, SpecFloat.emin. lia.
  - apply generic_format_FLT. exists (Float radix2 (Z.of_nat k) 900); [reflexivity| |unfold SpecFloat.emin; cbn [Fexp]; lia].
    cbn [Fnum]. change (Zpower radix2 53) with (2 ^ 53)%Z. lia.
Qed.
Lemma bpow900_small k : (Z.of_nat k <= 2 ^ 53)%Z -> (INR k * bpow radix2 900 < bpow radix2 1024)%R.
Proof.
  intros Hk. apply Rle_lt_trans with (bpow radix2 53 * bpow radix2 900)%R.
  - apply Rmult_le_compat_r; [apply bpow_ge_0|]. rewrite INR_IZR_INZ. change (bpow radix2 53) with (IZR (2 ^ 53)). apply IZR_le. exact Hk.
  - rewrite <- bpow_plus. apply bpow_lt. lia.
Qed.
Lemma f2r_2_900 : f2r f_2_900 = bpow radix2 900.
Proof.
  unfold f2r, f_2_900, SF2R, F2R. cbn [Fnum Fexp cond_Zopp]. change (IZR (Z.pos 4503599627370496)) with (bpow radix2 52).
  rewrite <- bpow_plus. reflexivity.
Qed.

Definition good_value (g : f64) : Prop := nonneg_finite g /\ (f2r g <= bpow radix2 900)%R.
Lemma moderate_good m n i j : moderate m n -> i < n -> j < n -> mget m i j = Ok (entry m i j) /\ good_value (entry m i j).
Proof.
  intros (Hr & Hc & H) Hi Hj. destruct (H i j Hi Hj) as (V & P & U).
  assert (F : ffinite (entry m i j) = true) by (eapply finite_between; eauto; reflexivity).
  split; [unfold mget; rewrite decide_True by lia; reflexivity|]. split; [split; [exact V|split; auto]|].
  rewrite <- f2r_2_900. apply fle_R; auto. reflexivity.
Qed.
Lemma sum_bounds (row : nat -> outcome f64) order : forall s k,
  (forall u, u ∈ order -> exists g, row u = Ok g /\ good_value g) -> nonneg_finite s -> (f2r s <= INR k * bpow radix2 900)%R ->
  (Z.of_nat (k + length order) <= 2 ^ 53)%Z ->
  exists s', ofold (fun s v => g ← row v; Ok (fadd s g)) s order = Ok s' /\ nonneg_finite s'.
Proof.
  induction order as [|u order IH]; intros s k Hrow Hs Hk Hl; [cbn; eauto|].
  destruct (Hrow u ltac:(left)) as (g & Hg & (Vg & Fg & Pg) & Ug). cbn [ofold]. rewrite Hg. cbn [mbind outcome_bind].
  destruct Hs as (Vs & Fs & Ps). pose proof Pg as Pg0. pose proof Ps as Ps0. apply fle_R in Pg, Ps; auto using fvalid_f0. rewrite f2r_f0 in Pg, Ps.
  cbn [length] in Hl.
  assert (Hup : (rnd (f2r s + f2r g) <= INR (k + 1) * bpow radix2 900)%R).
  { rewrite <- (bpow900_format (k + 1)) by lia. apply rnd_le. rewrite plus_INR. cbn [INR]. lra. }
  assert (Hlo : (0 <= rnd (f2r s + f2r g))%R) by (rewrite <- rnd_0; apply rnd_le; lra).
  destruct (fadd_R s g Vs Vg Fs Fg) as [E F].
  { rewrite Rabs_pos_eq by exact Hlo. eapply Rle_lt_trans; [exact Hup|]. apply bpow900_small. lia. }
  apply (IH (fadd s g) (k + 1)).
  - intros w Hw. apply Hrow. right. exact Hw.
  - split; [apply fvalid_add; auto|]. split; [exact F|]. apply fle_R; auto using fvalid_f0, fvalid_add. rewrite f2r_f0, E. exact Hlo.
  - rewrite E. exact Hup.
  - lia.
Qed.

Lemma gen_range_f64_ok hi r : ffinite hi = true -> fle f0 hi = true -> exists d r', gen_range_f64 f0 hi r = Ok (d, r').
Proof.
  intros F H. unfold gen_range_f64. rewrite H.
  assert (E1 : fgt hi (S754_infinity true) = true) by (destruct hi as [|[]| |[] ]; try discriminate; reflexivity).
  assert (E2 : flt hi finf = true) by (destruct hi as [|[]| |[] ]; try discriminate; reflexivity).
  rewrite E1, E2. cbn. eauto.
Qed.
Lemma spin_ok row order : forall random next, (forall u, u ∈ order -> exists g, row u = Ok g) -> exists v, spin row random order next = Ok v.
Proof.
  induction order as [|u order IH]; intros random next H; cbn [spin]; [eauto|]. destruct (H u ltac:(left)) as [g Hg]. rewrite Hg. cbn [mbind outcome_bind].
  destruct (fle _ _); [eauto|]. apply IH. intros w Hw. apply H. right. exact Hw.
Qed.
Lemma roulette_ok row order lst r : (forall u, u ∈ order -> exists g, row u = Ok g /\ good_value g) -> (Z.of_nat (length order) <= 2 ^ 53)%Z ->
  exists v r', roulette row order lst r = Ok (v, r').
Proof.
  intros Hrow Hl. unfold roulette, goodness_sum.
  destruct (sum_bounds row order f0 0 Hrow) as (s & Hs & (Vs & Fs & Ps)).
  { split; [exact fvalid_f0|]. split; reflexivity. }
  { rewrite f2r_f0. cbn. lra. }
  { exact Hl. }
  rewrite Hs. cbn [mbind outcome_bind]. destruct (gen_range_f64_ok s r Fs Ps) as (d & r' & ->). cbn [mbind outcome_bind].
  destruct (spin_ok row order d lst) as (v & ->); [intros u Hu; destruct (Hrow u Hu) as (g & ? & _); eauto|]. cbn. eauto.
Qed.
Lemma exploit_fold_ok (row : nat -> outcome f64) order : forall st, (forall u, u ∈ order -> exists g, row u = Ok g) ->
  exists st', ofold (fun (st : nat * f64) v => g ← row v; Ok (if flt (snd st) g then (v, g) else st)) st order = Ok st'.
Proof.
  induction order as [|u order IH]; intros st H; cbn [ofold]; [eauto|]. destruct (H u ltac:(left)) as [g Hg]. rewrite Hg. cbn [mbind outcome_bind].
  apply IH. intros w Hw. apply H. right. exact Hw.
Qed.
Lemma exploit_ok row order lst : (forall u, u ∈ order -> exists g, row u = Ok g) -> exists v, exploit row order lst = Ok v.
Proof. intros H. unfold exploit. destruct (exploit_fold_ok row order (lst, fmin) H) as ([w x] & ->). cbn. eauto. Qed.

Lemma step_ok n g a : moderate g n -> (Z.of_nat n <= 2 ^ 53)%Z -> walking n a -> (a_stuck a = false -> a_unvisited a <> []) ->
  exists l v a', ant_step g a = Ok (l, v, a').
Proof.
  intros Hg Hn Hw Hne. pose proof Hw as (Hs & Hp & Hpart). unfold ant_step.
  destruct (last (a_path a)) as [l|] eqn:El; [|apply last_None in El; congruence]. cbn [unwrap mbind outcome_bind].
  destruct (a_stuck a) eqn:Es; [eauto|].
  assert (Hl : l < n).
  { assert (Hi : l ∈ a_path a ++ a_unvisited a) by (apply last_Some in El as [q ->]; apply elem_of_app; left; apply elem_of_app; right; left).
    rewrite Hpart in Hi. apply elem_of_seq in Hi. lia. }
  destruct (walking_usable n a Hw) as (_ & Hnd & Hall).
  rewrite (bool_decide_true (l < nrows g)) by (destruct Hg as (-> & _); exact Hl). rewrite bool_decide_true by auto. cbn [rassert mbind outcome_bind].
  destruct (shuffle_ok (a_unvisited a) (a_hash a)) as (order & h & Hsh). rewrite Hsh. cbn [mbind outcome_bind]. pose proof (shuffle_perm _ _ _ _ Hsh) as HP.
  assert (Hrow : forall u, u ∈ order -> exists v, mget g l u = Ok v /\ good_value v).
  { intros u Hu. rewrite HP in Hu. rewrite Forall_forall in Hall. destruct (moderate_good g n l u Hg Hl (Hall u Hu)) as [? ?]. eauto. }
  assert (Hlen : (Z.of_nat (length order) <= 2 ^ 53)%Z).
  { rewrite HP. pose proof (Permutation_length Hpart) as L. rewrite app_length, seq_length in L. lia. }
  destruct (a_rate a) as [rate|].
  - destruct (gen_f64 (a_rng a)) as [u r0]. destruct (flt u rate).
    + destruct (exploit_ok (fun v => mget g l v) order l) as (v & ->); [intros w Hw'; destruct (Hrow w Hw') as (? & ? & _); eauto|].
      cbn [mbind outcome_bind]. eauto.
    + destruct (roulette_ok (fun v => mget g l v) order l r0 Hrow Hlen) as (v & r' & ->). cbn [mbind outcome_bind]. eauto.
  - destruct (roulette_ok (fun v => mget g l v) order l (a_rng a) Hrow Hlen) as (v & r' & ->). cbn [mbind outcome_bind]. eauto.
Qed.
Lemma walk_ok n gs : (Z.of_nat n <= 2 ^ 53)%Z -> Forall (fun g => moderate g n) gs -> forall a, walking n a ->
  (a_stuck a = false -> length (a_path a) + length gs <= n) -> exists a', walk gs a = Ok a'.
Proof.
  intros Hn. induction 1 as [|g gs Hg Hgs IH]; intros a Hw Hl; [cbn; eauto|].
  destruct (step_ok n g a Hg Hn Hw) as (l & v & a1 & H1).
  { intros Es. specialize (Hl Es). cbn [length] in Hl. pose proof Hw as (_ & _ & Hp). rewrite Es in Hp. apply Permutation_length in Hp. rewrite app_length, seq_length in Hp.
    intros E. rewrite E in Hp. cbn in Hp. lia. }
  unfold walk. cbn [ofold]. rewrite H1. cbn [mbind outcome_bind]. destruct (step_walking n g a l v a1 Hw H1) as (Hw1 & HL & _).
  apply IH; [exact Hw1|]. intros E. destruct (HL E) as [E' L]. specialize (Hl E'). cbn [length] in Hl. lia.
Qed.
Lemma ant_walk_ok n gs a : 0 < n -> (Z.of_nat n <= 2 ^ 53)%Z -> usable n a -> Forall (fun g => moderate g n) gs -> length gs <= n - 1 ->
  exists a0 a', ant_start (ant_clear a) = Ok a0 /\ walk gs a0 = Ok a'.
Proof.
  intros H0 Hn Hu Hg Hl. destruct (start_ok n a Hu H0) as (a0 & E0). destruct (start_walking n a a0 Hu E0) as (Hw & Es & L).
  destruct (walk_ok n gs Hn Hg a0 Hw) as (a' & Ha); [lia|eauto].
Qed.
Lemma as_loop_ok n g : 0 < n -> (Z.of_nat n <= 2 ^ 53)%Z -> moderate g n -> forall ants, Forall (usable n) ants -> exists r, as_loop n g ants = Ok r.
Proof.
  intros H0 Hn Hg. induction 1 as [|a ants Ha Has [[ps as'] IH]]; cbn [as_loop]; [eauto|].
  destruct (ant_walk_ok n (replicate (n - 1) g) a H0 Hn Ha) as (a0 & a' & E0 & E1).
  { apply Forall_replicate. exact Hg. }
  { rewrite replicate_length. lia. }
  rewrite E0. cbn [mbind outcome_bind]. rewrite ant_steps_walk, E1. cbn [mbind outcome_bind]. destruct (a_stuck a'); [eauto|].
  rewrite IH. cbn. eauto.
Qed.
Lemma ant_system_ok op n ants pheromone g : 0 < n -> (Z.of_nat n <= 2 ^ 53)%Z -> nrows pheromone = n -> Forall (usable n) ants ->
  op pheromone = Ok g -> moderate g n -> exists r, ant_system op ants pheromone = Ok r.
Proof.
  intros H0 Hn Hr Hu Ho Hg. unfold ant_system. rewrite Ho. cbn [mbind outcome_bind]. rewrite Hr.
  destruct (as_loop_ok n g H0 Hn Hg ants Hu) as ([ps as'] & ->). cbn. eauto.
Qed.

(** ** When an ant cannot get stuck *)
Lemma f0_add_R g : fvalid g -> ffinite g = true -> f2r (fadd f0 g) = f2r g /\ ffinite (fadd f0 g) = true.
Proof.
  intros V F. destruct (fadd_R f0 g fvalid_f0 V eq_refl F) as [E F'].
  - rewrite f2r_f0, Rplus_0_l, rnd_id by exact V. apply f2r_bound, V.
  - rewrite E, f2r_f0, Rplus_0_l, rnd_id by exact V. auto.
Qed.
Lemma fadd_f0_finite g : ffinite (fadd f0 g) = true -> ffinite g = true.
Proof. destruct g as [[]|[]| |]; cbn; auto. Qed.
Lemma fsub_le0 d g : fvalid d -> fvalid g -> ffinite d = true -> ffinite g = true -> (0 <= f2r d <= f2r g)%R -> fle (fsub d g) f0 = true.
Proof.
  intros Vd Vg Fd Fg Hd.
  assert (H1 : (rnd (f2r d - f2r g) <= 0)%R) by (rewrite <- rnd_0; apply rnd_le; lra).
  assert (H2 : (- f2r g <= rnd (f2r d - f2r g))%R) by (rewrite <- (rnd_id g Vg) at 1; rewrite <- rnd_opp; apply rnd_le; lra).
  destruct (fsub_R d g Vd Vg Fd Fg) as [E F].
  { pose proof (f2r_bound _ Vg) as B. apply Rabs_def2 in B. apply Rabs_def1; lra. }
  apply fle_R; auto using fvalid_sub, fvalid_f0. rewrite E, f2r_f0. exact H1.
Qed.
(** With a single place left the wheel always stops there, whatever its goodness (or the draw panics). *)
Lemma roulette_single row x g lst r v r' : row x = Ok g -> fvalid g -> roulette row [x] lst r = Ok (v, r') -> v = x.
Proof.
  intros Hx Vg H. unfold roulette, goodness_sum in H. cbn [ofold] in H. rewrite Hx in H. cbn [mbind outcome_bind] in H.
  apply obind_Ok in H as ([d r1] & Hd & H). apply obind_Ok in H as (w & Hw & H). injection H as <- <-.
  destruct (gen_range_f64_Ok _ _ _ _ _ Hd fvalid_f0) as (Vd & Fd & _ & F1 & L0 & L1 & _).
  cbn [spin] in Hw. rewrite Hx in Hw. cbn [mbind outcome_bind] in Hw.
  assert (Fg : ffinite g = true) by (apply fadd_f0_finite, F1).
  destruct (f0_add_R g Vg Fg) as [E F].
  rewrite fsub_le0 in Hw; [injection Hw as <-; reflexivity|auto..].
  apply fle_R in L0; auto using fvalid_f0. apply fle_R in L1; auto using fvalid_add, fvalid_f0. rewrite f2r_f0 in L0. rewrite E in L1. lra.
Qed.

Lemma INR_rnd k : (Z.of_nat k <= 2 ^ 53)%Z -> rnd (INR k) = INR k.
Proof. intros H. destruct (f_of_nat_exact k H) as (V & _ & <-). apply rnd_id, V. Qed.
Lemma INR_small k : (Z.of_nat k <= 2 ^ 53)%Z -> (INR k < bpow radix2 1024)%R.
Proof. intros H. destruct (f_of_nat_exact k H) as (V & _ & <-). pose proof (f2r_bound _ V) as B. apply Rabs_def2 in B. lra. Qed.
Lemma sum_cons (k : nat -> nat) u l : sum_list (map k (u :: l)) = k u + sum_list (map k l).
Proof. reflexivity. Qed.
Lemma sum_exact (row : nat -> outcome f64) (k : nat -> nat) order : forall s t,
  (forall u, u ∈ order -> row u = Ok (f_of_nat (k u))) -> fvalid s -> ffinite s = true -> f2r s = INR t ->
  (Z.of_nat (t + sum_list (map k order)) <= 2 ^ 53)%Z ->
  exists s', ofold (fun s v => g ← row v; Ok (fadd s g)) s order = Ok s' /\ fvalid s' /\ ffinite s' = true /\ f2r s' = INR (t + sum_list (map k order)).
Proof.
  induction order as [|u order IH]; intros s t Hrow V F E Hb; cbn [ofold] in *.
  - exists s. change (sum_list (map k [])) with 0. rewrite Nat.add_0_r. auto.
  - rewrite Hrow by left. cbn [mbind outcome_bind]. rewrite sum_cons in *. destruct (f_of_nat_exact (k u) ltac:(lia)) as (V1 & F1 & E1).
    assert (EE : rnd (f2r s + f2r (f_of_nat (k u))) = INR (t + k u)) by (rewrite E, E1, <- plus_INR; apply INR_rnd; lia).
    destruct (fadd_R s (f_of_nat (k u)) V V1 F F1) as [E2 F2].
    { rewrite EE, Rabs_pos_eq by apply pos_INR. apply INR_small. lia. }
    rewrite EE in E2. destruct (IH (fadd s (f_of_nat (k u))) (t + k u)) as (s' & H1 & H2 & H3 & H4); auto using fvalid_add.
    + intros w Hw. apply Hrow. right. exact Hw.
    + lia.
    + exists s'. rewrite Nat.add_assoc. auto.
Qed.
Lemma spin_exact (row : nat -> outcome f64) (k : nat -> nat) order : forall random next v,
  (forall u, u ∈ order -> row u = Ok (f_of_nat (k u))) -> fvalid random -> ffinite random = true ->
  (0 <= f2r random <= INR (sum_list (map k order)))%R -> (Z.of_nat (sum_list (map k order)) <= 2 ^ 53)%Z -> order <> [] ->
  spin row random order next = Ok v -> v ∈ order.
Proof.
  induction order as [|u order IH]; intros random next v Hrow V F Hr Hb Hne H; [congruence|]. cbn [spin] in H.
  rewrite Hrow in H by left. cbn [mbind outcome_bind] in H.
  rewrite sum_cons in Hr, Hb.
  destruct (f_of_nat_exact (k u) ltac:(lia)) as (V1 & F1 & E1). rewrite plus_INR in Hr.
  destruct (fle (fsub random (f_of_nat (k u))) f0) eqn:Ef; [injection H as <-; left|].
  assert (Up : (rnd (f2r random - f2r (f_of_nat (k u))) <= INR (sum_list (map k order)))%R).
  { rewrite <- INR_rnd by lia. apply rnd_le. lra. }
  assert (Lo : (- INR (k u) <= rnd (f2r random - f2r (f_of_nat (k u))))%R).
  { rewrite <- (INR_rnd (k u)) by lia. rewrite <- rnd_opp. apply rnd_le. lra. }
  destruct (fsub_R random (f_of_nat (k u)) V V1 F F1) as [E2 F2].
  { pose proof (INR_small (k u) ltac:(lia)). pose proof (INR_small (sum_list (map k order)) ltac:(lia)). apply Rabs_def1; lra. }
  apply not_fle_flt in Ef; [|apply ffinite_not_nan; auto|reflexivity]. apply flt_R in Ef; auto using fvalid_sub, fvalid_f0. rewrite f2r_f0, E2 in Ef.
  right. apply (IH (fsub random (f_of_nat (k u))) next); auto using fvalid_sub.
  - intros w Hw. apply Hrow. right. exact Hw.
  - rewrite E2. lra.
  - lia.
  - intros ->. change (sum_list (map k [])) with 0 in Up. cbn [INR] in Up. lra.
Qed.
Lemma roulette_exact (row : nat -> outcome f64) (k : nat -> nat) order lst r : (forall u, u ∈ order -> row u = Ok (f_of_nat (k u))) ->
  (Z.of_nat (sum_list (map k order)) <= 2 ^ 53)%Z -> order <> [] -> exists v r', roulette row order lst r = Ok (v, r') /\ v ∈ order.
Proof.
  intros Hrow Hb Hne. unfold roulette, goodness_sum.
  destruct (sum_exact row k order f0 0 Hrow fvalid_f0 eq_refl ltac:(rewrite f2r_f0; reflexivity) Hb) as (s & -> & Vs & Fs & Es). cbn [mbind outcome_bind].
  cbn [Nat.add] in Es. assert (Ps : fle f0 s = true) by (apply fle_R; auto using fvalid_f0; rewrite f2r_f0, Es; apply pos_INR).
  destruct (gen_range_f64_ok s r Fs Ps) as (d & r' & Hd). rewrite Hd. cbn [mbind outcome_bind].
  destruct (gen_range_f64_Ok _ _ _ _ _ Hd fvalid_f0) as (Vd & Fd & _ & _ & L0 & L1 & _).
  destruct (spin_ok row order d lst) as (v & Hv); [intros u Hu; rewrite Hrow by exact Hu; eauto|]. rewrite Hv. cbn [mbind outcome_bind].
  exists v, r'. split; [reflexivity|]. eapply spin_exact; eauto.
  apply fle_R in L0; auto using fvalid_f0. apply fle_R in L1; auto. rewrite f2r_f0 in L0. lra.
Qed.
Lemma exploit_picks (row : nat -> outcome f64) order lst : (forall u, u ∈ order -> exists g, row u = Ok g /\ flt fmin g = true) -> order <> [] ->
  exists v, exploit row order lst = Ok v /\ v ∈ order.
Proof.
  intros Hrow Hne. destruct (exploit_ok row order lst) as (v & Hv); [intros u Hu; destruct (Hrow u Hu) as (g & ? & _); eauto|].
  exists v. split; [exact Hv|]. eapply exploit_max; eauto. intros u g Hu Hg. destruct (Hrow u Hu) as (g' & Hg' & L). congruence.
Qed.
Lemma fmin_lt_nat k : (Z.of_nat k <= 2 ^ 53)%Z -> flt fmin (f_of_nat k) = true.
Proof.
  intros H. destruct (f_of_nat_exact k H) as (V & F & E). apply flt_R; auto; [reflexivity|]. rewrite E.
  apply Rlt_le_trans with 0%R; [|apply pos_INR]. unfold f2r, fmin, SF2R. apply F2R_lt_0. reflexivity.
Qed.

Lemma sum_list_perm (l k : list nat) : l ≡ₚ k -> sum_list l = sum_list k.
Proof. induction 1; cbn in *; lia. Qed.
Lemma sum_list_app (l k : list nat) : sum_list (l ++ k) = sum_list l + sum_list k.
Proof. induction l as [|x l IH]; cbn in *; [lia|]. rewrite IH. lia. Qed.
Lemma sum_list_part (k : nat -> nat) order rest n : order ++ rest ≡ₚ seq 0 n -> sum_list (map k order) <= sum_list (map k (seq 0 n)).
Proof. intros H. rewrite <- (sum_list_perm _ _ (Permutation_map k H)), map_app, sum_list_app. lia. Qed.

Lemma step_whole n g a : whole g n -> walking n a -> a_stuck a = false -> a_unvisited a <> [] ->
  exists l v a', ant_step g a = Ok (l, v, a') /\ v ∈ a_unvisited a /\ a_stuck a' = false.
Proof.
  intros (Hr & Hc & k & Hk & Hsum) Hw Es Hne. pose proof Hw as (Hs & Hp & Hpart). rewrite Es in Hpart.
  destruct (last (a_path a)) as [l|] eqn:El; [|apply last_None in El; congruence].
  assert (Hl : l < n).
  { assert (Hi : l ∈ a_path a ++ a_unvisited a) by (apply last_Some in El as [q ->]; apply elem_of_app; left; apply elem_of_app; right; left).
    rewrite Hpart in Hi. apply elem_of_seq in Hi. lia. }
  destruct (walking_usable n a Hw) as (_ & Hnd & Hall). rewrite Forall_forall in Hall.
  destruct (shuffle_ok (a_unvisited a) (a_hash a)) as (order & h & Hsh). pose proof (shuffle_perm _ _ _ _ Hsh) as HP.
  assert (Hrow : forall u, u ∈ order -> mget g l u = Ok (f_of_nat (k l u))).
  { intros u Hu. rewrite HP in Hu. pose proof (Hall u Hu). unfold mget. rewrite decide_True by lia. rewrite Hk by lia. reflexivity. }
  assert (Hb : (Z.of_nat (sum_list (map (k l) order)) <= 2 ^ 53)%Z).
  { specialize (Hsum l Hl). pose proof (sum_list_part (k l) order (a_path a) n) as X. assert (order ++ a_path a ≡ₚ seq 0 n) as HX by (rewrite HP, Permutation_app_comm; exact Hpart).
    specialize (X HX). lia. }
  assert (Hone : forall u, u ∈ order -> (Z.of_nat (k l u) <= 2 ^ 53)%Z).
  { intros u Hu. apply elem_of_list_split in Hu as (l1 & l2 & E). rewrite E, map_app, sum_list_app, sum_cons in Hb. lia. }
  assert (Hne' : order <> []) by (intros ->; apply Permutation_nil in HP; congruence).
  assert (Hpick : exists v r', match a_rate a with
      | None => roulette (fun v => mget g l v) order l (a_rng a)
      | Some rate => let '(u, r) := gen_f64 (a_rng a) in
          if flt u rate then next ← exploit (fun v => mget g l v) order l; Ok (next, r) else roulette (fun v => mget g l v) order l r
      end = Ok (v, r') /\ v ∈ order).
  { destruct (a_rate a) as [rate|].
    - destruct (gen_f64 (a_rng a)) as [u r0]. destruct (flt u rate).
      + destruct (exploit_picks (fun v => mget g l v) order l) as (v & Hv & Hi); [|exact Hne'|rewrite Hv; cbn [mbind outcome_bind]; eauto].
        intros w Hw'. rewrite Hrow by exact Hw'. eexists. split; [reflexivity|]. apply fmin_lt_nat. auto.
      + apply (roulette_exact (fun v => mget g l v) (k l)); auto.
    - apply (roulette_exact (fun v => mget g l v) (k l)); auto. }
  destruct Hpick as (v & r' & Hv & Hi). rewrite HP in Hi.
  unfold ant_step. rewrite El. cbn [unwrap mbind outcome_bind]. rewrite Es.
  rewrite (bool_decide_true (l < nrows g)) by (rewrite Hr; exact Hl). rewrite bool_decide_true by exact Hne. cbn [rassert mbind outcome_bind].
  rewrite Hsh. cbn [mbind outcome_bind]. cbn zeta. cbn beta in Hv. rewrite Hv. cbn [mbind outcome_bind].
  eexists l, v, _. split; [reflexivity|]. split; [exact Hi|]. cbn [a_stuck]. rewrite bool_decide_false; [reflexivity|].
  intros ->. assert (Hnd2 : NoDup (a_path a ++ a_unvisited a)) by (rewrite Hpart; apply NoDup_seq). apply NoDup_app in Hnd2 as (_ & Hd & _).
  apply (Hd l); [|exact Hi]. apply last_Some in El as [q ->]. apply elem_of_app. right. left.
Qed.
Lemma walk_whole n gs : Forall (fun g => whole g n) gs -> forall a, walking n a -> a_stuck a = false ->
  length (a_path a) + length gs <= n -> exists a', walk gs a = Ok a' /\ a_stuck a' = false.
Proof.
  induction 1 as [|g gs Hg Hgs IH]; intros a Hw Es Hl; [cbn; eauto|].
  destruct (step_whole n g a Hg Hw Es) as (l & v & a1 & H1 & _ & Es1).
  { cbn [length] in Hl. pose proof Hw as (_ & _ & Hp). rewrite Es in Hp. apply Permutation_length in Hp. rewrite app_length, seq_length in Hp.
    intros E. rewrite E in Hp. cbn in Hp. lia. }
  unfold walk. cbn [ofold]. rewrite H1. cbn [mbind outcome_bind]. destruct (step_walking n g a l v a1 Hw H1) as (Hw1 & HL & _).
  apply IH; auto. destruct (HL Es1) as [_ L]. cbn [length] in Hl. lia.
Qed.
Lemma whole_tour n gs a : 0 < n -> usable n a -> Forall (fun g => whole g n) gs -> length gs = n - 1 ->
  exists a0 a', ant_start (ant_clear a) = Ok a0 /\ walk gs a0 = Ok a' /\ a_stuck a' = false /\ tour n (a_path a').
Proof.
  intros H0 Hu Hg Hl. destruct (start_ok n a Hu H0) as (a0 & E0). destruct (start_walking n a a0 Hu E0) as (Hw & Es & L).
  destruct (walk_whole n gs Hg a0 Hw Es) as (a' & Ha & Es'); [lia|]. exists a0, a'. split_and!; auto. eapply walk_tour; eauto.
Qed.

(** ** The last step *)
Definition sane (a : ant) (g : matrix) (n : nat) : Prop :=
  forall i j, i < n -> j < n -> fvalid (entry g i j) /\ (a_rate a = None \/ flt fmin (entry g i j) = true).
Lemma mget_Ok m i j v : mget m i j = Ok v <-> (i < nrows m /\ j < ncols m) /\ v = entry m i j.
Proof. unfold mget. case_decide; split; [intros [= <-]|intros [_ ->]|discriminate|]; try tauto. Qed.
Lemma step_rate g a l v a' : ant_step g a = Ok (l, v, a') -> a_rate a' = a_rate a.
Proof.
  unfold ant_step. intros H. apply obind_Ok in H as (l0 & Hl & H). destruct (a_stuck a).
  - injection H as _ _ <-. reflexivity.
  - apply obind_Ok in H as ([] & _ & H). apply obind_Ok in H as ([] & H2 & H). apply obind_Ok in H as ([order h] & Hsh & H).
    apply obind_Ok in H as ([w r] & Hw & H). injection H as _ _ <-. reflexivity.
Qed.
Lemma last_step_tour n g a l v a' : walking n a -> a_stuck a = false -> length (a_path a) + 1 = n -> sane a g n ->
  ant_step g a = Ok (l, v, a') -> a_stuck a' = false.
Proof.
  intros Hw Es Hlen Hsane H. pose proof Hw as (Hs & Hp & Hpart). rewrite Es in Hpart.
  assert (Hu : length (a_unvisited a) = 1).
  { apply Permutation_length in Hpart. rewrite app_length, seq_length in Hpart. lia. }
  destruct (a_unvisited a) as [|x [|]] eqn:Eu; try discriminate Hu. clear Hu.
  assert (Hnd : NoDup (a_path a ++ [x])) by (rewrite Hpart; apply NoDup_seq).
  destruct (step_cases _ _ _ _ _ H) as [El [(E & _)|(_ & _ & _ & _ & _ & _ & Est)]]; [congruence|].
  rewrite Est. apply bool_decide_eq_false. 
  assert (Hlx : l <> x).
  { intros ->. apply NoDup_app in Hnd as (_ & Hd & _). apply (Hd x); [|left]. apply last_Some in El as [q ->]. apply elem_of_app. right. left. }
  assert (Hin : forall y, y = l \/ y = x -> y < n).
  { intros y Hy. assert (Hi : y ∈ a_path a ++ [x]).
    { destruct Hy as [->| ->]; apply elem_of_app; [left|right; left]. apply last_Some in El as [q ->]. apply elem_of_app. right. left. }
    rewrite Hpart in Hi. apply elem_of_seq in Hi. lia. }
  destruct (Hsane l x (Hin l (or_introl eq_refl)) (Hin x (or_intror eq_refl))) as [Vx Hrate].
  unfold ant_step in H. rewrite El in H. cbn [unwrap mbind outcome_bind] in H. rewrite Es in H.
  apply obind_Ok in H as ([] & _ & H). apply obind_Ok in H as ([] & _ & H). apply obind_Ok in H as ([order h] & Hsh & H).
  rewrite Eu in Hsh. apply shuffle_perm in Hsh. symmetry in Hsh. apply Permutation_length_1_inv in Hsh as ->.
  apply obind_Ok in H as ([w r] & Hw' & H). injection H as <- _.
  assert (Hrow : forall y, roulette (fun v => mget g l v) [x] l y = Ok (w, r) -> w = x).
  { intros y Hy. assert (Hg : exists gx, mget g l x = Ok gx).
    { unfold roulette, goodness_sum in Hy. apply obind_Ok in Hy as (s & Hy & _). cbn [ofold] in Hy. apply obind_Ok in Hy as (s1 & Hy & _).
      apply obind_Ok in Hy as (gx & Hy & _). eauto. }
    destruct Hg as [gx Hg]. eapply (roulette_single (fun v => mget g l v) x gx); eauto. apply mget_Ok in Hg as [_ ->]. exact Vx. }
  assert (w = x); [|congruence].
  destruct (a_rate a) as [rate|]; [|eapply Hrow; eauto]. destruct Hrate as [|Hrate]; [discriminate|].
  destruct (gen_f64 (a_rng a)) as [u r0]. destruct (flt u rate); [|eapply Hrow; eauto].
  apply obind_Ok in Hw' as (w' & Hx & E). injection E as -> _.
  destruct (exploit_max (fun v => mget g l v) [x] l w Hx) as [Hi _]; [discriminate| |apply elem_of_list_singleton in Hi; exact Hi].
  intros u' g' Hu' Hg'. apply elem_of_list_singleton in Hu' as ->. apply mget_Ok in Hg' as [_ ->]. exact Hrate.
Qed.
Lemma acs_round_rate g : forall ants paths ants', acs_round g ants = Ok (paths, ants') -> map a_rate ants' = map a_rate ants.
Proof.
  induction ants as [|a ants IH]; intros paths ants' H; cbn [acs_round] in H; [injection H as <- <-; reflexivity|].
  destruct (a_stuck a).
  - apply obind_Ok in H as ([ps as'] & H1 & H). injection H as <- <-. cbn [map]. f_equal. eauto.
  - apply obind_Ok in H as ([[l v] a1] & Hst & H). apply obind_Ok in H as ([ps as'] & H1 & H). injection H as <- <-. cbn [map]. f_equal; [|eauto].
    eapply step_rate; eauto.
Qed.
Lemma acs_last_round n g : forall ants paths ants', Forall (acs_ant n (n - 2)) ants -> 2 <= n -> Forall (fun a => sane a g n) ants ->
  acs_round g ants = Ok (paths, ants') -> Forall (tour n) paths.
Proof.
  induction ants as [|a ants IH]; intros paths ants' Hu Hn Hs H; cbn [acs_round] in H; [injection H as <- <-; constructor|].
  inversion_clear Hu as [|? ? [Hw Hl] Hus]. inversion_clear Hs as [|? ? Hs1 Hss]. destruct (a_stuck a) eqn:Es.
  - apply obind_Ok in H as ([ps as'] & H1 & H). injection H as <- <-. eauto.
  - apply obind_Ok in H as ([[l v] a1] & Hst & H). apply obind_Ok in H as ([ps as'] & H1 & H). injection H as <- <-.
    constructor; [|eauto]. specialize (Hl eq_refl). destruct (step_walking n g a l v a1 Hw Hst) as (Hw1 & _ & Hl2). specialize (Hl2 Es).
    apply walking_complete; [exact Hw1| |lia]. eapply (last_step_tour n g a l v a1); eauto. lia.
Qed.
Lemma sane_rates g n ants ants' : map a_rate ants' = map a_rate ants -> Forall (fun a => sane a g n) ants -> Forall (fun a => sane a g n) ants'.
Proof.
  revert ants. induction ants' as [|b ants' IH]; intros [|a ants] E H; try discriminate; constructor.
  - inversion_clear H as [|? ? H1 _]. cbn in E. injection E as E _. unfold sane in *. rewrite E. exact H1.
  - inversion_clear H. cbn in E. injection E as _ E. eauto.
Qed.
Lemma acs_rounds_tour n op local rounds : forall k paths ants p paths' ants' p',
  Forall (acs_ant n k) ants -> (forall p g, op p = Ok g -> Forall (fun a => sane a g n) ants) -> k + rounds = n - 1 -> 1 <= rounds ->
  acs_rounds op local rounds paths ants p = Ok (paths', ants', p') -> Forall (tour n) paths'.
Proof.
  induction rounds as [|rounds IH]; intros k paths ants p paths' ants' p' Ha Hop Hk Hr H; [lia|]. cbn [acs_rounds] in H.
  apply obind_Ok in H as (g & Hg & H). apply obind_Ok in H as ([ps as'] & H1 & H). apply obind_Ok in H as (p1 & _ & H).
  destruct rounds as [|rounds].
  - cbn [acs_rounds] in H. injection H as <- <- <-. apply (acs_last_round n g ants ps as'); [|lia|eauto|exact H1]. replace (n - 2) with k by lia. exact Ha.
  - destruct (acs_round_spec n k g _ _ _ Ha H1) as (HA & _ & _ & _). eapply (IH (k + 1)); eauto; [|lia|lia].
    intros p2 g2 Hg2. eapply sane_rates; [eapply acs_round_rate; eauto|eauto].
Qed.
Lemma ant_colony_system_tours op local n ants pheromone paths ants' p' : nrows pheromone = n -> Forall (usable n) ants ->
  (forall p g i j, op p = Ok g -> i < n -> j < n ->
     fvalid (entry g i j) /\ (Forall (fun a => a_rate a = None) ants \/ flt fmin (entry g i j) = true)) ->
  ant_colony_system op local ants pheromone = Ok (paths, ants', p') -> Forall (tour n) paths.
Proof.
  intros Hr Hu Hop H. apply obind_Ok in H as (ants0 & H0 & H). rewrite Hr in H. destruct (omapM_start n ants ants0 Hu H0) as [HA HL].
  destruct (decide (2 <= n)) as [Hn|Hn].
  - eapply (acs_rounds_tour n op local (n - 1) 0); eauto; [|lia]. intros p g Hg.
    assert (Hrates : map a_rate ants0 = map a_rate ants).
    { clear -H0. revert ants0 H0. induction ants as [|a ants IH]; intros ants0 H0; cbn [omapM] in H0; [injection H0 as <-; reflexivity|].
      apply obind_Ok in H0 as (a0 & Ha & H0). apply obind_Ok in H0 as (as' & Has & H0). injection H0 as <-. cbn [map]. f_equal; [|eauto].
      unfold ant_start in Ha. apply obind_Ok in Ha as ([st r] & _ & Ha). injection Ha as <-. reflexivity. }
    apply (sane_rates g n ants); [exact Hrates|]. apply Forall_forall. intros a Hin i j Hi Hj.
    destruct (Hop p g i j Hg Hi Hj) as [V [HR|L]]; [|auto]. rewrite Forall_forall in HR. auto.
  - replace (n - 1) with 0 in H by lia. cbn [acs_rounds] in H. injection H as <- <- <-. constructor.
Qed.

(** ** One step, in terms of the ant *)
Lemma step_zero_draw g a l v a' : ant_step g a = Ok (l, v, a') -> a_rate a = None -> v <> l ->
  (forall u, u ∈ a_unvisited a -> nonneg_finite (entry g l u)) -> feq (entry g l v) f0 = true -> a_stuck a = false ->
  exists total d r', gen_range_f64 f0 total (a_rng a) = Ok (d, r') /\ feq d f0 = true.
Proof.
  intros H Er Hv Hrow Hz Es. destruct (step_cases _ _ _ _ _ H) as [El [(E & _)|_]]; [congruence|].
  unfold ant_step in H. rewrite El in H. cbn [unwrap mbind outcome_bind] in H. rewrite Es in H.
  apply obind_Ok in H as ([] & _ & H). apply obind_Ok in H as ([] & _ & H). apply obind_Ok in H as ([order h] & Hsh & H).
  apply shuffle_perm in Hsh. rewrite Er in H. apply obind_Ok in H as ([w r] & Hw & H). injection H as <- E2.
  unfold roulette in Hw. apply obind_Ok in Hw as (s & Hs & Hw). apply obind_Ok in Hw as ([d r1] & Hd & Hw). apply obind_Ok in Hw as (w' & Hspin & Hw). injection Hw as -> ->.
  exists s, d, r. split; [exact Hd|]. destruct (gen_range_f64_Ok _ _ _ _ _ Hd fvalid_f0) as (Vd & Fd & _ & _ & L0 & _ & _).
  destruct (flt f0 d) eqn:Ep.
  - exfalso. assert (Hpos : w = l \/ (w ∈ order /\ exists gv, mget g l w = Ok gv /\ flt f0 gv = true)).
    { eapply (spin_positive (fun v => mget g l v)); eauto. intros u gu Hu Hgu. apply mget_Ok in Hgu as [_ ->]. apply Hrow. rewrite <- Hsh. exact Hu. }
    assert (Hwl : flt f0 (entry g l w) = true -> False).
    { intros L. unfold flt, feq, SFltb, SFeqb in *. destruct (entry g l w) as [[]|[]| |[]]; cbn in *; discriminate. }
    destruct Hpos as [->|(_ & gv & Hgv & L)]; [congruence|apply mget_Ok in Hgv as [_ ->]; auto].
  - apply not_flt_fle in Ep; [|reflexivity|apply ffinite_not_nan; exact Fd]. unfold feq, fle, SFleb, SFeqb in *. destruct d as [[]|[]| |[]]; cbn in *; congruence.
Qed.
