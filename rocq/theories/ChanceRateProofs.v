(** * Proofs: mutation and crossover rates as shares of the draws *)
From Verif Require Export ChanceSpec.
From Verif Require Import MutationSpec MutationModel MutationProofs CrossoverSpec CrossoverModel CrossoverProofs.
From Verif Require Import F64R SelectionModel SelectionProofs.
From Coq Require Import Reals Lra Lia.
From Flocq Require Import Core.Core IEEE754.BinarySingleNaN.
Local Existing Instances Hfexp HNE Hprec53 Hmax1024.

(** The number of draws k < 2^w with k/2^w < p, and with k/2^w <= p *)
Lemma below_chance (w : N) rate : (w <= 53)%N -> fvalid rate -> ffinite rate = true -> (0 <= f2r rate <= 1)%R ->
  exists K, chance_up K (2 ^ w) (f2r rate) /\ forall k, (k < 2 ^ w)%N -> flt (f_unit w k) rate = (k <? K)%N.
Proof.
  intros Hw V F R. set (M := IZR (Z.of_N (2 ^ w))).
  assert (M = bpow radix2 (Z.of_N w)) as EM. { unfold M. rewrite N2Z.inj_pow. change (Z.of_N 2) with (radix_val radix2). rewrite IZR_Zpower by lia. reflexivity. }
  assert (0 < M)%R as M0 by (rewrite EM; apply bpow_gt_0). set (c := Zceil (f2r rate * M)).
  pose proof (Zceil_ub (f2r rate * M)) as U. fold c in U.
  assert (IZR c < f2r rate * M + 1)%R as L. { unfold c, Zceil. rewrite opp_IZR. pose proof (Zfloor_ub (- (f2r rate * M))). lra. }
  assert (0 <= c)%Z as C0. { apply le_IZR. eapply Rle_trans; [|exact U]. nra. }
  assert (c <= Z.of_N (2 ^ w))%Z as C1. { apply Z.lt_succ_r. apply lt_IZR. rewrite succ_IZR. fold M. eapply Rlt_le_trans; [exact L|]. nra. }
  exists (Z.to_N c). split.
  - split; [lia|]. rewrite Z2N.id by exact C0. fold M. lra.
  - intros k Hk. pose proof (f2r_unit w k Hw Hk) as E. rewrite bpow_opp, <- EM in E.
    destruct (N.ltb_spec k (Z.to_N c)) as [H|H].
    + apply flt_R; auto using fvalid_unit, ffinite_unit. rewrite E. apply Rmult_lt_reg_r with M; [exact M0|]. rewrite Rmult_assoc, Rinv_l, Rmult_1_r by lra.
      assert (Z.of_N k <= c - 1)%Z as H' by lia. apply IZR_le in H'. rewrite minus_IZR in H'. lra.
    + apply Bool.not_true_iff_false. intros H'. apply flt_R in H'; auto using fvalid_unit, ffinite_unit. rewrite E in H'.
      apply (Rmult_lt_compat_r M) in H'; [|exact M0]. rewrite Rmult_assoc, Rinv_l, Rmult_1_r in H' by lra.
      assert (IZR (Z.of_N k) < IZR c)%R as X by lra. apply lt_IZR in X. lia.
Qed.
Lemma up_to_chance (w : N) rate : (w <= 53)%N -> fvalid rate -> ffinite rate = true -> (0 <= f2r rate <= 1)%R ->
  exists K, chance_over K (2 ^ w) (f2r rate) /\ forall k, (k < 2 ^ w)%N -> fle (f_unit w k) rate = (k <? K)%N.
Proof.
  intros Hw V F R. set (M := IZR (Z.of_N (2 ^ w))).
  assert (M = bpow radix2 (Z.of_N w)) as EM. { unfold M. rewrite N2Z.inj_pow. change (Z.of_N 2) with (radix_val radix2). rewrite IZR_Zpower by lia. reflexivity. }
  assert (0 < M)%R as M0 by (rewrite EM; apply bpow_gt_0). set (c := Zfloor (f2r rate * M)).
  pose proof (Zfloor_lb (f2r rate * M)) as U. pose proof (Zfloor_ub (f2r rate * M)) as L. fold c in U, L.
  assert (0 <= c)%Z as C0. { unfold c. apply Zfloor_lub. nra. }
  assert (forall k, (k < 2 ^ w)%N -> fle (f_unit w k) rate = (Z.of_N k <=? c)%Z) as HF.
  { intros k Hk. pose proof (f2r_unit w k Hw Hk) as E. rewrite bpow_opp, <- EM in E.
    destruct (Z.leb_spec (Z.of_N k) c) as [H|H].
    + apply fle_R; auto using fvalid_unit, ffinite_unit. rewrite E. apply Rmult_le_reg_r with M; [exact M0|]. rewrite Rmult_assoc, Rinv_l, Rmult_1_r by lra.
      apply IZR_le in H. lra.
    + apply Bool.not_true_iff_false. intros H'. apply fle_R in H'; auto using fvalid_unit, ffinite_unit. rewrite E in H'.
      apply (Rmult_le_compat_r M) in H'; [|lra]. rewrite Rmult_assoc, Rinv_l, Rmult_1_r in H' by lra.
      assert (c + 1 <= Z.of_N k)%Z as X by lia. apply IZR_le in X. rewrite plus_IZR in X. lra. }
  destruct (Z.le_gt_cases (Z.of_N (2 ^ w)) (c + 1)) as [C1|C1].
  - exists (2 ^ w)%N. split; [|intros k Hk; rewrite HF by exact Hk; rewrite (proj2 (N.ltb_lt _ _) Hk); apply Z.leb_le; lia].
    left. split; [reflexivity|]. fold M. apply IZR_le in C1. fold M in C1. rewrite plus_IZR in C1. apply Rmult_le_reg_r with M; [exact M0|]. rewrite Rmult_minus_distr_r, Rinv_l by lra. lra.
  - exists (Z.to_N (c + 1)). split; [right; split; [lia|]|].
    + rewrite Z2N.id by lia. fold M. rewrite plus_IZR. lra.
    + intros k Hk. rewrite HF by exact Hk. destruct (Z.leb_spec (Z.of_N k) c), (N.ltb_spec k (Z.to_N (c + 1))); try reflexivity; lia.
Qed.

Lemma mod_52 (r : rng) i : (r i mod 2 ^ 52 < 2 ^ 52)%N. Proof. apply N.mod_lt. discriminate. Qed.
Lemma mod_53 (r : rng) i : (r i mod 2 ^ 53 < 2 ^ 53)%N. Proof. apply N.mod_lt. discriminate. Qed.

Section Rates.
Variable rate : f64.
Hypothesis V : fvalid rate.
Hypothesis F : ffinite rate = true.
Hypothesis R01 : (0 <= f2r rate <= 1)%R.

Lemma flip_chance : exists K, chance_up K (2 ^ 52) (f2r rate) /\ forall (ch : list bool) (r t : rng),
  exists ch' r', flip_bit rate ch r t = Ok (ch', r', t) /\
    forall i b, ch !! i = Some b -> ch' !! i = Some (if (r i mod 2 ^ 52 <? K)%N then negb b else b).
Proof using All.
  destruct (below_chance 52 rate ltac:(lia) V F R01) as (K & C & H). exists K. split; [exact C|]. intros ch r t.
  destruct (flip_bit_spec rate ch r t) as (ch' & r' & E & _ & Hs). exists ch', r'. split; [exact E|]. intros i b Hb. rewrite (Hs i b Hb). unfold unit_draw. rewrite H by apply mod_52. reflexivity.
Qed.
Lemma reversing_chance : exists K, chance_up K (2 ^ 52) (f2r rate) /\ forall (G : Type) (x : G) (rest : list G) (r t : rng),
  exists r', reversing rate (x :: rest) r t = Ok (sweep (fun k => (r k mod 2 ^ 52 <? K)%N) 0 x rest, r', t).
Proof using All.
  destruct (below_chance 52 rate ltac:(lia) V F R01) as (K & C & H). exists K. split; [exact C|]. intros G x rest r t.
  destruct (reversing_sweep rate x rest r t) as (r' & E). exists r'. rewrite E. do 3 f_equal. apply sweep_ext. intros k _. unfold unit_draw. apply H, mod_52.
Qed.
Lemma inversion_chance : exists K, chance_over K (2 ^ 53) (f2r rate) /\ forall (G : Type) (ch : list G) (r t : rng), ch <> [] ->
  ((r 0%nat mod 2 ^ 53 <? K)%N = false -> inversion rate ch r t = Ok (ch, rng_tail r, t)) /\
  ((r 0%nat mod 2 ^ 53 <? K)%N = true -> exists from to r', from = N.to_nat (r 1%nat mod N.of_nat (length ch)) /\ to = from + N.to_nat (r 2%nat mod N.of_nat (length ch - from)) /\
     inversion rate ch r t = Ok (reverse_segment from to ch, r', t)).
Proof using All.
  destruct (up_to_chance 53 rate ltac:(lia) V F R01) as (K & C & H). exists K. split; [exact C|]. intros G ch r t Hne.
  assert (flt rate (gen_f64 r).1 = negb (r 0%nat mod 2 ^ 53 <? K)%N) as E.
  { cbn [gen_f64 fst]. pose proof (H _ (mod_53 r 0)) as E. rewrite <- E. 
    assert (F64.is_nan (f_unit 53 (r 0%nat mod 2 ^ 53)) = false) by (apply ffinite_not_nan, ffinite_unit).
    destruct (fle _ rate) eqn:L; cbn [negb].
    - apply Bool.not_true_iff_false. intros X. assert (fvalid (f_unit 53 (r 0%nat mod 2 ^ 53))) as Vu by (apply fvalid_unit; [lia|apply mod_53]). pose proof (ffinite_unit 53 (r 0%nat mod 2 ^ 53)) as Fu.
      apply flt_R in X; auto. apply fle_R in L; auto. lra.
    - apply not_fle_flt; auto. apply ffinite_not_nan. exact F. }
  split; intros D; rewrite D in E; cbn [negb] in E; [apply inversion_quiet; exact E|].
  unfold inversion. change (gen_f64 r) with (f_unit 53 (r 0%nat mod 2 ^ 53), rng_tail r) in *. cbv beta iota. unfold fgt. cbn [fst] in E. rewrite E. assert (0 < length ch) as H0 by (destruct ch; [done|cbn; lia]). assert (gen_range 0 (length ch) (rng_tail r) = Ok (0 + N.to_nat (rng_tail r 0 mod N.of_nat (length ch - 0)), rng_tail (rng_tail r))) as -> by (unfold gen_range; rewrite decide_True by exact H0; reflexivity). cbn [mbind outcome_bind].
  rewrite Nat.sub_0_r, Nat.add_0_l. change (rng_tail r 0) with (r 1). set (from := N.to_nat (r 1%nat mod N.of_nat (length ch))%N).
  assert (from < length ch) as Hf. { unfold from. assert (r 1%nat mod N.of_nat (length ch) < N.of_nat (length ch))%N; [apply N.mod_lt; destruct ch; [done|cbn; lia]|lia]. }
  unfold gen_range. rewrite decide_True by exact Hf. cbn [mbind outcome_bind]. change (rng_tail (rng_tail r) 0) with (r 2).
  set (to := from + N.to_nat (r 2%nat mod N.of_nat (length ch - from))%N).
  assert (to < length ch) as Ht. { unfold to. assert (r 2%nat mod N.of_nat (length ch - from) < N.of_nat (length ch - from))%N; [apply N.mod_lt; lia|lia]. }
  assert (from <= to) as Hft by apply Nat.le_add_r. rewrite inversion_loop_segment by (split; assumption). cbn [mbind outcome_bind]. eexists from, to, _. split; [reflexivity|]. split; reflexivity.
Qed.

Lemma interchange_step_exchange {G} len (ch : list G) r t n m i : length ch = len -> i < len ->
  interchange_step rate len (ch, rng_skip n r, rng_skip m t) i =
  Ok (if flt (unit_draw r n) rate then exchange i (N.to_nat (t m mod N.of_nat len)) ch else ch, rng_skip (S n) r, rng_skip (if flt (unit_draw r n) rate then S m else m) t).
Proof.
  intros Hl Hi. unfold interchange_step. rewrite uni_f64_skip. destruct (flt (unit_draw r n) rate); [|reflexivity].
  unfold gen_range. rewrite decide_True by lia. cbn [mbind outcome_bind]. rewrite Nat.sub_0_r, Nat.add_0_l.
  rewrite rng_skip_lookup, Nat.add_0_r. set (j := N.to_nat (t m mod N.of_nat len)%N).
  assert (j < len) as Hj. { unfold j. assert (t m mod N.of_nat len < N.of_nat len)%N; [apply N.mod_lt; lia|lia]. }
  destruct (lookup_lt_is_Some_2 ch j) as [b Hb]; [lia|]. destruct (lookup_lt_is_Some_2 ch i) as [a Ha]; [lia|].
  rewrite (proj2 (index_Ok _ _ _) Hb). cbn [mbind outcome_bind]. rewrite (proj2 (index_Ok _ _ _) Ha). cbn [mbind outcome_bind].
  unfold assign. rewrite decide_True by lia. cbn [mbind outcome_bind]. rewrite decide_True by (rewrite insert_length; lia). cbn [mbind outcome_bind].
  unfold exchange. rewrite Ha, Hb. rewrite !rng_skip_S. reflexivity.
Qed.
Lemma exchange_length {A} i j (ch : list A) : length (exchange i j ch) = length ch.
Proof. unfold exchange. destruct (ch !! i), (ch !! j); rewrite ?insert_length; reflexivity. Qed.
Lemma interchange_exchanges {G} (ch : list G) r t : ch <> [] ->
  exists r' t', interchange rate ch r t = Ok (exchanges (fun i => flt (unit_draw r i) rate) (fun m => N.to_nat (t m mod N.of_nat (length ch))) (length ch) 0 0 ch, r', t').
Proof.
  intros Hne. unfold interchange. rewrite bool_decide_true by (destruct ch; [done|cbn; lia]). cbn [rassert mbind outcome_bind].
  set (len := length ch). assert (forall n i m (ch' : list G), length ch' = len -> i + n = len ->
    exists r' t', ofold (interchange_step rate len) (ch', rng_skip i r, rng_skip m t) (seq i n) = Ok (exchanges (fun i => flt (unit_draw r i) rate) (fun m => N.to_nat (t m mod N.of_nat len)) n i m ch', r', t')) as H.
  { induction n as [|n IH]; intros i m ch' Hl Hi; [cbn; eauto|]. cbn [seq exchanges].
    rewrite (ofold_cons_Ok _ _ _ _ _ (interchange_step_exchange len ch' r t i m i Hl ltac:(lia))).
    destruct (flt (unit_draw r i) rate); apply IH; rewrite ?exchange_length; lia. }
  apply (H len 0 0 ch eq_refl). lia.
Qed.
Lemma exchanges_ext {A} f g (p : nat -> nat) : forall n i m (ch : list A), (forall k, f k = g k) -> exchanges f p n i m ch = exchanges g p n i m ch.
Proof. induction n as [|n IH]; intros i m ch H; [reflexivity|]. cbn [exchanges]. rewrite (H i). destruct (g i); apply IH; exact H. Qed.
Lemma interchange_chance : exists K, chance_up K (2 ^ 52) (f2r rate) /\ forall (G : Type) (ch : list G) (r t : rng), ch <> [] ->
  exists r' t', interchange rate ch r t = Ok (exchanges (fun i => (r i mod 2 ^ 52 <? K)%N) (fun m => N.to_nat (t m mod N.of_nat (length ch))) (length ch) 0 0 ch, r', t').
Proof using All.
  destruct (below_chance 52 rate ltac:(lia) V F R01) as (K & C & H). exists K. split; [exact C|]. intros G ch r t Hne.
  destruct (interchange_exchanges ch r t Hne) as (r' & t' & E). exists r', t'. rewrite E. do 3 f_equal. apply exchanges_ext. intros k. unfold unit_draw. apply H, mod_52.
Qed.
Lemma uniform_p_chance : exists K, chance_over K (2 ^ 52) (f2r rate) /\ forall (G : Type) kind (p1 p2 : list G) (r : rng), length p1 = length p2 ->
  exists c1 c2 r', uniform_parameterized kind rate p1 p2 r = Ok ((c1, c2), r') /\ follows (fun i => (r i mod 2 ^ 52 <? K)%N) p1 p2 c1 c2.
Proof using All.
  destruct (up_to_chance 52 rate ltac:(lia) V F R01) as (K & C & H). exists K. split; [exact C|]. intros G kind p1 p2 r Hl.
  destruct (uniform_parameterized_built kind rate p1 p2 r Hl) as ([c1 c2] & vals & r1 & E & Hv & Hb).
  exists c1, c2. eexists. split; [exact E|]. apply (built_follows _ p1 p2 (c1, c2) Hl).
  eapply built_mask_swap; [|exact Hb]. intros l Hll. cbn.
  destruct (repeatM_uni (length p1) r) as [r' Hr']. rewrite Hr' in Hv. injection Hv as <- _.
  rewrite list_lookup_fmap, lookup_seq_lt by auto. apply H, mod_52.
Qed.

(** RankR *)
Lemma rank_r_chance : exists K, chance_up K (2 ^ 52) (f2r rate) /\ forall (G : Type) (pop : list (individual G)) count (r : rng), pop <> [] ->
  exists sel r', rank_r rate count pop r = Ok (sel, r') /\ length sel = count /\
    forall k s, sel !! k = Some s -> s = N.to_nat ((if r (3 * k + 2)%nat mod 2 ^ 52 <? K then r (3 * k)%nat else r (3 * k + 1)%nat) mod N.of_nat (length pop))%N.
Proof using All.
  destruct (below_chance 52 rate ltac:(lia) V F R01) as (K & C & H). exists K. split; [exact C|]. intros G pop count r Hne.
  unfold rank_r. assert (fle f0 rate && fle rate f1 = true) as ->.
  { apply andb_true_intro. split; apply fle_R; auto; try reflexivity; [change (f2r f0) with 0%R; lra|rewrite f2r_f1; lra]. }
  assert (0 < length pop) as H0 by (destruct pop; [done|cbn; lia]). rewrite bool_decide_true by exact H0. cbn [rassert mbind outcome_bind].
  assert (forall x, N.to_nat (x mod N.of_nat (length pop)) < length pop) as HM. { intros x. assert (x mod N.of_nat (length pop) < N.of_nat (length pop))%N; [apply N.mod_lt; lia|lia]. }
  revert r. induction count as [|count IH]; intros r; cbn [repeatO].
  { exists [], r. split; [reflexivity|]. split; [reflexivity|]. intros k s [=]. }
  assert (rank_r_spin rate pop r = Ok (N.to_nat ((if r 2%nat mod 2 ^ 52 <? K then r 0%nat else r 1%nat) mod N.of_nat (length pop))%N, rng_tail (rng_tail (rng_tail r)))) as E.
  { unfold rank_r_spin, gen_range. rewrite decide_True by exact H0. cbn [mbind outcome_bind]. rewrite Nat.sub_0_r, !Nat.add_0_l.
    destruct (lookup_lt_is_Some_2 pop (N.to_nat (r 0%nat mod N.of_nat (length pop)))) as [a Ha]; [apply HM|].
    rewrite (proj2 (index_Ok _ _ _) Ha). cbn [mbind outcome_bind]. rewrite decide_True by exact H0. cbn [mbind outcome_bind]. rewrite ?Nat.sub_0_r, ?Nat.add_0_l.
    change (rng_tail r 0) with (r 1). destruct (lookup_lt_is_Some_2 pop (N.to_nat (r 1%nat mod N.of_nat (length pop)))) as [b Hb]; [apply HM|].
    rewrite (proj2 (index_Ok _ _ _) Hb). cbn [mbind outcome_bind]. unfold uni_f64. change (rng_tail (rng_tail r) 0) with (r 2). rewrite (H _ (mod_52 r 2)). destruct (r 2%nat mod 2 ^ 52 <? K)%N; reflexivity. }
  rewrite E. cbn [mbind outcome_bind]. destruct (IH (rng_tail (rng_tail (rng_tail r)))) as (sel & r' & E' & L & Hs). rewrite E'. cbn [mbind outcome_bind].
  eexists (_ :: sel), r'. split; [reflexivity|]. split; [cbn; lia|]. intros [|k] s' Hk.
  - injection Hk as <-. reflexivity.
  - specialize (Hs k s' Hk). replace (3 * S k) with (S (S (S (3 * k)))) by lia. exact Hs.
Qed.
End Rates.

Lemma half_chance k : (k < 2 ^ 52)%N -> fge (f_unit 52 k) fhalf = negb (k <? 2 ^ 51)%N.
Proof.
  intros Hk. pose proof (f2r_unit 52 k ltac:(lia) Hk) as E. unfold fge.
  assert (fvalid fhalf /\ ffinite fhalf = true /\ f2r fhalf = (/ 2)%R) as (Vh & Fh & Eh).
  { split; [reflexivity|]. split; [reflexivity|]. change (IZR 4503599627370496 * / IZR 9007199254740992 = / 2)%R. lra. }
  change (bpow radix2 (- Z.of_N 52)) with (/ IZR (2 ^ 52))%R in E.
  destruct (N.ltb_spec k (2 ^ 51)) as [H|H]; cbn [negb].
  - apply Bool.not_true_iff_false. intros X. assert (fvalid (f_unit 52 k)) as Vu by (apply fvalid_unit; [lia|exact Hk]). apply fle_R in X; auto using ffinite_unit. rewrite E, Eh in X.
    assert (Z.of_N k <= 2 ^ 51 - 1)%Z as Hz by lia. apply IZR_le in Hz. apply (Rmult_le_compat_r (IZR (2 ^ 52))) in X; [|apply IZR_le; lia]. rewrite Rmult_assoc, Rinv_l in X by (apply IZR_neq; lia).
    rewrite Rmult_1_r in X. assert (IZR (2 ^ 51 - 1) < / 2 * IZR (2 ^ 52))%R; [|lra]. change (2 ^ 51 - 1)%Z with 2251799813685247%Z. change (2 ^ 52)%Z with 4503599627370496%Z. lra.
  - assert (fvalid (f_unit 52 k)) as Vu by (apply fvalid_unit; [lia|exact Hk]). apply fle_R; auto using ffinite_unit. rewrite E, Eh.
    assert (2 ^ 51 <= Z.of_N k)%Z as Hz by lia. apply IZR_le in Hz. apply Rmult_le_reg_r with (IZR (2 ^ 52)); [apply IZR_lt; lia|]. rewrite Rmult_assoc, Rinv_l by (apply IZR_neq; lia).
    rewrite Rmult_1_r. eapply Rle_trans; [|exact Hz]. change (2 ^ 51)%Z with 2251799813685248%Z. change (2 ^ 52)%Z with 4503599627370496%Z. lra.
Qed.
Lemma uniform_chance (G : Type) kind (p1 p2 : list G) (r : rng) : length p1 = length p2 ->
  exists c1 c2 r', uniform kind p1 p2 r = Ok ((c1, c2), r') /\ follows (fun i => (2 ^ 51 <=? r i mod 2 ^ 52)%N) p1 p2 c1 c2.
Proof.
  intros Hl. destruct (uniform_built kind p1 p2 r Hl) as ([c1 c2] & vals & r1 & E & Hv & Hb).
  exists c1, c2. eexists. split; [exact E|]. apply (built_follows _ p1 p2 (c1, c2) Hl).
  eapply built_mask_swap; [|exact Hb]. intros l Hll. cbn.
  destruct (repeatM_uni (length p1) r) as [r' Hr']. rewrite Hr' in Hv. injection Hv as <- _.
  rewrite list_lookup_fmap, lookup_seq_lt by auto. etransitivity; [exact (half_chance _ (mod_52 r l))|]. symmetry. apply N.leb_antisym.
Qed.
