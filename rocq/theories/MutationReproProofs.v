(** * Interchange depends on the thread generator whenever it exchanges anything *)
From Verif Require Export MutationProofs.
Open Scope nat_scope.

Section Repro.
Context {G : Type}.
Implicit Types (ch : list G) (r t : rng).
Definition rng_cons (x : N) (t : rng) : rng := fun n => match n with 0 => x | S n => t n end.
Lemma tail_cons x t : rng_tail (rng_cons x t) = t. Proof. reflexivity. Qed.
Lemma fires_step rate len ch r t i x : length ch = len -> i < len -> (x < N.of_nat len)%N -> flt (unit_draw r 0) rate = true ->
  exists a b, ch !! N.to_nat x = Some b /\ ch !! i = Some a /\ interchange_step rate len (ch, r, rng_cons x t) i = Ok (<[i := b]> (<[N.to_nat x := a]> ch), rng_skip 1 r, t).
Proof.
  intros L Hi Hx F. destruct (lookup_lt_is_Some_2 ch (N.to_nat x)) as [b Hb]; [lia|]. destruct (lookup_lt_is_Some_2 ch i) as [a Ha]; [lia|]. exists a, b. split; [exact Hb|]. split; [exact Ha|].
  unfold interchange_step. change (uni_f64 r) with (uni_f64 (rng_skip 0 r)). rewrite uni_f64_skip, F. unfold gen_range. rewrite decide_True by lia. cbn [mbind outcome_bind]. rewrite tail_cons. change (rng_cons x t 0) with x.
  replace (0 + N.to_nat (x mod N.of_nat (len - 0))) with (N.to_nat x). 2: { rewrite Nat.sub_0_r, N.mod_small by exact Hx. reflexivity. }
  rewrite (proj2 (index_Ok _ _ _) Hb). cbn [mbind outcome_bind]. rewrite (proj2 (index_Ok _ _ _) Ha). cbn [mbind outcome_bind]. unfold assign. rewrite decide_True by lia. cbn [mbind outcome_bind].
  rewrite decide_True by (rewrite insert_length; lia). reflexivity.
Qed.
Lemma idle_step rate len ch r t i : flt (unit_draw r 0) rate = false -> interchange_step rate len (ch, r, t) i = Ok (ch, rng_skip 1 r, t).
Proof. intros F. unfold interchange_step. change (uni_f64 r) with (uni_f64 (rng_skip 0 r)). rewrite uni_f64_skip, F. reflexivity. Qed.
Lemma unit_draw_skip r k : unit_draw (rng_skip 1 r) k = unit_draw r (S k).
Proof. reflexivity. Qed.
Lemma idle_loop rate len : forall l ch r t, (forall k, k < length l -> flt (unit_draw r k) rate = false) -> exists r', ofold (interchange_step rate len) (ch, r, t) l = Ok (ch, r', t).
Proof.
  induction l as [|i l IH]; intros ch r t H; [cbn; eauto|]. rewrite (ofold_cons_Ok _ _ _ _ _ (idle_step rate len ch r t i (H 0 ltac:(cbn; lia)))). apply IH. intros k Hk. rewrite unit_draw_skip. apply H. cbn. lia.
Qed.
Lemma differs rate len : 2 <= len -> forall l ch r, length ch = len -> NoDup ch -> Forall (fun i => i < len) l -> (exists k, k < length l /\ flt (unit_draw r k) rate = true) ->
  exists t1 t2 ch1 ch2 r1 r2 t1' t2', ofold (interchange_step rate len) (ch, r, t1) l = Ok (ch1, r1, t1') /\ ofold (interchange_step rate len) (ch, r, t2) l = Ok (ch2, r2, t2') /\ ch1 <> ch2.
Proof.
  intros H2. induction l as [|i l IH]; intros ch r L Nd All (k & Hk & Fk); [cbn in Hk; lia|]. apply Forall_cons in All as [Hi All].
  destruct (decide (Exists (fun k => flt (unit_draw (rng_skip 1 r) k) rate = true) (seq 0 (length l)))) as [Ex|NEx].
  - assert (Ex' : exists k, k < length l /\ flt (unit_draw (rng_skip 1 r) k) rate = true). { apply Exists_exists in Ex as (k' & Hk' & Ek'). apply elem_of_seq in Hk'. exists k'. split; [lia|exact Ek']. }
    destruct (flt (unit_draw r 0) rate) eqn:F0.
    + destruct (fires_step rate len ch r r i 0%N L Hi ltac:(lia) F0) as (a & b & Hb & Ha & _). change (N.to_nat 0) with 0 in *.
      set (ch' := <[i := b]> (<[0 := a]> ch)). assert (P : ch' ≡ₚ ch). { apply exchange_step; [exact Ha|exact Hb]. }
      destruct (IH ch' (rng_skip 1 r)) as (t1 & t2 & ch1 & ch2 & r1 & r2 & t1' & t2' & E1 & E2 & Ne); [rewrite P; exact L|rewrite P; exact Nd|exact All|exact Ex'|].
      exists (rng_cons 0 t1), (rng_cons 0 t2), ch1, ch2, r1, r2, t1', t2'.
      destruct (fires_step rate len ch r t1 i 0%N L Hi ltac:(lia) F0) as (a1 & b1 & Hb1 & Ha1 & S1). destruct (fires_step rate len ch r t2 i 0%N L Hi ltac:(lia) F0) as (a2 & b2 & Hb2 & Ha2 & S2).
      change (N.to_nat 0) with 0 in *. rewrite Ha in Ha1, Ha2. rewrite Hb in Hb1, Hb2. injection Ha1 as <-. injection Ha2 as <-. injection Hb1 as <-. injection Hb2 as <-.
      rewrite (ofold_cons_Ok _ _ _ _ _ S1), (ofold_cons_Ok _ _ _ _ _ S2). auto.
    + destruct (IH ch (rng_skip 1 r) L Nd All Ex') as (t1 & t2 & ch1 & ch2 & r1 & r2 & t1' & t2' & E1 & E2 & Ne). exists t1, t2, ch1, ch2, r1, r2, t1', t2'.
      rewrite (ofold_cons_Ok _ _ _ _ _ (idle_step rate len ch r t1 i F0)), (ofold_cons_Ok _ _ _ _ _ (idle_step rate len ch r t2 i F0)). auto.
  - assert (Idle : forall k, k < length l -> flt (unit_draw (rng_skip 1 r) k) rate = false).
    { intros k' Hk'. apply not_true_is_false. intros E. apply NEx. apply Exists_exists. exists k'. split; [apply elem_of_seq; lia|exact E]. }
    destruct k as [|k]. 2: { rewrite <- unit_draw_skip, Idle in Fk by (cbn in Hk; lia). discriminate. }
    destruct (fires_step rate len ch r r i 0%N L Hi ltac:(lia) Fk) as (a1 & b1 & Hb1 & Ha1 & S1). destruct (fires_step rate len ch r r i 1%N L Hi ltac:(lia) Fk) as (a2 & b2 & Hb2 & Ha2 & S2).
    change (N.to_nat 0) with 0 in *. change (N.to_nat 1) with 1 in *.
    destruct (idle_loop rate len l (<[i := b1]> (<[0 := a1]> ch)) (rng_skip 1 r) r Idle) as [r1 E1]. destruct (idle_loop rate len l (<[i := b2]> (<[1 := a2]> ch)) (rng_skip 1 r) r Idle) as [r2 E2].
    exists (rng_cons 0 r), (rng_cons 1 r), (<[i := b1]> (<[0 := a1]> ch)), (<[i := b2]> (<[1 := a2]> ch)), r1, r2, r, r. rewrite (ofold_cons_Ok _ _ _ _ _ S1), (ofold_cons_Ok _ _ _ _ _ S2). split; [exact E1|]. split; [exact E2|].
    intros E. assert (Eb : b1 = b2). { apply (f_equal (lookup i)) in E. rewrite !list_lookup_insert in E by (rewrite insert_length; lia). congruence. }
    subst b2. assert (0 = 1) by (eapply NoDup_lookup; eauto). discriminate.
Qed.
Theorem interchange_never_reproducible rate ch r : 2 <= length ch -> NoDup ch -> (exists k, k < length ch /\ flt (unit_draw r k) rate = true) ->
  exists t1 t2 ch1 ch2 r1 r2 t1' t2', interchange rate ch r t1 = Ok (ch1, r1, t1') /\ interchange rate ch r t2 = Ok (ch2, r2, t2') /\ ch1 <> ch2.
Proof.
  intros H Nd (k & Hk & Fk). destruct (differs rate (length ch) H (seq 0 (length ch)) ch r eq_refl Nd) as (t1 & t2 & ch1 & ch2 & r1 & r2 & t1' & t2' & E1 & E2 & Ne).
  - apply Forall_forall. intros i Hi%elem_of_seq. lia.
  - exists k. rewrite seq_length. auto.
  - exists t1, t2, ch1, ch2, r1, r2, t1', t2'. unfold interchange. rewrite bool_decide_true by lia. cbn [rassert mbind outcome_bind]. auto.
Qed.
(** Where nothing is exchanged the thread generator is not used; the operator's own generator advances by one draw per gene in any case *)
Theorem interchange_idle rate ch r t : 0 < length ch -> (forall k, k < length ch -> flt (unit_draw r k) rate = false) -> exists r', interchange rate ch r t = Ok (ch, r', t).
Proof. intros H F. unfold interchange. rewrite bool_decide_true by exact H. cbn [rassert mbind outcome_bind]. apply idle_loop. intros k Hk. rewrite seq_length in Hk. auto. Qed.
Lemma interchange_loop_own rate len : forall l ch r t s, ofold (interchange_step rate len) (ch, r, t) l = Ok s -> s.1.2 = rng_skip (length l) r.
Proof.
  induction l as [|i l IH]; intros ch r t s E; [injection E as <-; reflexivity|]. cbn [ofold] in E. apply obind_Ok in E as ([[ch1 r1] t1] & E1 & E). apply IH in E. rewrite E.
  assert (r1 = rng_skip 1 r) as ->; [|reflexivity]. unfold interchange_step in E1. change (uni_f64 r) with (uni_f64 (rng_skip 0 r)) in E1. rewrite uni_f64_skip in E1. destruct (flt _ _).
  - apply obind_Ok in E1 as ([j t2] & _ & E1). apply obind_Ok in E1 as (g & _ & E1). apply obind_Ok in E1 as (gi & _ & E1). apply obind_Ok in E1 as (c1 & _ & E1). apply obind_Ok in E1 as (c2 & _ & E1). congruence.
  - congruence.
Qed.
Theorem interchange_own_rng rate ch r t ch' r' t' : interchange rate ch r t = Ok (ch', r', t') -> r' = rng_skip (length ch) r.
Proof. intros E. unfold interchange in E. apply obind_Ok in E as (_ & _ & E). apply interchange_loop_own in E. cbn [fst snd] in E. rewrite seq_length in E. exact E. Qed.
End Repro.
