(** * Proofs about the mutation operators *)
From Verif Require Export MutationModel MutationSpec.
Open Scope nat_scope.

Lemma rng_skip_lookup n r i : rng_skip n r i = r (n + i).
Proof. revert r i; induction n as [|n IH]; intros r i; [reflexivity|]. cbn [rng_skip]. rewrite IH. unfold rng_tail. f_equal; lia. Qed.

Lemma rng_skip_S n r : rng_tail (rng_skip n r) = rng_skip (S n) r.
Proof. revert r; induction n as [|n IH]; intros r; [reflexivity|]. cbn [rng_skip]. apply IH. Qed.

Lemma uni_f64_skip n r : uni_f64 (rng_skip n r) = (unit_draw r n, rng_skip (S n) r).
Proof.
  unfold uni_f64, unit_draw. rewrite rng_skip_S. f_equal. rewrite rng_skip_lookup. do 2 f_equal. f_equal. lia.
Qed.

Lemma unit_draw_range r i : fle f0 (unit_draw r i) = true /\ flt (unit_draw r i) f1 = true.
Proof. apply f_unit_range. apply N.mod_lt; discriminate. Qed.

Lemma unit_draw_not_below r i rate : fle rate f0 = true -> flt (unit_draw r i) rate = false.
Proof.
  intros H. destruct (flt (unit_draw r i) rate) eqn:E; [|reflexivity].
  destruct (unit_draw_range r i) as [H0 _].
  pose proof (flt_le_trans _ _ _ E H) as H1. pose proof (flt_le_trans _ _ _ H1 H0) as H2.
  rewrite flt_irrefl in H2. discriminate.
Qed.
Lemma unit_draw_below r i rate : fle f1 rate = true -> flt (unit_draw r i) rate = true.
Proof. intros H. destruct (unit_draw_range r i) as [_ H1]. eapply flt_le_trans; eauto. Qed.

(** ** Permutations *)
Section Perm.
Context {G : Type}.
Implicit Types ch : list G.

Lemma exchange_step ch i j a b : ch !! i = Some a -> ch !! j = Some b ->
  <[i := b]> (<[j := a]> ch) ≡ₚ ch.
Proof. intros Hi Hj. apply insert_swap_perm; auto. Qed.

Lemma interchange_step_ok rate len ch r t i : length ch = len -> i < len ->
  exists ch' r' t', interchange_step rate len (ch, r, t) i = Ok (ch', r', t') /\ ch' ≡ₚ ch.
Proof.
  intros <- Hi. unfold interchange_step.
  destruct (uni_f64 r) as [u r1]. destruct (flt u rate); [|eauto].
  destruct (gen_range_is_Ok 0 (length ch) t) as (j & Hj & Hjb); [lia|]. rewrite Hj. cbn [mbind outcome_bind].
  destruct (lookup_lt_is_Some_2 ch j) as [b Hb]; [lia|].
  destruct (lookup_lt_is_Some_2 ch i) as [a Ha]; [lia|].
  rewrite (proj2 (index_Ok _ _ _) Hb). cbn [mbind outcome_bind].
  rewrite (proj2 (index_Ok _ _ _) Ha). cbn [mbind outcome_bind].
  unfold assign. rewrite decide_True by lia. cbn [mbind outcome_bind].
  rewrite decide_True by (rewrite insert_length; lia). cbn [mbind outcome_bind].
  eexists _, _, _. split; [reflexivity|]. apply exchange_step; auto.
Qed.

Lemma interchange_loop_ok rate len l : forall ch r t, length ch = len -> Forall (fun i => i < len) l ->
  exists ch' r' t', ofold (interchange_step rate len) (ch, r, t) l = Ok (ch', r', t') /\ ch' ≡ₚ ch.
Proof.
  induction l as [|i l IH]; intros ch r t Hl Hall; [cbn; eauto|].
  inversion_clear Hall as [|? ? Hi Hall'].
  destruct (interchange_step_ok rate len ch r t i Hl Hi) as (ch1 & r1 & t1 & E & P).
  rewrite (ofold_cons_Ok _ _ _ _ _ E).
  destruct (IH ch1 r1 t1) as (ch' & r' & t' & E' & P'); [rewrite P; exact Hl|exact Hall'|].
  exists ch', r', t'. split; [exact E'|]. rewrite P'; exact P.
Qed.

Lemma interchange_perm rate ch r t : 0 < length ch ->
  exists ch' r' t', interchange rate ch r t = Ok (ch', r', t') /\ ch' ≡ₚ ch.
Proof.
  intros H. unfold interchange. rewrite bool_decide_true by exact H. cbn [rassert mbind outcome_bind].
  apply interchange_loop_ok; auto. apply Forall_forall. intros i Hi%elem_of_seq. lia.
Qed.
Lemma interchange_empty rate r t : interchange rate ([] : list G) r t = Panic.
Proof. reflexivity. Qed.

Lemma interchange_rate0 rate ch r t : 0 < length ch -> fle rate f0 = true ->
  exists r', interchange rate ch r t = Ok (ch, r', t).
Proof.
  intros H H0. unfold interchange. rewrite bool_decide_true by exact H. cbn [rassert mbind outcome_bind].
  assert (Hg : forall l n, exists r', ofold (interchange_step rate (length ch)) (ch, rng_skip n r, t) l = Ok (ch, r', t)).
  { induction l as [|i l IH]; intros n; [cbn; eauto|].
    rewrite (ofold_cons_Ok _ _ _ _ (ch, rng_skip (S n) r, t)); [apply (IH (S n))|].
    unfold interchange_step. rewrite uni_f64_skip, unit_draw_not_below by exact H0. reflexivity. }
  apply (Hg _ 0).
Qed.

(** ** Reversing *)
Lemma sweep_ext {A} (f g : nat -> bool) i (x : A) rest : (forall k, i <= k -> f k = g k) -> sweep f i x rest = sweep g i x rest.
Proof.
  revert i x; induction rest as [|y rest IH]; intros i x H; [reflexivity|]. cbn. rewrite (H i) by lia.
  destruct (g i); f_equal; apply IH; intros; apply H; lia.
Qed.

Lemma reversing_step_spec rate r t (pre : list G) x y rest n : 
  reversing_step rate (pre ++ x :: y :: rest, rng_skip n r, t) (S (length pre)) =
  Ok (if flt (unit_draw r n) rate then pre ++ y :: x :: rest else pre ++ x :: y :: rest, rng_skip (S n) r, t).
Proof.
  unfold reversing_step. rewrite uni_f64_skip. destruct (flt (unit_draw r n) rate); [|reflexivity].
  assert (H1 : index (pre ++ x :: y :: rest) (S (length pre)) = Ok y).
  { apply index_Ok. rewrite (lookup_app_r pre) by lia. replace (S (length pre) - length pre) with 1 by lia. reflexivity. }
  assert (H2 : index (pre ++ x :: y :: rest) (S (length pre) - 1) = Ok x).
  { apply index_Ok. rewrite (lookup_app_r pre) by lia. replace (S (length pre) - 1 - length pre) with 0 by lia. reflexivity. }
  rewrite H1. cbn [mbind outcome_bind]. rewrite H2. cbn [mbind outcome_bind].
  unfold assign. rewrite decide_True by (rewrite app_length; cbn; lia). cbn [mbind outcome_bind].
  rewrite decide_True by (rewrite insert_length, app_length; cbn; lia). cbn [mbind outcome_bind].
  rewrite insert_app_r_alt by lia. replace (S (length pre) - length pre) with 1 by lia.
  rewrite insert_app_r_alt by lia. replace (S (length pre) - 1 - length pre) with 0 by lia. reflexivity.
Qed.

Lemma reversing_loop rate r t : forall rest pre (x : G) n,
  exists r', ofold (reversing_step rate) (pre ++ x :: rest, rng_skip n r, t) (seq (S (length pre)) (length rest)) =
    Ok (pre ++ sweep (fun k => flt (unit_draw r k) rate) n x rest, r', t).
Proof.
  induction rest as [|y rest IH]; intros pre x n; [cbn; eauto|].
  cbn [length seq sweep]. rewrite (ofold_cons_Ok _ _ _ _ _ (reversing_step_spec rate r t pre x y rest n)).
  destruct (flt (unit_draw r n) rate) eqn:E.
  - destruct (IH (pre ++ [y]) x (S n)) as [r' H]. exists r'.
    rewrite <- !app_assoc, app_length, Nat.add_1_r in H. exact H.
  - destruct (IH (pre ++ [x]) y (S n)) as [r' H]. exists r'.
    rewrite <- !app_assoc, app_length, Nat.add_1_r in H. exact H.
Qed.

Lemma reversing_sweep rate x rest r t :
  exists r', reversing rate (x :: rest : list G) r t =
    Ok (sweep (fun k => flt (unit_draw r k) rate) 0 x rest, r', t).
Proof.
  unfold reversing. cbn [length]. replace (S (length rest) - 1) with (length rest) by lia.
  destruct (reversing_loop rate r t rest [] x 0) as [r' H]. exists r'. exact H.
Qed.

Lemma sweep_perm (f : nat -> bool) rest : forall i (x : G), sweep f i x rest ≡ₚ x :: rest.
Proof.
  induction rest as [|y rest IH]; intros i x; [reflexivity|]. cbn. destruct (f i); rewrite IH; [|reflexivity].
  apply Permutation_swap.
Qed.
Lemma sweep_none (f : nat -> bool) rest : (forall k, f k = false) -> forall i (x : G), sweep f i x rest = x :: rest.
Proof. intros Hf. induction rest as [|y rest IH]; intros i x; [reflexivity|]. cbn. rewrite Hf, IH. reflexivity. Qed.
Lemma sweep_all (f : nat -> bool) rest : (forall k, f k = true) -> forall i (x : G), sweep f i x rest = rest ++ [x].
Proof. intros Hf. induction rest as [|y rest IH]; intros i x; [reflexivity|]. cbn. rewrite Hf, IH. reflexivity. Qed.

Lemma reversing_perm rate ch r t :
  exists ch' r', reversing rate ch r t = Ok (ch', r', t) /\ ch' ≡ₚ ch.
Proof.
  destruct ch as [|x rest]; [exists [], r; split; reflexivity|].
  destruct (reversing_sweep rate x rest r t) as [r' H]. eexists _, _. split; [exact H|]. apply sweep_perm.
Qed.
Lemma reversing_rate0 rate ch r t : fle rate f0 = true -> exists r', reversing rate ch r t = Ok (ch, r', t).
Proof.
  intros H0. destruct ch as [|x rest]; [exists r; reflexivity|].
  destruct (reversing_sweep rate x rest r t) as [r' H]. exists r'. rewrite H. rewrite sweep_none; [reflexivity|].
  intros; apply unit_draw_not_below; auto.
Qed.

(** ** Inversion *)
Lemma inversion_loop_spec fuel : forall (seg pre post : list G) from to,
  from = length pre -> S to = from + length seg -> length seg < fuel ->
  inversion_loop fuel from to (pre ++ seg ++ post) = Ok (pre ++ reverse seg ++ post).
Proof.
  induction fuel as [|fuel IH]; intros seg pre post from to Hf Ht Hfu; [lia|].
  cbn [inversion_loop]. destruct (decide (from < to)) as [Hlt|Hge].
  - destruct seg as [|a seg]; [cbn in *; lia|].
    destruct seg as [|b seg'] using rev_ind; [cbn in *; lia|]. clear IHseg'. cbn [length] in *. rewrite app_length in *. cbn [length] in *.
    assert (E : swap from to (pre ++ (a :: seg' ++ [b]) ++ post) = Ok ((pre ++ [b]) ++ seg' ++ a :: post)).
    { unfold swap.
      replace (pre ++ (a :: seg' ++ [b]) ++ post) with (pre ++ a :: seg' ++ b :: post) by (cbn; rewrite <- app_assoc; reflexivity).
      rewrite lookup_mid by exact Hf.
      replace (pre ++ a :: seg' ++ b :: post) with ((pre ++ a :: seg') ++ b :: post) at 1 by (rewrite <- app_assoc; reflexivity).
      rewrite lookup_mid by (rewrite app_length; cbn; lia).
      rewrite insert_mid by exact Hf.
      replace (pre ++ b :: seg' ++ b :: post) with ((pre ++ b :: seg') ++ b :: post) by (rewrite <- app_assoc; reflexivity).
      rewrite insert_mid by (rewrite app_length; cbn; lia). rewrite <- !app_assoc. reflexivity. }
    rewrite E. cbn [mbind outcome_bind].
    rewrite (IH seg' (pre ++ [b]) (a :: post)); [|rewrite app_length; cbn; lia|lia|lia].
    f_equal. rewrite reverse_cons, reverse_app. cbn. rewrite <- !app_assoc. reflexivity.
  - destruct seg as [|a [|b seg]]; cbn [length] in *; [reflexivity|reflexivity|lia].
Qed.

Lemma inversion_loop_segment ch from to : from <= to < length ch ->
  inversion_loop (S (length ch)) from to ch = Ok (reverse_segment from to ch).
Proof.
  intros H. unfold reverse_segment.
  rewrite <- (take_drop from ch) at 2. rewrite <- (take_drop (to + 1 - from) (drop from ch)) at 1.
  rewrite drop_drop. replace (from + (to + 1 - from)) with (to + 1) by lia.
  apply inversion_loop_spec.
  - rewrite take_length; lia.
  - rewrite take_length, drop_length; lia.
  - rewrite take_length, drop_length; lia.
Qed.

Lemma inversion_quiet rate ch r t : flt rate (gen_f64 r).1 = true ->
  inversion rate ch r t = Ok (ch, rng_tail r, t).
Proof.
  intros H. unfold inversion. destruct (gen_f64 r) as [u r1] eqn:E. unfold fgt. cbn [fst] in H. rewrite H.
  unfold gen_f64 in E. injection E as _ <-. reflexivity.
Qed.

Lemma inversion_fires rate ch r t : flt rate (gen_f64 r).1 = false -> 0 < length ch ->
  exists from to r', from <= to < length ch /\ inversion rate ch r t = Ok (reverse_segment from to ch, r', t).
Proof.
  intros H Hl. unfold inversion. destruct (gen_f64 r) as [u r1] eqn:E. unfold fgt. cbn [fst] in H. rewrite H.
  destruct (gen_range_is_Ok 0 (length ch) r1 Hl) as (from & Hf & Hfb). rewrite Hf. cbn [mbind outcome_bind].
  destruct (gen_range_is_Ok from (length ch) (rng_tail r1)) as (to & Ht & Htb); [lia|]. rewrite Ht. cbn [mbind outcome_bind].
  rewrite inversion_loop_segment by lia. cbn [mbind outcome_bind]. exists from, to. eexists. split; [lia|reflexivity].
Qed.

Lemma inversion_fires_empty rate r t : flt rate (gen_f64 r).1 = false -> inversion rate ([] : list G) r t = Panic.
Proof. intros H. unfold inversion. destruct (gen_f64 r) as [u r1] eqn:E. unfold fgt. cbn [fst] in H. rewrite H. reflexivity. Qed.

(** Every segment can be chosen. *)
Lemma inversion_surj rate ch t from to : fle f0 rate = true -> from <= to < length ch ->
  exists r r', inversion rate ch r t = Ok (reverse_segment from to ch, r', t).
Proof.
  intros H0 Hb.
  exists (fun n => match n with 0 => 0%N | 1 => N.of_nat from | 2 => N.of_nat (to - from) | _ => 0%N end).
  unfold inversion. unfold gen_f64. cbn [fst]. rewrite N.mod_0_l by discriminate. unfold f_unit, fgt.
  replace (flt rate (S754_zero false)) with false.
  2:{ symmetry. destruct (flt rate (S754_zero false)) eqn:E; [|reflexivity].
      pose proof (flt_le_trans _ _ _ E H0) as X. rewrite flt_irrefl in X. discriminate. }
  match goal with |- context [gen_range 0 (length ch) ?r1] => 
    assert (E1 : gen_range 0 (length ch) r1 = Ok (from, rng_tail r1)) end.
  { unfold gen_range. rewrite decide_True by lia. unfold rng_tail at 1. rewrite N.mod_small by lia.
    rewrite Nat2N.id. reflexivity. }
  rewrite E1. cbn [mbind outcome_bind].
  match goal with |- context [gen_range from (length ch) ?r1] => 
    assert (E2 : gen_range from (length ch) r1 = Ok (to, rng_tail r1)) end.
  { unfold gen_range. rewrite decide_True by lia. unfold rng_tail at 1 2. rewrite N.mod_small by lia.
    rewrite Nat2N.id. replace (from + (to - from)) with to by lia. reflexivity. }
  rewrite E2. cbn [mbind outcome_bind].
  rewrite inversion_loop_segment by lia. cbn [mbind outcome_bind]. eexists. reflexivity.
Qed.

Lemma reverse_segment_perm from to ch : from <= to -> reverse_segment from to ch ≡ₚ ch.
Proof.
  intros H. unfold reverse_segment. rewrite reverse_Permutation.
  rewrite <- (take_drop from ch) at 4. rewrite <- (take_drop (to + 1 - from) (drop from ch)) at 2.
  rewrite drop_drop. replace (from + (to + 1 - from)) with (to + 1) by lia. reflexivity.
Qed.

Lemma inversion_perm rate ch r t : 0 < length ch ->
  exists ch' r', inversion rate ch r t = Ok (ch', r', t) /\ ch' ≡ₚ ch.
Proof.
  intros H. destruct (flt rate (gen_f64 r).1) eqn:E.
  - eexists _, _. split; [apply inversion_quiet; exact E|reflexivity].
  - destruct (inversion_fires rate ch r t E H) as (from & to & r' & Hb & Hi).
    eexists _, _. split; [exact Hi|]. apply reverse_segment_perm; lia.
Qed.
End Perm.

(** ** FlipBit *)
Lemma flip_step_spec rate r t (pre : list bool) b rest :
  flip_step rate (pre ++ b :: rest, rng_skip (length pre) r, t) (length pre) =
  Ok (pre ++ (if flt (unit_draw r (length pre)) rate then negb b else b) :: rest, rng_skip (S (length pre)) r, t).
Proof.
  unfold flip_step. rewrite uni_f64_skip. destruct (flt (unit_draw r (length pre)) rate); [|reflexivity].
  assert (H1 : index (pre ++ b :: rest) (length pre) = Ok b).
  { apply index_Ok. rewrite (lookup_app_r pre) by lia. rewrite Nat.sub_diag. reflexivity. }
  rewrite H1. cbn [mbind outcome_bind].
  unfold assign. rewrite decide_True by (rewrite app_length; cbn; lia). cbn [mbind outcome_bind].
  rewrite insert_app_r_alt by lia. rewrite Nat.sub_diag. reflexivity.
Qed.

Lemma flip_loop rate r t : forall rest pre,
  exists r', ofold (flip_step rate) (pre ++ rest, rng_skip (length pre) r, t) (seq (length pre) (length rest)) =
    Ok (pre ++ imap (fun i b => if flt (unit_draw r (length pre + i)) rate then negb b else b) rest, r', t).
Proof.
  induction rest as [|b rest IH]; intros pre; [cbn; eauto|].
  cbn [length seq imap]. rewrite (ofold_cons_Ok _ _ _ _ _ (flip_step_spec rate r t pre b rest)).
  rewrite Nat.add_0_r.
  set (b' := if flt (unit_draw r (length pre)) rate then negb b else b).
  destruct (IH (pre ++ [b'])) as [r' H]. exists r'.
  rewrite !app_length, <- !app_assoc, Nat.add_1_r in H. cbn [app] in H. rewrite H. do 5 f_equal.
  apply imap_ext. intros i x _. cbn.
  rewrite Nat.add_succ_r. reflexivity.
Qed.

Lemma flip_bit_spec rate ch r t :
  exists ch' r', flip_bit rate ch r t = Ok (ch', r', t) /\ length ch' = length ch /\
    forall i b, ch !! i = Some b -> ch' !! i = Some (if flt (unit_draw r i) rate then negb b else b).
Proof.
  destruct (flip_loop rate r t ch []) as [r' H]. eexists _, r'. split; [exact H|].
  cbn [app]. split; [apply imap_length|]. intros i b Hb. rewrite list_lookup_imap, Hb. reflexivity.
Qed.
Lemma flip_bit_rate0 rate ch r t : fle rate f0 = true -> exists r', flip_bit rate ch r t = Ok (ch, r', t).
Proof.
  intros H. destruct (flip_bit_spec rate ch r t) as (ch' & r' & E & Hl & Hs). exists r'. rewrite E.
  do 3 f_equal. apply list_eq_same_length with (length ch); auto. intros i x y Hi Hx Hy.
  specialize (Hs _ _ Hy). rewrite unit_draw_not_below in Hs by exact H. congruence.
Qed.
Lemma flip_bit_rate1 rate ch r t : fle f1 rate = true -> exists r', flip_bit rate ch r t = Ok (negb <$> ch, r', t).
Proof.
  intros H. destruct (flip_bit_spec rate ch r t) as (ch' & r' & E & Hl & Hs). exists r'. rewrite E.
  do 3 f_equal. apply list_eq_same_length with (length ch); auto; [apply fmap_length|]. intros i x y Hi Hx Hy.
  rewrite list_lookup_fmap in Hy. destruct (ch !! i) as [b|] eqn:Eb; [|discriminate].
  specialize (Hs _ _ Eb). rewrite unit_draw_below in Hs by exact H. cbn in Hy. congruence.
Qed.

(** ** Reproducibility *)
Definition own_part {A} (m : outcome (A * rng * rng)) : outcome (A * rng) := fst <$> m.

Lemma ofold_ambient {A} (f : A * rng * rng -> nat -> outcome (A * rng * rng)) l :
  (forall a r t1 t2 i, own_part (f (a, r, t1) i) = own_part (f (a, r, t2) i)) ->
  forall a r t1 t2, own_part (ofold f (a, r, t1) l) = own_part (ofold f (a, r, t2) l).
Proof.
  intros Hf. induction l as [|i l IH]; intros a r t1 t2; [reflexivity|]. cbn [ofold].
  specialize (Hf a r t1 t2 i).
  destruct (f (a, r, t1) i) as [[[a1 r1] t1']| |], (f (a, r, t2) i) as [[[a2 r2] t2']| |];
    cbn in Hf |- *; try discriminate; try reflexivity. injection Hf as -> ->. apply IH.
Qed.

Lemma flip_bit_own rate ch r t1 t2 : own_part (flip_bit rate ch r t1) = own_part (flip_bit rate ch r t2).
Proof.
  apply ofold_ambient. intros a r0 s1 s2 i. unfold flip_step. destruct (uni_f64 r0) as [u r1].
  destruct (flt u rate); [|reflexivity]. destruct (index a i) as [g| |]; cbn; try reflexivity.
  destruct (assign a i (negb g)); reflexivity.
Qed.
Lemma reversing_own {G} rate (ch : list G) r t1 t2 : own_part (reversing rate ch r t1) = own_part (reversing rate ch r t2).
Proof.
  apply ofold_ambient. intros a r0 s1 s2 i. unfold reversing_step. destruct (uni_f64 r0) as [u r1].
  destruct (flt u rate); [|reflexivity]. destruct (index a i) as [g| |]; cbn; try reflexivity.
  destruct (index a (i - 1)) as [g'| |]; cbn; try reflexivity.
  destruct (assign a i g') as [a'| |]; cbn; try reflexivity. destruct (assign a' (i-1) g); reflexivity.
Qed.
Lemma inversion_own {G} rate (ch : list G) r t1 t2 : own_part (inversion rate ch r t1) = own_part (inversion rate ch r t2).
Proof.
  unfold inversion. destruct (gen_f64 r) as [u r1]. destruct (fgt u rate); [reflexivity|].
  destruct (gen_range 0 (length ch) r1) as [[from r2]| |]; cbn [mbind outcome_bind]; try reflexivity.
  destruct (gen_range from (length ch) r2) as [[to r3]| |]; cbn [mbind outcome_bind]; try reflexivity.
  destruct (inversion_loop _ from to ch); reflexivity.
Qed.

Lemma interchange_irreproducible :
  exists (rate : f64) (ch : list nat) (r t1 t2 : rng) ch1 ch2 r1 r2 t1' t2',
    fle f0 rate = true /\ fle rate f1 = true /\
    interchange rate ch r t1 = Ok (ch1, r1, t1') /\ interchange rate ch r t2 = Ok (ch2, r2, t2') /\ ch1 <> ch2.
Proof.
  exists fhalf, [1; 2], (rng_of [0; 4503599627370495]%N), (rng_of [0]%N), (rng_of [1]%N), [1; 2], [2; 1].
  eexists _, _, _, _. split_and!; [reflexivity|reflexivity|vm_compute; reflexivity|vm_compute; reflexivity|discriminate].
Qed.

Lemma reversing_rotates {G} rate (x : G) rest r t : fle f1 rate = true ->
  exists r', reversing rate (x :: rest) r t = Ok (rest ++ [x], r', t).
Proof.
  intros H. destruct (reversing_sweep rate x rest r t) as [r' E]. exists r'. rewrite E, sweep_all; [reflexivity|].
  intros; apply unit_draw_below; auto.
Qed.
