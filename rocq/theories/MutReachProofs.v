(** * Everything can be reached by mutation *)
From Verif Require Import F64R MutationModel MutationSpec MutationProofs MutReachSpec.
From Coq Require Import Reals Lra Lia.
From Flocq Require Import Core.
Open Scope nat_scope.

Definition zeros : rng := fun _ => 0%N.
Lemma low_fires rate : flt f0 rate = true -> flt (f_unit 52 (0 mod 2 ^ 52)) rate = true.
Proof. intros H. exact H. Qed.
(** A stream whose i-th draw fires exactly when [f i]. *)
Definition firing (f : nat -> bool) : rng := fun i => if f i then 0%N else (2 ^ 52 - 1)%N.
Lemma firing_draw f rate i : flt f0 rate = true -> fle rate largest_draw = true -> flt (unit_draw (firing f) i) rate = f i.
Proof.
  intros H0 H1. unfold unit_draw, firing. destruct (f i); [exact H0|].
  change ((2 ^ 52 - 1) mod 2 ^ 52)%N with (2 ^ 52 - 1)%N. change (f_unit 52 (2 ^ 52 - 1)) with largest_draw.
  destruct (flt largest_draw rate) eqn:E; [|reflexivity]. pose proof (flt_le_trans _ _ _ E H1) as X. rewrite flt_irrefl in X. discriminate.
Qed.

Lemma flip_reach rate ch target t : flt f0 rate = true -> fle rate largest_draw = true -> length target = length ch ->
  exists r r', flip_bit rate ch r t = Ok (target, r', t).
Proof.
  intros H0 H1 Hl. pose (f := fun i => negb (Bool.eqb (default false (ch !! i)) (default false (target !! i)))).
  exists (firing f). destruct (flip_bit_spec rate ch (firing f) t) as (ch' & r' & E & Hl' & Hs). exists r'. rewrite E.
  do 3 f_equal. apply list_eq_same_length with (length ch); auto. intros i x y Hi Hx Hy.
  destruct (lookup_lt_is_Some_2 ch i Hi) as [b Hb]. specialize (Hs _ _ Hb). rewrite firing_draw in Hs by assumption.
  unfold f in Hs. rewrite Hb, Hy in Hs. cbn [default] in Hs. rewrite Hx in Hs. destruct b, y; cbn in Hs; congruence.
Qed.
Lemma draw_le r i : fle (unit_draw r i) largest_draw = true.
Proof.
  unfold unit_draw, largest_draw. set (k := (r i mod 2 ^ 52)%N). assert (Hk : (k < 2 ^ 52)%N) by (apply N.mod_lt; discriminate). clearbody k.
  assert (Hm : (2 ^ 52 - 1 < 2 ^ 52)%N) by reflexivity. assert (H52 : (52 <= 53)%N) by discriminate.
  apply fle_R; [apply fvalid_unit; assumption|apply fvalid_unit; assumption|apply ffinite_unit|apply ffinite_unit|].
  rewrite !f2r_unit by assumption. apply Rmult_le_compat_r; [apply bpow_ge_0|]. apply IZR_le. clear Hm. apply N2Z.inj_le. apply N.lt_succ_r in Hk || idtac.
  change (2 ^ 52)%N with (N.succ (2 ^ 52 - 1)) in Hk. apply N.lt_succ_r. exact Hk.
Qed.
Lemma high_fires r i rate : flt largest_draw rate = true -> flt (unit_draw r i) rate = true.
Proof. intros H. exact (fle_lt_trans _ _ _ (draw_le r i) H). Qed.
Lemma flip_only rate ch r t : flt largest_draw rate = true -> exists r', flip_bit rate ch r t = Ok (negb <$> ch, r', t).
Proof.
  intros H. destruct (flip_bit_spec rate ch r t) as (c & q & E & Hl & Hs). exists q. rewrite E. do 3 f_equal.
  apply list_eq_same_length with (length ch); [rewrite fmap_length; reflexivity|assumption|]. intros i x y Hi Hx Hy.
  rewrite list_lookup_fmap in Hy. destruct (ch !! i) as [b|] eqn:Hb; [|discriminate]. cbn in Hy. injection Hy as <-.
  specialize (Hs _ _ Hb). rewrite Hx, (high_fires _ _ _ H) in Hs. congruence.
Qed.

Section Permuting.
Context {G : Type}.
Implicit Types ch pre rest target : list G.

(** Interchange: one pass, picking at each place the gene wanted there from the places not yet settled. *)
Lemma interchange_pass rate : flt f0 rate = true -> forall trest pre rest, rest ≡ₚ trest ->
  exists t t', ofold (interchange_step rate (length (pre ++ rest))) (pre ++ rest, zeros, t) (seq (length pre) (length rest)) = Ok (pre ++ trest, zeros, t').
Proof.
  intros H0. induction trest as [|g trest IH]; intros pre rest Hp.
  { symmetry in Hp. apply Permutation_nil in Hp. subst rest. exists zeros, zeros. reflexivity. }
  assert (Hg : g ∈ rest) by (rewrite Hp; left). apply elem_of_list_split in Hg as (a & b & ->).
  assert (Hab : a ++ b ≡ₚ trest). { apply (Permutation_cons_inv (a := g)). rewrite <- Hp. apply Permutation_middle. }
  assert (Hlen : length (a ++ g :: b) = S (length trest)) by (rewrite (Permutation_length Hp); reflexivity).
  pose (rest' := match a with [] => b | x :: a => a ++ x :: b end).
  assert (Hp' : rest' ≡ₚ trest).
  { unfold rest'. destruct a as [|x a]; [exact Hab|]. rewrite <- Hab. cbn [app]. symmetry. apply Permutation_middle. }
  destruct (IH (pre ++ [g]) rest' Hp') as (t & t' & E).
  destruct (gen_range_surj 0 (length (pre ++ a ++ g :: b)) (length pre + length a) t) as [t0 Ht]; [rewrite !app_length; cbn; lia|].
  exists t0, t'. rewrite Hlen. cbn [seq].
  assert (Hstep : interchange_step rate (length (pre ++ a ++ g :: b)) (pre ++ a ++ g :: b, zeros, t0) (length pre) = Ok ((pre ++ [g]) ++ rest', zeros, t)).
  { unfold interchange_step, uni_f64. change (flt (f_unit 52 (zeros 0 mod 2 ^ 52)) rate) with (flt f0 rate). rewrite H0, Ht. cbn [mbind outcome_bind].
    assert (Hj : (pre ++ a ++ g :: b) !! (length pre + length a) = Some g).
    { rewrite lookup_app_r by lia. replace (length pre + length a - length pre) with (length a) by lia. rewrite lookup_app_r by lia. rewrite Nat.sub_diag. reflexivity. }
    assert (Hi : exists x, (pre ++ a ++ g :: b) !! length pre = Some x /\ <[length pre := g]> (<[length pre + length a := x]> (pre ++ a ++ g :: b)) = (pre ++ [g]) ++ rest').
    { rewrite lookup_app_r, Nat.sub_diag by lia. unfold rest'. destruct a as [|x a]; cbn [app length].
      - exists g. split; [reflexivity|]. rewrite Nat.add_0_r. rewrite insert_app_r_alt, Nat.sub_diag by lia. rewrite insert_app_r_alt, Nat.sub_diag by lia. cbn. rewrite <- app_assoc. reflexivity.
      - exists x. split; [reflexivity|]. rewrite insert_app_r_alt by lia. rewrite insert_app_r_alt, Nat.sub_diag by lia.
        replace (length pre + S (length a) - length pre) with (S (length a)) by lia. change (<[0:=g]> (<[S (length a):=x]> (x :: a ++ g :: b))) with (g :: <[length a:=x]> (a ++ g :: b)).
        rewrite insert_app_r_alt, Nat.sub_diag by lia. rewrite <- app_assoc. reflexivity. }
    destruct Hi as (x & Hx & Hi).
    rewrite (proj2 (index_Ok _ _ _) Hj). cbn [mbind outcome_bind]. rewrite (proj2 (index_Ok _ _ _) Hx). cbn [mbind outcome_bind].
    unfold assign. rewrite decide_True by (apply lookup_lt_Some in Hj; exact Hj). cbn [mbind outcome_bind].
    rewrite decide_True by (rewrite insert_length; apply lookup_lt_Some in Hx; exact Hx). cbn [mbind outcome_bind]. rewrite Hi. reflexivity. }
  rewrite (ofold_cons_Ok _ _ _ _ _ Hstep).
  replace (pre ++ g :: trest) with ((pre ++ [g]) ++ trest) by (rewrite <- app_assoc; reflexivity). rewrite <- E. rewrite !app_length. cbn [length]. rewrite app_length in Hlen. cbn [length] in Hlen.
  assert (L : length rest' = length trest) by (apply Permutation_length; exact Hp').
  rewrite L. replace (length pre + 1) with (S (length pre)) by lia. replace (length pre + (length a + S (length b))) with (S (length pre) + length trest) by lia. reflexivity.
Qed.
Lemma interchange_reach rate ch target : flt f0 rate = true -> 0 < length ch -> target ≡ₚ ch -> can_make (interchange rate) ch target.
Proof.
  intros H0 Hl Hp. symmetry in Hp. destruct (interchange_pass rate H0 target [] ch Hp) as (t & t' & E). exists zeros, t, zeros, t'.
  unfold interchange, rassert. rewrite bool_decide_eq_true_2 by exact Hl. cbn [mbind outcome_bind]. exact E.
Qed.

(** Reversing: one pass carries one gene to the end. *)
Lemma sweep_carry (f : nat -> bool) a : forall n (x y : G) rest, f = (fun k => bool_decide (n + S (length a) <= k)) -> sweep f n x (a ++ y :: rest) = x :: a ++ rest ++ [y].
Proof.
  induction a as [|z a IH]; intros n x y rest ->; cbn [app sweep length].
  - rewrite bool_decide_eq_false_2 by lia. f_equal. 
    generalize y; clear y. assert (forall l m (y : G), n + 1 <= m -> sweep (fun k => bool_decide (n + 1 <= k)) m y l = l ++ [y]) as X; [|intros y; apply X; lia].
    induction l as [|w l IHl]; intros m y Hm; [reflexivity|]. cbn [sweep app]. rewrite bool_decide_eq_true_2 by lia. rewrite IHl by lia. reflexivity.
  - rewrite bool_decide_eq_false_2 by lia. f_equal. apply IH. cbn [length]. replace (n + S (S (length a))) with (S n + S (length a)) by lia. reflexivity.
Qed.
Lemma reversing_carry rate a (y : G) b : flt f0 rate = true -> fle rate largest_draw = true -> can_make (reversing rate) (a ++ y :: b) (a ++ b ++ [y]).
Proof.
  intros H0 H1. destruct a as [|x a].
  - cbn [app]. exists (firing (fun _ => true)), zeros. destruct (reversing_sweep rate y b (firing (fun _ => true)) zeros) as [r' E]. exists r', zeros. rewrite E.
    do 3 f_equal. apply sweep_all. intros k. exact (firing_draw (fun _ => true) rate k H0 H1).
  - cbn [app]. pose (f := fun k => bool_decide (0 + S (length a) <= k)). exists (firing f), zeros.
    destruct (reversing_sweep rate x (a ++ y :: b) (firing f) zeros) as [r' E]. exists r', zeros. rewrite E.
    do 3 f_equal. rewrite (sweep_ext _ f); [|intros k _; apply firing_draw; assumption]. apply sweep_carry. reflexivity.
Qed.
Lemma reversing_passes rate : flt f0 rate = true -> fle rate largest_draw = true -> forall trest rest done, rest ≡ₚ trest ->
  can_make_in (reversing rate) (length trest) (rest ++ done) (done ++ trest).
Proof.
  intros H0 H1. induction trest as [|g trest IH]; intros rest done Hp.
  { symmetry in Hp. apply Permutation_nil in Hp. subst rest. rewrite app_nil_r. reflexivity. }
  assert (Hg : g ∈ rest) by (rewrite Hp; left). apply elem_of_list_split in Hg as (a & b & ->).
  assert (Hab : a ++ b ≡ₚ trest). { apply (Permutation_cons_inv (a := g)). rewrite <- Hp. apply Permutation_middle. }
  cbn [length can_make_in]. exists ((a ++ b) ++ done ++ [g]). split.
  - rewrite <- !app_assoc. cbn [app]. rewrite !app_assoc. rewrite <- (app_assoc a b done). rewrite <- app_assoc. exact (reversing_carry rate a g (b ++ done) H0 H1).
  - replace (done ++ g :: trest) with ((done ++ [g]) ++ trest) by (rewrite <- app_assoc; reflexivity). apply IH. exact Hab.
Qed.
Lemma reversing_reach rate ch target : flt f0 rate = true -> fle rate largest_draw = true -> target ≡ₚ ch -> can_make_in (reversing rate) (length ch) ch target.
Proof.
  intros H0 H1 Hp. pose proof (reversing_passes rate H0 H1 target ch [] ltac:(symmetry; exact Hp)) as X.
  rewrite (Permutation_length Hp), app_nil_r in X. exact X.
Qed.
Lemma reversing_only rate x rest r t : flt largest_draw rate = true -> exists r', reversing rate (x :: rest) r t = Ok (rest ++ [x], r', t).
Proof.
  intros H. destruct (reversing_sweep rate x rest r t) as [r' E]. exists r'. rewrite E. do 3 f_equal. apply sweep_all. intros k. apply high_fires. exact H.
Qed.

(** Inversion: one pass brings one gene to its place. *)
Lemma inversion_passes rate : fle f0 rate = true -> forall trest pre rest, rest ≡ₚ trest ->
  can_make_in (inversion rate) (length trest) (pre ++ rest) (pre ++ trest).
Proof.
  intros H0. induction trest as [|g trest IH]; intros pre rest Hp.
  { symmetry in Hp. apply Permutation_nil in Hp. subst rest. reflexivity. }
  assert (Hg : g ∈ rest) by (rewrite Hp; left). apply elem_of_list_split in Hg as (a & b & ->).
  assert (Hab : a ++ b ≡ₚ trest). { apply (Permutation_cons_inv (a := g)). rewrite <- Hp. apply Permutation_middle. }
  cbn [length can_make_in]. exists ((pre ++ [g]) ++ reverse a ++ b). split.
  - destruct (inversion_surj rate (pre ++ a ++ g :: b) zeros (length pre) (length pre + length a) H0) as (r & r' & E); [rewrite !app_length; cbn; lia|].
    exists r, zeros, r', zeros. rewrite E. do 3 f_equal. unfold reverse_segment. rewrite take_app, drop_app.
    replace (length pre + length a + 1 - length pre) with (length (a ++ [g])) by (rewrite app_length; cbn; lia).
    replace (length pre + length a + 1) with (length (pre ++ a ++ [g])) by (rewrite !app_length; cbn; lia).
    replace (a ++ g :: b) with ((a ++ [g]) ++ b) by (rewrite <- app_assoc; reflexivity). rewrite take_app.
    rewrite (app_assoc pre (a ++ [g]) b), drop_app, reverse_app. cbn. rewrite <- app_assoc. reflexivity.
  - replace (pre ++ g :: trest) with ((pre ++ [g]) ++ trest) by (rewrite <- app_assoc; reflexivity). apply IH. rewrite (reverse_Permutation a). exact Hab.
Qed.
Lemma inversion_reach rate ch target : fle f0 rate = true -> target ≡ₚ ch -> can_make_in (inversion rate) (length ch) ch target.
Proof.
  intros H0 Hp. pose proof (inversion_passes rate H0 target [] ch ltac:(symmetry; exact Hp)) as X. rewrite (Permutation_length Hp) in X. exact X.
Qed.
End Permuting.
