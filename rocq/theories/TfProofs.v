(** * Evaluating the test functions on real numbers *)
From Coq Require Import Lra Lia Psatz.
From Verif Require Export TfSpec.
Open Scope R_scope.
Global Existing Instance num_R.

(** ** Evaluation of the operations *)
Lemma e_lit p q : nlit (T := option R) p q = Some (IZR p / IZR (Zpos q)).
Proof. reflexivity. Qed.
Lemma e_int p : nlit (T := option R) p 1 = Some (IZR p).
Proof. rewrite e_lit. f_equal. lra. Qed.
Lemma e_nat n : of_nat (T := option R) n = Some (INR n).
Proof. unfold of_nat. rewrite e_int. f_equal. symmetry. apply INR_IZR_INZ. Qed.
Lemma e_add a b : nadd (Some a) (Some b) = Some (a + b). Proof. reflexivity. Qed.
Lemma e_sub a b : nsub (Some a) (Some b) = Some (a - b). Proof. reflexivity. Qed.
Lemma e_mul a b : nmul (Some a) (Some b) = Some (a * b). Proof. reflexivity. Qed.
Lemma e_neg a : nneg (Some a) = Some (- a). Proof. reflexivity. Qed.
Lemma e_abs a : nabs (Some a) = Some (Rabs a). Proof. reflexivity. Qed.
Lemma e_sin a : nsin (Some a) = Some (sin a). Proof. reflexivity. Qed.
Lemma e_cos a : ncos (Some a) = Some (cos a). Proof. reflexivity. Qed.
Lemma e_exp a : nexp (Some a) = Some (exp a). Proof. reflexivity. Qed.
Lemma e_tanh a : ntanh (Some a) = Some (tanh a). Proof. reflexivity. Qed.
Lemma e_pi : npi = Some PI. Proof. reflexivity. Qed.
Lemma e_e : nE = Some (exp 1). Proof. reflexivity. Qed.
Lemma e_div a b : b <> 0 -> ndiv (Some a) (Some b) = Some (a / b).
Proof. intros H. cbn. destruct (Req_EM_T b 0); [contradiction|reflexivity]. Qed.
Lemma e_div0 a : ndiv (Some a) (Some 0) = None.
Proof. cbn. destruct (Req_EM_T 0 0); [reflexivity|congruence]. Qed.
Lemma e_sqrt a : 0 <= a -> nsqrt (Some a) = Some (R_sqrt.sqrt a).
Proof. intros H. cbn. destruct (Rle_dec 0 a); [reflexivity|contradiction]. Qed.
Lemma e_ln a : 0 < a -> nln (Some a) = Some (ln a).
Proof. intros H. cbn. destruct (Rlt_dec 0 a); [reflexivity|contradiction]. Qed.
Lemma e_tan a : cos a <> 0 -> ntan (Some a) = Some (sin a / cos a).
Proof. intros H. apply e_div, H. Qed.
Lemma e_powf a b : 0 < a -> npowf (Some a) (Some b) = Some (Rpower a b).
Proof. intros H. cbn. destruct (Rlt_dec 0 a); [reflexivity|contradiction]. Qed.
Lemma e_powf0 b : 0 < b -> npowf (Some 0) (Some b) = Some 0.
Proof. intros H. cbn. destruct (Rlt_dec 0 0); [lra|]. destruct (Req_EM_T 0 0); [|congruence]. destruct (Rlt_dec 0 b); [reflexivity|contradiction]. Qed.
Lemma e_powfE b : npowf (Some (exp 1)) (Some b) = Some (exp b).
Proof. rewrite e_powf by apply exp_pos. unfold Rpower. rewrite ln_exp. f_equal. f_equal. lra. Qed.
Lemma e_powf_nonneg a b : 0 <= a -> 0 < b -> exists v, npowf (Some a) (Some b) = Some v /\ 0 <= v.
Proof.
  intros Ha Hb. destruct (Req_dec a 0) as [->|Hn].
  - rewrite e_powf0 by exact Hb. eexists. split; [reflexivity|lra].
  - rewrite e_powf by lra. eexists. split; [reflexivity|]. left. apply exp_pos.
Qed.

(** ** Integer powers *)
Lemma powi_pos_R p : forall a r, powi_pos (Some a) (Some r) p = Some (r * a ^ Pos.to_nat p).
Proof.
  induction p as [p IH|p IH|]; intros a r; cbn [powi_pos].
  - rewrite !e_mul, IH. f_equal. 
    replace (Pos.to_nat (xI p)) with (S (2 * Pos.to_nat p)) by lia. rewrite <- tech_pow_Rmult, pow_mult.
    replace (a ^ 2) with (a * a) by ring. ring.
  - rewrite !e_mul, IH. f_equal. replace (Pos.to_nat (xO p)) with (2 * Pos.to_nat p)%nat by lia. rewrite pow_mult.
    replace (a ^ 2) with (a * a) by ring. reflexivity.
  - rewrite e_mul. f_equal. rewrite Pos2Nat.inj_1. ring.
Qed.
Lemma e_powi a p : powi (Some a) (Zpos p) = Some (a ^ Pos.to_nat p).
Proof. unfold powi. rewrite e_int, powi_pos_R. f_equal. ring. Qed.
Lemma e_powi_nat a n : powi (Some a) (Z.of_nat n) = Some (a ^ n).
Proof.
  destruct n as [|n].
  - cbn [Z.of_nat powi]. apply e_int.
  - replace (Z.of_nat (S n)) with (Zpos (Pos.of_succ_nat n)) by reflexivity. rewrite e_powi. f_equal. f_equal. lia.
Qed.
Lemma e_powi2 a : powi (Some a) 2 = Some (a * a).
Proof. rewrite e_powi. f_equal. change (Pos.to_nat 2) with 2%nat. ring. Qed.
Lemma e_powi3 a : powi (Some a) 3 = Some (a * a * a).
Proof. rewrite e_powi. f_equal. change (Pos.to_nat 3) with 3%nat. ring. Qed.
Lemma e_powi4 a : powi (Some a) 4 = Some (a * a * (a * a)).
Proof. rewrite e_powi. f_equal. change (Pos.to_nat 4) with 4%nat. ring. Qed.
Lemma e_powi5 a : powi (Some a) 5 = Some (a * a * (a * a) * a).
Proof. rewrite e_powi. f_equal. change (Pos.to_nat 5) with 5%nat. ring. Qed.
Lemma e_powi6 a : powi (Some a) 6 = Some (a * a * a * (a * a * a)).
Proof. rewrite e_powi. f_equal. change (Pos.to_nat 6) with 6%nat. ring. Qed.
Lemma e_powi8 a : powi (Some a) 8 = Some (a * a * (a * a) * (a * a * (a * a))).
Proof. rewrite e_powi. f_equal. change (Pos.to_nat 8) with 8%nat. ring. Qed.

(** Evaluates closed arithmetic over [Some]; divisions, roots and powers are left to the side conditions [tac]. *)
Lemma e_negint p : nneg (nlit (T := option R) (Zpos p) 1) = Some (IZR (Zneg p)).
Proof. rewrite e_int, e_neg. f_equal. Qed.
Ltac ev := repeat first
  [ rewrite e_negint | rewrite e_int | rewrite e_nat | rewrite e_lit | rewrite e_pi | rewrite e_e
  | rewrite e_add | rewrite e_sub | rewrite e_mul | rewrite e_neg | rewrite e_abs | rewrite e_sin | rewrite e_cos | rewrite e_exp
  | rewrite e_tanh | rewrite e_powi2 | rewrite e_powi3 | rewrite e_powi4 | rewrite e_powi5 | rewrite e_powi6 | rewrite e_powi8 | rewrite e_powfE ].

(** ** Vectors *)
Lemma index_some (x : list R) i : (i < length x)%nat -> index (map Some x) i = Ok (Some (nth i x 0)).
Proof.
  intros H. unfold index. assert (E : map Some x !! i = Some <$> (x !! i)) by apply (list_lookup_fmap Some x i). rewrite E.
  destruct (lookup_lt_is_Some_2 x i H) as [v Hv]. rewrite Hv. cbn. f_equal. f_equal. symmetry. apply nth_lookup_Some with (d := 0) in Hv. exact Hv.
Qed.
Lemma map_some_nil (x : list R) : x <> [] -> map Some x <> [].
Proof. destruct x; [congruence|discriminate]. Qed.
Lemma rassert_true b : b = true -> rassert b = Ok tt.
Proof. intros ->. reflexivity. Qed.
Lemma len2 (x : list R) : length x = 2%nat -> exists a b, x = [a; b].
Proof. destruct x as [|a [|b [|]]]; try discriminate. eauto. Qed.
Lemma len3 (x : list R) : length x = 3%nat -> exists a b c, x = [a; b; c].
Proof. destruct x as [|a [|b [|c [|]]]]; try discriminate. eauto. Qed.
Lemma len4 (x : list R) : length x = 4%nat -> exists a b c d, x = [a; b; c; d].
Proof. destruct x as [|a [|b [|c [|d [|]]]]]; try discriminate. eauto 10. Qed.
Lemma len5 (x : list R) : length x = 5%nat -> exists a b c d e, x = [a; b; c; d; e].
Proof. destruct x as [|a [|b [|c [|d [|e [|]]]]]]; try discriminate. eauto 10. Qed.

(** ** Loops that add up terms *)
Definition rsum {A} (h : A -> R) (l : list A) : R := foldr (fun a s => h a + s) 0 l.
Lemma rsum_nonneg {A} (h : A -> R) l : (forall a, 0 <= h a) -> 0 <= rsum h l.
Proof. intros H. induction l as [|a l IH]; cbn; [lra|]. specialize (H a). unfold rsum in IH. lra. Qed.
Lemma rsum_nonneg_in {A} (h : A -> R) l : (forall a, a ∈ l -> 0 <= h a) -> 0 <= rsum h l.
Proof.
  induction l as [|a l IH]; intros H; cbn; [lra|].
  assert (H1 := H a ltac:(constructor)). assert (H2 : 0 <= rsum h l) by (apply IH; intros b Hb; apply H; constructor; exact Hb).
  unfold rsum in H2. lra.
Qed.
Lemma rsum_ge {A} (h : A -> R) m l : (forall a, m <= h a) -> INR (length l) * m <= rsum h l.
Proof. intros H. induction l as [|a l IH]; [cbn; lra|]. cbn [length rsum foldr]. rewrite S_INR. specialize (H a). unfold rsum in IH. lra. Qed.
Lemma rsum_le {A} (h : A -> R) m l : (forall a, h a <= m) -> rsum h l <= INR (length l) * m.
Proof. intros H. induction l as [|a l IH]; [cbn; lra|]. cbn [length rsum foldr]. rewrite S_INR. specialize (H a). unfold rsum in IH. lra. Qed.
Lemma rsum_const {A} (h : A -> R) m l : (forall a, a ∈ l -> h a = m) -> rsum h l = INR (length l) * m.
Proof.
  induction l as [|a l IH]; intros H; [cbn; lra|]. cbn [length rsum foldr]. rewrite S_INR, (H a) by constructor.
  unfold rsum in IH. rewrite IH by (intros b Hb; apply H; constructor; exact Hb). lra.
Qed.
Lemma rsum_zero {A} (h : A -> R) l : (forall a, a ∈ l -> h a = 0) -> rsum h l = 0.
Proof. intros H. rewrite (rsum_const h 0 l H). ring. Qed.
Lemma sum_loop {A B} (g : A -> option R) (h : B -> R) (wrap : B -> A) (l : list B) c :
  (forall b, b ∈ l -> g (wrap b) = Some (h b)) ->
  foldl (fun r a => nadd r (g a)) (Some c) (map wrap l) = Some (c + rsum h l).
Proof.
  revert c. induction l as [|b l IH]; intros c H; cbn [map foldl rsum foldr].
  - f_equal. lra.
  - rewrite (H b) by constructor. rewrite e_add, IH by (intros; apply H; constructor; assumption). f_equal. unfold rsum. lra.
Qed.
Lemma osum_loop {A} (g : option R -> A -> outcome (option R)) (h : A -> R) (l : list A) c :
  (forall r a, a ∈ l -> g (Some r) a = Ok (Some (r + h a))) ->
  ofold g (Some c) l = Ok (Some (c + rsum h l)).
Proof.
  revert c. induction l as [|b l IH]; intros c H; cbn [ofold rsum foldr].
  - f_equal. f_equal. lra.
  - rewrite (H c b) by constructor. cbn [mbind outcome_bind]. rewrite IH by (intros; apply H; constructor; assumption). f_equal. f_equal. unfold rsum. lra.
Qed.
Definition wrap2 (p : nat * R) : nat * option R := (p.1, Some p.2).
Lemma imap_wrap (x : list R) : imap pair (map Some x) = map wrap2 (imap pair x).
Proof.
  change (map Some x) with (Some <$> x). change (map wrap2 (imap pair x)) with (wrap2 <$> imap pair x).
  rewrite imap_fmap, fmap_imap. reflexivity.
Qed.
Lemma imap_length {A} (x : list A) : length (imap pair x) = length x.
Proof. apply imap_length. Qed.
Lemma rsum_repeat (h : R -> R) n c : rsum h (repeat c n) = INR n * h c.
Proof. induction n as [|n IH]; [cbn; lra|]. cbn [repeat rsum foldr]. rewrite S_INR. unfold rsum in IH. rewrite IH. lra. Qed.
