(** * Minima of the test functions of any dimension: neighbouring coordinates *)
From Coq Require Import Lra Lia Psatz.
From Verif Require Export TfDimProofs.
Open Scope R_scope.

Lemma rsum_snoc {A} (h : A -> R) l a : rsum h (l ++ [a]) = rsum h l + h a.
Proof. induction l as [|b l IH]; cbn [app rsum foldr]; [lra|]. unfold rsum in IH. rewrite IH. lra. Qed.
Lemma rsum_ext {A} (h k : A -> R) l : (forall a, a ∈ l -> h a = k a) -> rsum h l = rsum k l.
Proof.
  induction l as [|b l IH]; intros H; [reflexivity|]. cbn [rsum foldr]. rewrite (H b) by constructor. f_equal.
  apply IH. intros a Ha. apply H. constructor. exact Ha.
Qed.
Lemma seq_snoc a n : seq a (S n) = seq a n ++ [(a + n)%nat].
Proof. apply seq_S. Qed.
Lemma in_seq_bounds a n i : i ∈ seq a n -> (a <= i < a + n)%nat.
Proof. intros H. apply elem_of_list_In, in_seq in H. exact H. Qed.
Ltac idx x := rewrite !(index_some x) by lia; cbn [mbind outcome_bind].

Lemma rosenbrock_min n : (2 <= n)%nat -> global_minimum rosenbrock (atleast 2) (constant n 1) 0.
Proof.
  intros Hn. eapply minn.
  - intros x Hx. unfold value, rosenbrock. rewrite (atleast_map x 2 Hx). cbn [mbind outcome_bind]. rewrite (e_int 0), map_length.
    rewrite (osum_loop _ (fun i => 100 * ((nth (i + 1) x 0 - nth i x 0 * nth i x 0) * (nth (i + 1) x 0 - nth i x 0 * nth i x 0)) + (1 - nth i x 0) * (1 - nth i x 0)));
      [reflexivity|]. intros r i Hi. apply in_seq_bounds in Hi. idx x. ev. reflexivity.
  - rewrite repeat_length'. exact Hn.
  - cbv beta. rewrite rsum_zero; [lra|]. rewrite repeat_length'. intros i Hi. apply in_seq_bounds in Hi. rewrite !nth_constant by lia. lra.
  - intros x _. cbv beta. rewrite Rplus_0_l. apply rsum_nonneg. intros; nn.
Qed.
(** The coordinates of the documented minimum: x_i = 2^(-(2^i - 2) / 2^i), i = 1, ..., n *)
Definition dixon_price_point (n : nat) : list R := map (fun i => Rpower 2 (- (2 ^ i - 2) / 2 ^ i)) (seq 1 n).
Lemma nth_map_seq (g : nat -> R) n i d : (i < n)%nat -> nth i (map g (seq 1 n)) d = g (i + 1)%nat.
Proof.
  intros H. rewrite (nth_indep _ d (g 0%nat)) by (rewrite map_length, seq_length; exact H). rewrite map_nth, seq_nth by exact H. f_equal. lia.
Qed.
Lemma dixon_price_min n : (2 <= n)%nat -> global_minimum dixon_price (atleast 2) (dixon_price_point n) 0.
Proof.
  intros Hn. eapply minn.
  - intros x Hx. unfold value, dixon_price. rewrite (atleast_map x 2 Hx). cbn [mbind outcome_bind]. idx x. ev. rewrite map_length.
    rewrite (osum_loop _ (fun i => INR i * ((2 * (nth i x 0 * nth i x 0) - nth (i - 1) x 0) * (2 * (nth i x 0 * nth i x 0) - nth (i - 1) x 0))));
      [reflexivity|]. intros r i Hi. apply in_seq_bounds in Hi. idx x. ev. reflexivity.
  - unfold dixon_price_point. rewrite map_length, seq_length. exact Hn.
  - cbv beta. unfold dixon_price_point. rewrite map_length, seq_length. rewrite nth_map_seq by lia.
    replace (- (2 ^ (0 + 1) - 2) / 2 ^ (0 + 1)) with 0 by (cbn; field). rewrite Rpower_O by lra.
    rewrite rsum_zero; [lra|]. intros i Hi. apply in_seq_bounds in Hi. rewrite !nth_map_seq by lia.
    replace (i - 1 + 1)%nat with i by lia. set (p := - (2 ^ (i + 1) - 2) / 2 ^ (i + 1)).
    assert (E : 2 * (Rpower 2 p * Rpower 2 p) = Rpower 2 (- (2 ^ i - 2) / 2 ^ i)).
    { rewrite <- (Rpower_1 2) at 1 by lra. rewrite <- !Rpower_plus. f_equal. subst p. rewrite pow_add, pow_1. field. apply pow_nonzero. lra. }
    rewrite E. lra.
  - intros x _. cbv beta. apply Rplus_le_le_0_compat; [nn|]. apply rsum_nonneg. intros. apply Rmult_le_pos; [apply pos_INR|nn].
Qed.
(** ** Trid *)
(** The coordinates of the documented minimum: x_i = i (n + 1 - i), i = 1, ..., n *)
Definition trid_point (n : nat) : list R := map (fun i => INR i * (INR n + 1 - INR i)) (seq 1 n).
Definition trid_term (x : list R) (i : nat) : R := (nth i x 0 - 1) * (nth i x 0 - 1) - nth i x 0 * nth (i - 1) x 0.
Lemma trid_value x : (2 <= length x)%nat -> value trid x ((nth 0 x 0 - 1) * (nth 0 x 0 - 1) + rsum (trid_term x) (seq 1 (length x - 1))).
Proof.
  intros Hx. unfold value, trid. rewrite (atleast_map x 2 Hx). cbn [mbind outcome_bind]. idx x. ev. rewrite map_length.
  rewrite (osum_loop _ (trid_term x)); [reflexivity|]. intros r i Hi. apply in_seq_bounds in Hi. idx x. ev. reflexivity.
Qed.
(** The least value of the first p terms when the p-th coordinate is y *)
Definition trid_prefix (p y : R) : R := (p + 1) / (2 * p) * (y * y) - (p + 1) * y + (p - (p - 1) * p * (p + 1) / 6).
Lemma trid_step p y z : 0 < p ->
  trid_prefix p y + ((z - 1) * (z - 1) - z * y) = trid_prefix (p + 1) z + (p + 1) / (2 * p) * ((y - p * (z + p + 1) / (p + 1)) * (y - p * (z + p + 1) / (p + 1))).
Proof. intros H. unfold trid_prefix. field. lra. Qed.
Lemma trid_bound x k : trid_prefix (INR (S k)) (nth k x 0) <= (nth 0 x 0 - 1) * (nth 0 x 0 - 1) + rsum (trid_term x) (seq 1 k).
Proof.
  induction k as [|k IH].
  - cbn [seq rsum foldr]. unfold trid_prefix. cbn [INR]. lra.
  - rewrite seq_snoc, rsum_snoc. unfold trid_term at 2. replace (1 + k)%nat with (S k) by lia. replace (S k - 1)%nat with k by lia.
    pose proof (trid_step (INR (S k)) (nth k x 0) (nth (S k) x 0)) as Hs. assert (Hp : 0 < INR (S k)) by (apply lt_0_INR; lia). specialize (Hs Hp).
    rewrite (S_INR (S k)). set (q := (INR (S k) + 1) / (2 * INR (S k)) * _) in Hs.
    assert (0 <= q). { subst q. apply Rmult_le_pos; [|nn]. left. apply Rdiv_lt_0_compat; lra. } lra.
Qed.
Lemma trid_exact n k : (k < n)%nat ->
  trid_prefix (INR (S k)) (nth k (trid_point n) 0) = (nth 0 (trid_point n) 0 - 1) * (nth 0 (trid_point n) 0 - 1) + rsum (trid_term (trid_point n)) (seq 1 k).
Proof.
  induction k as [|k IH]; intros Hk.
  - cbn [seq rsum foldr]. unfold trid_prefix. cbn [INR]. lra.
  - rewrite seq_snoc, rsum_snoc. unfold trid_term at 2. replace (1 + k)%nat with (S k) by lia. replace (S k - 1)%nat with k by lia.
    rewrite <- Rplus_assoc, <- IH by lia. rewrite trid_step by (apply lt_0_INR; lia). rewrite (S_INR (S k)).
    set (q := nth k _ 0 - _). assert (E : q = 0).
    { subst q. unfold trid_point. rewrite !nth_map_seq by lia. replace (k + 1)%nat with (S k) by lia. replace (S k + 1)%nat with (S (S k)) by lia.
      rewrite (S_INR (S k)). field. pose proof (pos_INR (S k)). lra. }
    rewrite E. lra.
Qed.
Lemma trid_min n : (2 <= n)%nat -> global_minimum trid (fun k => k = n) (trid_point n) (- INR n * (INR n + 4) * (INR n - 1) / 6).
Proof.
  intros Hn. assert (L : length (trid_point n) = n) by (unfold trid_point; rewrite map_length, seq_length; reflexivity).
  assert (En : S (n - 1) = n) by lia.
  assert (Hp : 0 < INR n) by (apply lt_0_INR; lia).
  assert (Q : forall y, trid_prefix (INR n) y = - INR n * (INR n + 4) * (INR n - 1) / 6 + (INR n + 1) / (2 * INR n) * ((y - INR n) * (y - INR n)))
    by (intros y; unfold trid_prefix; field; lra).
  eapply minn.
  - intros x Hx. apply trid_value. lia.
  - exact L.
  - cbv beta. rewrite L, <- trid_exact by lia. rewrite En, Q. unfold trid_point. rewrite nth_map_seq by lia.
    replace (n - 1 + 1)%nat with n by lia. replace (INR n * (INR n + 1 - INR n) - INR n) with 0 by lra. lra.
  - intros x Hx. cbv beta. rewrite Hx. pose proof (trid_bound x (n - 1)) as H. rewrite En, Q in H.
    set (q := (INR n + 1) / (2 * INR n) * _) in H. assert (0 <= q). { subst q. apply Rmult_le_pos; [|nn]. left. apply Rdiv_lt_0_compat; lra. } lra.
Qed.
(** ** Levy *)
Definition levy_w (a : R) : R := 1 + (a - 1) / 4.
Lemma levy_min n : (1 <= n)%nat -> global_minimum levy nonempty (constant n 1) 0.
Proof.
  intros Hn. eapply minn with (g := fun x => sin (PI * levy_w (nth 0 x 0)) * sin (PI * levy_w (nth 0 x 0))
    + rsum (fun a => (levy_w a - 1) * (levy_w a - 1) * (1 + 10 * (sin (PI * levy_w a + 1) * sin (PI * levy_w a + 1)))) (take (length x - 1) x)
    + (levy_w (nth (length x - 1) x 0) - 1) * (levy_w (nth (length x - 1) x 0) - 1) * (1 + sin (2 * PI * levy_w (nth (length x - 1) x 0)) * sin (2 * PI * levy_w (nth (length x - 1) x 0)))).
  - intros x Hx. unfold value, levy. rewrite (nonempty_map x Hx). cbn [mbind outcome_bind]. rewrite map_length. idx x. cbv zeta.
    apply (f_equal (@Ok (option R))). ev2.
    assert (Et : take (length x - 1) (map Some x) = map Some (take (length x - 1) x)) by apply firstn_map. rewrite Et.
    rewrite (sum_loop _ (fun a => (levy_w a - 1) * (levy_w a - 1) * (1 + 10 * (sin (PI * levy_w a + 1) * sin (PI * levy_w a + 1)))) Some)
      by (intros a _; ev2; reflexivity).
    ev. reflexivity.
  - rewrite repeat_length'. exact Hn.
  - cbv beta. rewrite repeat_length', !nth_constant by lia. assert (W : levy_w 1 = 1) by (unfold levy_w; lra). rewrite W.
    rewrite Rmult_1_r, sin_PI. rewrite rsum_zero; [lra|].
    intros a H. apply elem_of_take in H as (j & H & _). apply elem_of_list_lookup_2, in_constant in H. subst. rewrite W. lra.
  - intros x _. cbv beta. apply Rplus_le_le_0_compat; [apply Rplus_le_le_0_compat|]; [nn|apply rsum_nonneg; intros; nn|nn].
Qed.
(** ** Griewank *)
Definition rprod {A} (h : A -> R) (l : list A) : R := foldr (fun a s => h a * s) 1 l.
Lemma rprod_le1 {A} (h : A -> R) l : (forall a, -1 <= h a <= 1) -> -1 <= rprod h l <= 1.
Proof. intros H. induction l as [|a l IH]; cbn [rprod foldr]; [lra|]. specialize (H a). unfold rprod in IH. nra. Qed.
Lemma rprod_one {A} (h : A -> R) l : (forall a, a ∈ l -> h a = 1) -> rprod h l = 1.
Proof.
  induction l as [|a l IH]; intros H; [reflexivity|]. cbn [rprod foldr]. rewrite (H a) by constructor. unfold rprod in IH.
  rewrite IH by (intros; apply H; constructor; assumption). lra.
Qed.
Lemma sum_prod_loop {A B} (g1 g2 : A -> option R) (h1 h2 : B -> R) (wrap : B -> A) (l : list B) c1 c2 :
  (forall b, b ∈ l -> g1 (wrap b) = Some (h1 b)) -> (forall b, b ∈ l -> g2 (wrap b) = Some (h2 b)) ->
  foldl (fun t a => (nadd t.1 (g1 a), nmul t.2 (g2 a))) (Some c1, Some c2) (map wrap l) = (Some (c1 + rsum h1 l), Some (c2 * rprod h2 l)).
Proof.
  revert c1 c2. induction l as [|b l IH]; intros c1 c2 H1 H2; cbn [map foldl rsum rprod foldr].
  - rewrite Rplus_0_r, Rmult_1_r. reflexivity.
  - cbn [fst snd]. rewrite (H1 b), (H2 b) by constructor. rewrite e_add, e_mul, IH.
    + f_equal; f_equal; unfold rsum, rprod; lra.
    + intros; apply H1; constructor; assumption.
    + intros; apply H2; constructor; assumption.
Qed.
Lemma griewank_min n : (1 <= n)%nat -> global_minimum griewank nonempty (constant n 0) 0.
Proof.
  intros Hn. eapply minn.
  - intros x Hx. unfold value, griewank. rewrite (nonempty_map x Hx). cbn [mbind outcome_bind]. rewrite imap_wrap.
    rewrite (foldl_ext' _ (fun t (p : nat * option R) => (nadd t.1 (ndiv (powi p.2 2) (nlit 4000 1)), nmul t.2 (ncos (ndiv p.2 (nsqrt (of_nat (p.1 + 1)))))))) by (intros ? []; reflexivity).
    rewrite (e_int 0), (e_int 1).
    rewrite (sum_prod_loop _ _ (fun p : nat * R => p.2 * p.2 / 4000) (fun p => cos (p.2 / R_sqrt.sqrt (INR (p.1 + 1)))) wrap2).
    + cbv zeta beta iota. ev. reflexivity.
    + intros a _. cbn [wrap2 fst snd]. ev2. reflexivity.
    + intros a _. cbn [wrap2 fst snd]. assert (0 < INR (a.1 + 1)) by (apply lt_0_INR; lia). rewrite e_nat, e_sqrt by lra. rewrite e_div; [ev; reflexivity|].
      apply Rgt_not_eq. apply sqrt_lt_R0. exact H.
  - rewrite repeat_length'. exact Hn.
  - cbv beta. zero_sum; [|rewrite H0; lra]. rewrite rprod_one; [lra|]. intros a H. apply in_imap_constant in H. rewrite H. unfold Rdiv. rewrite Rmult_0_l. apply cos_0.
  - intros x _. cbv beta. set (s := rsum _ _). set (q := rprod _ _). assert (0 <= s) by (apply rsum_nonneg; intros a; pose proof (sqr_nonneg a.2); lra).
    assert (-1 <= q <= 1) by (apply rprod_le1; intros a; apply cos_le1). lra.
Qed.
(** ** Brown *)
Definition powr (a b : R) : R := if Req_EM_T a 0 then 0 else Rpower a b.
Lemma powr_nonneg a b : 0 <= powr a b.
Proof. unfold powr. destruct (Req_EM_T a 0); [lra|]. left. apply exp_pos. Qed.
Lemma e_powr a b : 0 <= a -> 0 < b -> npowf (Some a) (Some b) = Some (powr a b).
Proof. intros Ha Hb. unfold powr. destruct (Req_EM_T a 0) as [->|Hn]; [apply e_powf0, Hb|]. apply e_powf. lra. Qed.
Lemma brown_min n : (1 <= n)%nat -> global_minimum brown nonempty (constant n 0) 0.
Proof.
  intros Hn. eapply minn.
  - intros x Hx. unfold value, brown. rewrite (nonempty_map x Hx). cbn [mbind outcome_bind]. rewrite (e_int 0), map_length.
    rewrite (osum_loop _ (fun i => powr (nth i x 0 * nth i x 0) (nth (i + 1) x 0 * nth (i + 1) x 0 + 1) + powr (nth (i + 1) x 0 * nth (i + 1) x 0) (nth i x 0 * nth i x 0 + 1)));
      [reflexivity|]. intros r i Hi. apply in_seq_bounds in Hi. idx x. ev.
    pose proof (sqr_nonneg (nth i x 0)). pose proof (sqr_nonneg (nth (i + 1) x 0)). rewrite !e_powr by lra. ev. reflexivity.
  - rewrite repeat_length'. exact Hn.
  - cbv beta. rewrite rsum_zero; [lra|]. rewrite repeat_length'. intros i Hi. apply in_seq_bounds in Hi. rewrite !nth_constant by lia.
    unfold powr. rewrite Rmult_0_r. destruct (Req_EM_T 0 0); [lra|congruence].
  - intros x _. cbv beta. rewrite Rplus_0_l. apply rsum_nonneg. intros. apply Rplus_le_le_0_compat; apply powr_nonneg.
Qed.
(** ** Pathological *)
Lemma pathological_min n : (2 <= n)%nat -> global_minimum pathological (atleast 2) (constant n 0) 0.
Proof.
  intros Hn. assert (D : forall a b, 1 <= 1 + 1 / 1000 * ((a * a - 2 * a * b + b * b) * (a * a - 2 * a * b + b * b)))
    by (intros a b; pose proof (sqr_nonneg (a * a - 2 * a * b + b * b)); lra).
  eapply minn with (g := fun x => 0 + rsum (fun i => let a := nth i x 0 in let b := nth (i + 1) x 0 in 5 / 10 + (sin (R_sqrt.sqrt (100 * (a * a) + b * b)) * sin (R_sqrt.sqrt (100 * (a * a) + b * b)) - 5 / 10)
      / (1 + 1 / 1000 * ((a * a - 2 * a * b + b * b) * (a * a - 2 * a * b + b * b)))) (seq 1 (length x - 3))).
  - intros x Hx. unfold value, pathological. rewrite (atleast_map x 2 Hx). cbn [mbind outcome_bind]. rewrite (e_int 0), map_length.
    apply osum_loop. intros r i Hi. apply in_seq_bounds in Hi. idx x. ev. specialize (D (nth i x 0) (nth (i + 1) x 0)).
    rewrite e_sqrt by nn. ev. rewrite e_div by lra. ev. reflexivity.
  - rewrite repeat_length'. exact Hn.
  - cbv beta. rewrite rsum_zero; [lra|]. rewrite repeat_length'. intros i Hi. apply in_seq_bounds in Hi. cbv zeta. rewrite !nth_constant by lia.
    replace (100 * (0 * 0) + 0 * 0) with 0 by lra. rewrite sqrt_0, sin_0. lra.
  - intros x _. cbv beta. rewrite Rplus_0_l. apply rsum_nonneg. intros. cbv zeta. apply half_shrunk; [nn|apply D].
Qed.
(** ** Powell *)
Lemma gt3_map (x : list R) : (4 <= length x)%nat -> rassert (bool_decide (3 < length (map Some x))%nat) = Ok tt.
Proof. intros H. apply rassert_true, bool_decide_eq_true. rewrite map_length. lia. Qed.
Lemma powell2_min n : (4 <= n)%nat -> global_minimum powell2 (atleast 4) (constant n 0) 0.
Proof.
  intros Hn.
  eapply minn with (g := fun x => 0 + rsum (fun i => let a := nth (i - 1) x 0 in let b := nth i x 0 in let c := nth (i + 1) x 0 in let d := nth (i + 2) x 0 in
    (a + 10 * b) * (a + 10 * b) + 5 * ((c - d) * (c - d)) + (b - 2 * c) * (b - 2 * c) * ((b - 2 * c) * (b - 2 * c)) + 1 * ((a - d) * (a - d) * ((a - d) * (a - d)))) (seq 1 (length x - 4))).
  - intros x Hx. unfold value, powell2. rewrite (gt3_map x Hx). cbn [mbind outcome_bind].
    rewrite (e_int 0), map_length. apply osum_loop. intros r i Hi. apply in_seq_bounds in Hi. idx x. ev. reflexivity.
  - rewrite repeat_length'. exact Hn.
  - cbv beta. rewrite rsum_zero; [lra|]. rewrite repeat_length'. intros i Hi. apply in_seq_bounds in Hi. cbv zeta. rewrite !nth_constant by lia. lra.
  - intros x _. cbv beta. rewrite Rplus_0_l. apply rsum_nonneg. intros. cbv zeta. nn.
Qed.
Lemma powell_min n : (4 <= n)%nat -> (n mod 4 <> 0)%nat -> global_minimum powell (fun k => (4 <= k)%nat /\ (k mod 4 <> 0)%nat) (constant n 0) 0.
Proof.
  intros Hn Hmod.
  eapply minn with (g := fun x => 0 + rsum (fun i => let a := nth (4 * i - 3) x 0 in let b := nth (4 * i - 2) x 0 in let c := nth (4 * i - 1) x 0 in let d := nth (4 * i) x 0 in
    (a + 10 * b) * (a + 10 * b) + 5 * ((c - d) * (c - d)) + (b - 2 * c) * (b - 2 * c) * ((b - 2 * c) * (b - 2 * c)) + 10 * ((a - d) * (a - d) * ((a - d) * (a - d)))) (seq 1 (length x / 4))).
  - intros x [Hx Hm]. unfold value, powell. rewrite (gt3_map x Hx). cbn [mbind outcome_bind].
    rewrite (e_int 0), map_length. apply osum_loop. intros r i Hi. apply in_seq_bounds in Hi.
    assert (4 * i < length x)%nat. { pose proof (Nat.div_mod (length x) 4 ltac:(lia)). lia. }
    idx x. ev. reflexivity.
  - rewrite repeat_length'. split; assumption.
  - cbv beta. rewrite rsum_zero; [lra|]. rewrite repeat_length'. intros i Hi. apply in_seq_bounds in Hi. pose proof (Nat.div_mod n 4 ltac:(lia)). cbv zeta. rewrite !nth_constant by lia. lra.
  - intros x _. cbv beta. rewrite Rplus_0_l. apply rsum_nonneg. intros. cbv zeta. nn.
Qed.
