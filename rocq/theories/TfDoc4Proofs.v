(** * Documented minima that are not the minima of the code (continued); approximate minima *)
From Coq Require Import Lra Lia Psatz.
From Verif Require Export TfDoc3Proofs.
Open Scope R_scope.

(** ** Unbounded functions *)
Lemma quadratic_unbounded : unbounded_below quadratic 2.
Proof.
  intros b. destruct (below b) as (t & Ht & Hb). exists [- (7 / 10) * t; t]. eexists. split; [reflexivity|]. split; [val @quadratic|]. cbv beta. nra.
Qed.
Lemma mcormick_unbounded : unbounded_below mcormick 2.
Proof.
  intros b. destruct (below b) as (t & Ht & Hb). exists [- (t + 2); - (t + 2)]. eexists. split; [reflexivity|]. split; [val @mcormick|].
  cbv beta. pose proof (sin_le1 (- (t + 2) + - (t + 2))). lra.
Qed.
Lemma adijman_unbounded : unbounded_below adijman 2.
Proof.
  intros b. destruct (below b) as (t & Ht & Hb). exists [t; 0], (- t). split; [reflexivity|]. split; [|exact Hb].
  unfold value, adijman. run. ev. rewrite e_div by lra. ev. f_equal. rewrite sin_0. field.
Qed.
Lemma sin_turns k : sin (PI / 2 + 2 * INR k * PI) = 1.
Proof. rewrite sin_period. apply sin_PI2. Qed.
Lemma schwefel_unbounded n : (1 <= n)%nat -> unbounded_below schwefel n.
Proof.
  intros Hn b. destruct (above (421 + Rabs b)) as (k & Hk). set (u := PI / 2 + 2 * INR k * PI). pose proof PI_gt3.
  assert (Hu : 421 + Rabs b < u) by (subst u; pose proof (Rabs_pos b); pose proof (pos_INR k); nra).
  assert (Hu2 : 421 + Rabs b < u * u) by (pose proof (Rabs_pos b); nra).
  exists (constant n (u * u)). eexists. split; [apply repeat_length'|]. split.
  - unfold value, schwefel. rewrite nonempty_map by (rewrite repeat_length'; exact Hn). cbn [mbind outcome_bind]. rewrite map_length, repeat_length'. ev.
    apply (f_equal (@Ok (option R))).
    assert (L : forall l c, foldl (fun result x_curr => (result - x_curr * nsin (nsqrt (nabs x_curr)))%num) (Some c) (map Some l) = Some (c - rsum (fun a => a * sin (R_sqrt.sqrt (Rabs a))) l)).
    { induction l as [|a l IH]; intros c; cbn [map foldl rsum foldr]; [f_equal; lra|]. ev. rewrite e_sqrt by apply Rabs_pos. ev. rewrite IH. f_equal. unfold rsum. lra. }
    apply L.
  - unfold constant. rewrite rsum_repeat. rewrite Rabs_pos_eq by nn. rewrite sqrt_square by (pose proof (Rabs_pos b); lra). subst u. rewrite sin_turns.
    set (u := PI / 2 + 2 * INR k * PI) in *. assert (1 <= INR n) by (apply (le_INR 1); exact Hn). pose proof (Rle_abs (- b)) as B. rewrite Rabs_Ropp in B.
    set (d := u * u - 4189829 / 10000). assert (2 + Rabs b < d) by (subst d; lra). assert (d <= INR n * d) by (pose proof (Rabs_pos b); nra). subst d. lra.
Qed.
Lemma holder_table_unbounded : unbounded_below holder_table 2.
Proof.
  intros b. destruct (below b) as (t & Ht & Hb). destruct (above (t + 1)) as (k & Hk). set (u := PI / 2 + 2 * INR k * PI). pose proof PI_gt3.
  assert (0 < u) by (subst u; pose proof (pos_INR k); nra).
  exists [u; 0]. eexists. split; [reflexivity|]. split.
  - unfold value, holder_table. run. ev. rewrite e_sqrt by nn. rewrite e_div by lra. ev. reflexivity.
  - cbv beta. replace (u * u + 0 * 0) with (u * u) by lra. rewrite sqrt_square by lra. rewrite cos_0. subst u. rewrite sin_turns.
    replace (1 - (PI / 2 + 2 * INR k * PI) / PI) with (- (2 * INR k - 1 / 2)) by (field; lra). rewrite Rabs_Ropp, (Rabs_pos_eq (2 * INR k - 1 / 2)) by lra.
    rewrite Rabs_pos_eq by (pose proof (exp_pos (2 * INR k - 1 / 2)); lra). pose proof (exp_ineq1_le (2 * INR k - 1 / 2)). lra.
Qed.
Lemma hosaki_value a b : value hosaki [a; b] ((1 - 8 * a + 7 * (a * a) - 7 / 3 * (a * a * a) + 25 / 100 * (a * a * (a * a))) * (b * b) * exp (-1 * b)).
Proof. val @hosaki. Qed.
Lemma hosaki_unbounded : unbounded_below hosaki 2.
Proof.
  intros b. destruct (below b) as (t & Ht & Hb). exists [4; - t]. eexists. split; [reflexivity|]. split; [apply hosaki_value|].
  pose proof (exp_ineq1_le (-1 * - t)). set (e := exp _) in *. assert (1 <= t * t) by nra. assert (1 <= t * t * e) by nra. assert (t <= t * t * e) by nra. nra.
Qed.
(** On the half plane x2 >= 0 the documented point (4, 2) is the minimum. *)
Lemma hosaki_min_half : value hosaki [4; 2] (- (52 / 3) * exp (-2)) /\ (forall a b, 0 <= b -> exists v, value hosaki [a; b] v /\ - (52 / 3) * exp (-2) <= v).
Proof.
  split.
  - pose proof (hosaki_value 4 2) as V. replace (-1 * 2) with (-2) in V by lra. 
    match type of V with value _ _ (?c * ?d * exp _) => replace (c * d) with (- (52 / 3)) in V by lra end. exact V.
  - intros a b Hb. eexists. split; [apply hosaki_value|]. set (p := 1 - _ + _ - _ + _).
    assert (Hp : - (13 / 3) <= p).
    { assert (E : p = - (13 / 3) + (a - 4) * (a - 4) * (1 / 4 * ((a - 2 / 3) * (a - 2 / 3)) + 2 / 9)) by (subst p; field).
      assert (0 <= (a - 4) * (a - 4) * (1 / 4 * ((a - 2 / 3) * (a - 2 / 3)) + 2 / 9)) by nn. lra. }
    assert (Q : b * b * exp (-1 * b) <= 4 * exp (-2)).
    { pose proof (exp_ineq1_le (b / 2 - 1)) as H. set (e := exp (b / 2 - 1)) in *. assert (b <= 2 * e) by lra. assert (b * b <= 4 * (e * e)) by nra.
      assert (E : e * e * exp (-1 * b) = exp (-2)) by (subst e; rewrite <- !exp_plus; f_equal; lra).
      rewrite <- E. pose proof (exp_pos (-1 * b)). nra. }
    assert (0 <= b * b * exp (-1 * b)) by nn. rewrite Rmult_assoc. nra.
Qed.
(** ** Undefined values *)
Lemma foldl_none {A} (g : A -> option R) l : foldl (fun r a => nadd r (g a)) None l = None.
Proof. induction l as [|a l IH]; [reflexivity|]. cbn [foldl]. exact IH. Qed.
Lemma add_none (a : option R) : nadd a None = None.
Proof. destruct a; reflexivity. Qed.
Lemma mul_none (a : option R) : nmul a None = None.
Proof. destruct a; reflexivity. Qed.
Lemma csendes_undefined n : (1 <= n)%nat -> undefined_at csendes (constant n 0).
Proof.
  intros Hn. destruct n as [|n]; [lia|]. unfold undefined_at, csendes. apply (f_equal (@Ok (option R))). cbn [constant repeat map foldl].
  rewrite !e_int, e_div0. change (nsin (None : option R)) with (None : option R). rewrite add_none. apply foldl_none.
Qed.
Lemma csendes_nonneg x v : value csendes x v -> 0 <= v.
Proof.
  unfold value, csendes. intros H. apply Ok_inj in H. revert H. rewrite (e_int 0).
  assert (L : forall l c v, foldl (fun res arg => (res + powi arg 6 * (# 2 + nsin (# 1 / arg)))%num) (Some c) (map Some l) = Some v -> c <= v).
  { induction l as [|a l IH]; intros c w; cbn [map foldl]; [intros [= ->]; lra|]. destruct (Req_dec a 0) as [->|Ha].
    - assert (E : (Some c + powi (Some 0) 6 * (# 2 + nsin (# 1 / Some 0)))%num = None).
      { rewrite !e_int, e_div0. change (nsin (None : option R)) with (None : option R). apply add_none. }
      rewrite E, foldl_none. discriminate.
    - assert (E : (Some c + powi (Some a) 6 * (# 2 + nsin (# 1 / Some a)))%num = Some (c + a * a * a * (a * a * a) * (2 + sin (1 / a)))).
      { rewrite !e_int, e_div by exact Ha. ev. reflexivity. }
      rewrite E. intros H. apply IH in H. pose proof (sin_le1 (1 / a)).
      assert (0 <= a * a * a * (a * a * a) * (2 + sin (1 / a))) by (apply Rmult_le_pos; [nn|lra]). lra. }
  apply L.
Qed.
Lemma perm_0_d_beta_undefined x beta : length x = 2%nat -> undefined_at (fun x => perm_0_d_beta x (Some beta)) x.
Proof.
  intros H. apply len2 in H as (a & b & ->). unfold undefined_at, perm_0_d_beta. change (rassert _) with (Ok tt : outcome unit). cbn [mbind outcome_bind]. 
  apply (f_equal (@Ok (option R))). cbn [length map seq foldl imap].
  assert (E : (# 1 / powi (of_nat 0) (Z.of_nat 1))%num = (None : option R)).
  { rewrite e_nat, e_powi_nat, e_int. cbn [INR]. rewrite pow_ne_zero by lia. apply e_div0. }
  rewrite E. change (nsub ?a (None : option R)) with (r2 Rminus a None).
  assert (N : forall a : option R, r2 Rminus a None = None) by (intros []; reflexivity). rewrite N, add_none.
  reflexivity.
Qed.
Lemma perm_d_beta_undefined x beta : x <> [] -> undefined_at (fun x => perm_d_beta x (Some beta)) x.
Proof.
  intros H. destruct x as [|a x]; [congruence|]. unfold undefined_at, perm_d_beta. apply (f_equal (@Ok (option R))). cbn [length map seq foldl imap].
  assert (E : (Some a / of_nat 0)%num = (None : option R)) by (rewrite e_nat; apply e_div0). rewrite E.
  assert (E2 : powi (None : option R) (Z.of_nat 1) = None) by reflexivity. rewrite E2. change (nsub (None : option R) _) with (None : option R). rewrite mul_none, add_none.
  match goal with |- context [foldl ?f None ?l] => assert (F : foldl f None l = None) end.
  { match goal with |- foldl _ None ?l = None => generalize l end. intros l. induction l as [|[j y] l IH]; [reflexivity|exact IH]. }
  rewrite F. change (powi (None : option R) 2) with (None : option R). rewrite add_none.
  match goal with |- foldl _ None ?l = None => generalize l end. intros l. induction l as [|j l IH]; [reflexivity|exact IH].
Qed.
