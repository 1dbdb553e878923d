(** * Documented minima that are not the minima of the code *)
From Coq Require Import Lra Lia Psatz.
From Verif Require Export TfDim2Proofs.
Open Scope R_scope.

Ltac val f ::= intros; unfold value, f; run; ev2; repeat (rewrite e_div by (apply Rgt_not_eq, Rplus_lt_le_0_compat; [lra|nn]); ev2); reflexivity.
Lemma value_fun f x v w : value f x v -> value f x w -> v = w.
Proof. unfold value. congruence. Qed.
(** All values of a function of two (three) variables *)
Lemma all2 (f : list (option R) -> outcome (option R)) (g : R -> R -> R) (P : R -> Prop) :
  (forall a b, value f [a; b] (g a b)) -> (forall a b, P (g a b)) -> forall x v, length x = 2%nat -> value f x v -> P v.
Proof. intros Hv HP x v Hx H. apply len2 in Hx as (a & b & ->). rewrite (value_fun _ _ _ _ H (Hv a b)). apply HP. Qed.
Lemma all3 (f : list (option R) -> outcome (option R)) (g : R -> R -> R -> R) (P : R -> Prop) :
  (forall a b c, value f [a; b; c] (g a b c)) -> (forall a b c, P (g a b c)) -> forall x v, length x = 3%nat -> value f x v -> P v.
Proof. intros Hv HP x v Hx H. apply len3 in Hx as (a & b & c & ->). rewrite (value_fun _ _ _ _ H (Hv a b c)). apply HP. Qed.
Lemma exp_ge1 a : 0 <= a -> 1 <= exp a.
Proof. intros H. rewrite <- exp_0. destruct H as [H| <-]; [left; apply exp_increasing, H|right; reflexivity]. Qed.
Lemma PI_gt3 : 3 < PI.
Proof. pose proof PI2_3_2. lra. Qed.
Lemma PI_le4 : PI <= 4.
Proof. exact PI_4. Qed.

Lemma ackley2_undefined x : length x = 2%nat -> undefined_at ackley2 x.
Proof.
  intros H. apply len2 in H as (a & b & ->). unfold undefined_at, ackley2. run. ev.
  assert (E : npowf (Some (-200 * exp 1)) (Some (- (2 / 100))) = None).
  { cbn. pose proof (exp_pos 1). destruct (Rlt_dec 0 (-200 * exp 1)); [lra|]. destruct (Req_EM_T (-200 * exp 1) 0); [lra|reflexivity]. }
  rewrite E. reflexivity.
Qed.
Lemma ackley3_positive x v : length x = 2%nat -> value ackley3 x v -> 0 < v.
Proof.
  revert x v. eapply all2; [val @ackley3|]. intros a b. cbv beta. set (p := exp _). set (q := exp _).
  pose proof (exp_pos (- (2 / 100) * R_sqrt.sqrt (a * a + b * b))). pose proof (exp_pos (cos (3 * a) + sin (3 * b))). subst p q. lra.
Qed.
Lemma alpine2_zero x : Forall (fun a => 0 <= a) x -> value alpine2 x 0.
Proof.
  intros H. unfold value, alpine2. f_equal. rewrite (e_int 0). induction H as [|a x Ha Hx IH]; [reflexivity|].
  cbn [map foldl]. rewrite e_sin, e_sqrt by exact Ha. rewrite !e_mul, Rmult_0_l. exact IH.
Qed.
Lemma cosine_mixture_value x : value cosine_mixture x (- (1 / 10) * (0 + rsum (fun a => cos (5 * PI * a)) x) - (0 + rsum (fun a => a * a) x)).
Proof.
  unfold value, cosine_mixture. rewrite (e_int 0).
  rewrite (pair_loop _ _ (fun a => cos (5 * PI * a)) (fun a => a * a) Some); [|intros; ev; reflexivity|intros; apply e_powi2].
  cbv beta iota zeta. ev. reflexivity.
Qed.
Lemma cosine_mixture_at0 n : value cosine_mixture (constant n 0) (- (1 / 10) * INR n).
Proof.
  pose proof (cosine_mixture_value (constant n 0)) as H. unfold constant in H. rewrite !rsum_repeat, Rmult_0_r, cos_0 in H.
  replace (- (1 / 10) * INR n) with (- (1 / 10) * (0 + INR n * 1) - (0 + INR n * (0 * 0))) by lra. exact H.
Qed.
Lemma cosine_mixture_unbounded n : (1 <= n)%nat -> unbounded_below cosine_mixture n.
Proof.
  intros Hn b. set (t := 1 + Rabs b).
  exists (constant n t). eexists. split; [apply repeat_length'|]. split; [apply cosine_mixture_value|].
  unfold constant. rewrite !rsum_repeat. pose proof (cos_le1 (5 * PI * t)). assert (1 <= INR n) by (apply (le_INR 1); exact Hn).
  assert (1 <= t) by (subst t; pose proof (Rabs_pos b); lra). assert (- b <= t - 1) by (subst t; pose proof (Rle_abs (- b)); rewrite Rabs_Ropp in *; lra).
  assert (t <= t * t) by nra. assert (- INR n <= INR n * cos (5 * PI * t)) by nra. assert (t * t - 1 / 10 <= INR n * (t * t - 1 / 10)) by nra. lra.
Qed.
Lemma brent_at0 : value brent [0; 0] 201.
Proof.
  assert (V : forall a b, value brent [a; b] ((a + 10) * (a + 10) + (b + 10) * (b + 10) + exp (-1 * (a * a) - b * b))) by (val @brent).
  specialize (V 0 0). replace (-1 * (0 * 0) - 0 * 0) with 0 in V by lra. rewrite exp_0 in V. replace 201 with ((0 + 10) * (0 + 10) + (0 + 10) * (0 + 10) + 1) by lra. exact V.
Qed.
Lemma brent_positive x v : length x = 2%nat -> value brent x v -> 0 < v.
Proof.
  revert x v. eapply all2; [val @brent|]. intros a b. cbv beta. pose proof (exp_pos (-1 * (a * a) - b * b)). 
  pose proof (sqr_nonneg (a + 10)). pose proof (sqr_nonneg (b + 10)). lra.
Qed.
Lemma below b : exists t, 1 <= t /\ - t < b.
Proof. exists (1 + Rabs b). pose proof (Rabs_pos b). pose proof (Rle_abs (- b)). rewrite Rabs_Ropp in *. lra. Qed.
Lemma bukin_2_unbounded : unbounded_below bukin_2 2.
Proof.
  intros b. destruct (below b) as (t & Ht & Hb). exists [-10; - t]. eexists. split; [reflexivity|]. split; [val @bukin_2|]. lra.
Qed.
Lemma six_hump_camel_unbounded : unbounded_below six_hump_camel 2.
Proof.
  intros b. destruct (below b) as (t & Ht & Hb). exists [- (3 * t); 0]. eexists. split; [reflexivity|]. split; [val @six_hump_camel|].
  assert (H : 4 - 21 / 10 * (- (3 * t) * - (3 * t)) + - (3 * t) * - (3 * t) * - (3 * t) / 3 <= - t) by nra.
  assert (1 <= t * t) by nra. assert (0 < - (3 * t) * - (3 * t)) by nra. nra.
Qed.
Lemma cube_at : value cube [-1; 1] 404.
Proof.
  assert (V : forall a b, value cube [a; b] (100 * ((b - a * a * a) * (b - a * a * a)) + (1 - a) * (1 - a))) by (val @cube).
  specialize (V (-1) 1). replace 404 with (100 * ((1 - -1 * -1 * -1) * (1 - -1 * -1 * -1)) + (1 - -1) * (1 - -1)) by lra. exact V.
Qed.
Lemma cube_min : global_minimum cube (fun n => n = 2%nat) [1; 1] 0.
Proof. eapply min2; [val @cube|cbv beta; lra|bound]. Qed.
Lemma egg_crate_min : global_minimum egg_crate (fun n => n = 2%nat) [0; 0] 0.
Proof. eapply min2; [val @egg_crate|cbv beta; rewrite sin_0; lra|bound]. Qed.
Lemma egg_crate_at : exists v, value egg_crate [2842503 / 1000000; 1920175 / 1000000] v /\ 11 < v.
Proof.
  eexists. split; [val @egg_crate|]. set (s := sin _). set (t := sin _). pose proof (sqr_nonneg s). pose proof (sqr_nonneg t). lra.
Qed.
Lemma deb1_value x : (2 <= length x)%nat ->
  value deb1 x (-1 / (INR (length x) - 1) * (0 + rsum (fun a => let s := sin (5 * PI * a) in s * s * s * (s * s * s)) x)).
Proof.
  intros H. unfold value, deb1. rewrite (nonempty_map x) by lia. cbn [mbind outcome_bind]. rewrite (e_int 0).
  rewrite (sum_loop _ (fun a => let s := sin (5 * PI * a) in s * s * s * (s * s * s)) Some) by (intros; ev; reflexivity). 
  rewrite map_length. ev. rewrite minus_INR by lia. cbn [INR]. assert (2 <= INR (length x)) by (apply (le_INR 2); exact H). rewrite e_div by lra. ev. reflexivity.
Qed.
Lemma six_le1 s : -1 <= s <= 1 -> s * s * s * (s * s * s) <= 1.
Proof. intros H. assert (0 <= s * s <= 1) by nra. assert (-1 <= s * s * s <= 1) by nra. nra. Qed.
Lemma deb1_min n : (2 <= n)%nat -> global_minimum deb1 (fun k => k = n) (constant n (1 / 10)) (- INR n / (INR n - 1)).
Proof.
  intros Hn. assert (2 <= INR n) by (apply (le_INR 2); exact Hn). eapply minn.
  - intros x Hx. apply deb1_value. lia.
  - apply repeat_length'.
  - cbv beta zeta. rewrite repeat_length'. unfold constant. rewrite rsum_repeat. replace (5 * PI * (1 / 10)) with (PI / 2) by lra. rewrite sin_PI2. field. lra.
  - intros x Hx. cbv beta zeta. pose proof (rsum_le (fun a => let s := sin (5 * PI * a) in s * s * s * (s * s * s)) 1 x) as B. cbv beta zeta in B.
    assert (Hc : forall a, sin (5 * PI * a) * sin (5 * PI * a) * sin (5 * PI * a) * (sin (5 * PI * a) * sin (5 * PI * a) * sin (5 * PI * a)) <= 1) by (intros; apply six_le1, sin_le1).
    specialize (B Hc). rewrite Hx in *. set (s := rsum _ x) in *. apply Rmult_le_reg_r with (INR n - 1); [lra|].
    replace (- INR n / (INR n - 1) * (INR n - 1)) with (- INR n) by (field; lra). replace (-1 / (INR n - 1) * (0 + s) * (INR n - 1)) with (- s) by (field; lra). lra.
Qed.
Lemma trecanni_at : value trecanni [-2; 0] 40.
Proof.
  assert (V : forall a b, value trecanni [a; b] (a * a * (a * a) - 4 * (a * a * a) + 4 * a + b * b)) by (val @trecanni).
  specialize (V (-2) 0). match type of V with value _ _ ?e => replace e with 40 in V by lra end. exact V.
Qed.
Lemma trecanni_below : value trecanni [- (1 / 2); 0] (- (23 / 16)).
Proof.
  assert (V : forall a b, value trecanni [a; b] (a * a * (a * a) - 4 * (a * a * a) + 4 * a + b * b)) by (val @trecanni).
  specialize (V (- (1 / 2)) 0). match type of V with value _ _ ?e => replace e with (- (23 / 16)) in V by lra end. exact V.
Qed.
Lemma price3_min : global_minimum price3 (fun n => n = 2%nat) [1; 1] 0.
Proof. eapply min2; [val @price3|cbv beta; lra|bound]. Qed.
Lemma price3_at p q : (p = 5 \/ p = -5) -> (q = 5 \/ q = -5) -> exists v, value price3 [p; q] v /\ 40000 <= v.
Proof.
  intros Hp Hq. eexists. split; [val @price3|]. set (w := _ - p - _). pose proof (sqr_nonneg w).
  destruct Hp as [-> | ->], Hq as [-> | ->]; lra.
Qed.
Lemma wayburn_seader1_min : global_minimum wayburn_seader1 (fun n => n = 2%nat) [1; 2] 0.
Proof. eapply min2; [val @wayburn_seader1|cbv beta; lra|bound]. Qed.
Lemma wayburn_seader2_at : value wayburn_seader2 [2 / 10; 1] (324 / 100 + 1 / 64000000).
Proof.
  assert (V : forall a b, value wayburn_seader2 [a; b] ((1613 / 1000 - 4 * ((a - 3125 / 10000) * (a - 3125 / 10000)) - 4 * ((b - 1625 / 1000) * (b - 1625 / 1000)))
    * (1613 / 1000 - 4 * ((a - 3125 / 10000) * (a - 3125 / 10000)) - 4 * ((b - 1625 / 1000) * (b - 1625 / 1000))) + (a - 2) * (a - 2))) by (val @wayburn_seader2).
  specialize (V (2 / 10) 1). match type of V with value _ _ ?e => replace e with (324 / 100 + 1 / 64000000) in V by lra end. exact V.
Qed.
Lemma wayburn_seader2_positive x v : length x = 2%nat -> value wayburn_seader2 x v -> 0 < v.
Proof.
  revert x v. eapply all2; [val @wayburn_seader2|]. intros a b. cbv beta. destruct (Req_dec a 2) as [->|Ha].
  - set (w := 1613 / 1000 - _ - _). assert (w < 0) by (subst w; pose proof (sqr_nonneg (b - 1625 / 1000)); lra). nra.
  - set (w := 1613 / 1000 - _ - _). pose proof (sqr_nonneg w). assert (0 < (a - 2) * (a - 2)) by (destruct (Rtotal_order a 2) as [?|[?|?]]; nra). lra.
Qed.
Lemma wolfe_unbounded : unbounded_below wolfe 3.
Proof.
  intros b. destruct (below b) as (t & Ht & Hb). exists [0; 0; - t], (- t). split; [reflexivity|]. split; [|exact Hb].
  unfold value, wolfe. run. ev. replace (0 * 0 + 0 * 0 - 0 * 0) with 0 by lra. rewrite e_powf0 by lra. ev. f_equal. lra.
Qed.
Lemma dolan_at0 : value dolan [0; 0; 0; 0; 0] (-1).
Proof. unfold value, dolan. run. ev. f_equal. rewrite sin_0. lra. Qed.
Lemma dolan_unbounded : unbounded_below dolan 5.
Proof.
  intros b. destruct (below b) as (t & Ht & Hb). exists [0; 0; t; 0; 0], (- (15 / 10) * t - 1). split; [reflexivity|]. split; [|lra].
  unfold value, dolan. run. ev. f_equal. rewrite sin_0. lra.
Qed.
Lemma rump_unbounded : unbounded_below rump 2.
Proof.
  intros b. destruct (below b) as (t & Ht & Hb). exists [t; 0]. eexists. split; [reflexivity|]. split; [val @rump|]. cbv beta. nra.
Qed.
Lemma deckkers_aarts_unbounded : unbounded_below deckkers_aarts 2.
Proof.
  intros b. destruct (below b) as (t & Ht & Hb). exists [0; 2 * t]. eexists. split; [reflexivity|].
  split; [unfold value, deckkers_aarts; change (1 / 100000)%Z with 0%Z; run; ev2; reflexivity|]. cbv beta. assert (1 <= t * t) by nra. assert (t <= t * t) by nra. nra.
Qed.
Lemma rosenbrock_modified_value a b : value rosenbrock_modified [a; b]
  (74 + 100 * ((b - a * a) * (b - a * a)) + (1 - b) * (1 - b) - 400 * exp (-1 * ((a + 1) * (a + 1)) + (b + 1) * (b + 1) / (1 / 10))).
Proof. val @rosenbrock_modified. Qed.
Lemma rosenbrock_modified_at : value rosenbrock_modified [-1; -1] 78.
Proof.
  pose proof (rosenbrock_modified_value (-1) (-1)) as V. replace (-1 * ((-1 + 1) * (-1 + 1)) + (-1 + 1) * (-1 + 1) / (1 / 10)) with 0 in V by lra. rewrite exp_0 in V.
  match type of V with value _ _ ?e => replace e with 78 in V by lra end. exact V.
Qed.
Lemma rosenbrock_modified_unbounded : unbounded_below rosenbrock_modified 2.
Proof.
  intros b. destruct (below b) as (t & Ht & Hb). exists [-1; t]. eexists. split; [reflexivity|]. split; [apply rosenbrock_modified_value|].
  set (e := -1 * _ + _). pose proof (exp_ineq1_le e). assert (e = 10 * ((t + 1) * (t + 1))) by (subst e; field). nra.
Qed.
Lemma le_div m a d : 0 < d -> m * d <= a -> m <= a / d.
Proof. intros Hd H. apply Rmult_le_reg_r with d; [exact Hd|]. unfold Rdiv. rewrite Rmult_assoc, Rinv_l by lra. lra. Qed.
Lemma chen_term w : -1000 <= - (1 / 1000) / (1 / 1000 * (1 / 1000) + w * w).
Proof.
  pose proof (sqr_nonneg w). apply le_div; lra.
Qed.
Lemma chen_far w : 1 / 100 <= w * w -> - (1 / 10) <= - (1 / 1000) / (1 / 1000 * (1 / 1000) + w * w).
Proof. intros H. apply le_div; lra. Qed.
Lemma chen_bird_value a b : value chen_bird [a; b]
  (- (1 / 1000) / (1 / 1000 * (1 / 1000) + (a - 4 / 10 * b + 1 / 10) * (a - 4 / 10 * b + 1 / 10)) - 1 / 1000 / (1 / 1000 * (1 / 1000) + (2 * a + b - 15 / 10) * (2 * a + b - 15 / 10))).
Proof. val @chen_bird. Qed.
Lemma chen_bird_min : global_minimum chen_bird (fun n => n = 2%nat) [5 / 18; 17 / 18] (-2000).
Proof.
  eapply min2; [apply chen_bird_value| |].
  - cbv beta. replace (5 / 18 - 4 / 10 * (17 / 18) + 1 / 10) with 0 by lra. replace (2 * (5 / 18) + 17 / 18 - 15 / 10) with 0 by lra. lra.
  - intros a b. cbv beta. pose proof (chen_term (a - 4 / 10 * b + 1 / 10)). pose proof (chen_term (2 * a + b - 15 / 10)). unfold Rdiv in *. lra.
Qed.
Lemma chen_bird_at : exists v, value chen_bird [- (7 / 18); - (13 / 18)] v /\ -1001 < v.
Proof.
  eexists. split; [apply chen_bird_value|]. replace (2 * - (7 / 18) + - (13 / 18) - 15 / 10) with (-3) by lra. 
  replace (- (7 / 18) - 4 / 10 * - (13 / 18) + 1 / 10) with 0 by lra. lra.
Qed.
Lemma chen_v_value a b : value chen_v [a; b]
  (- (1 / 1000) / (1 / 1000 * (1 / 1000) + (a * a + b * b - 1) * (a * a + b * b - 1)) - 1 / 1000 / (1 / 1000 * (1 / 1000) + (a * a + b * b - 5 / 10) * (a * a + b * b - 5 / 10))
   - 1 / 1000 / (1 / 1000 * (1 / 1000) + (a * a - b * b) * (a * a - b * b))).
Proof. val @chen_v. Qed.
Lemma chen_v_at : exists v, value chen_v [- (3888889 / 10000000); 7222222 / 10000000] v /\ -1 < v.
Proof.
  eexists. split; [apply chen_v_value|]. set (a := - (3888889 / 10000000)). set (b := 7222222 / 10000000).
  pose proof (chen_far (a * a + b * b - 1)). pose proof (chen_far (a * a + b * b - 5 / 10)). pose proof (chen_far (a * a - b * b)).
  assert (A : 1 / 100 <= (a * a + b * b - 1) * (a * a + b * b - 1)) by (subst a b; lra).
  assert (B : 1 / 100 <= (a * a + b * b - 5 / 10) * (a * a + b * b - 5 / 10)) by (subst a b; lra).
  assert (C : 1 / 100 <= (a * a - b * b) * (a * a - b * b)) by (subst a b; lra).
  specialize (H A). specialize (H0 B). specialize (H1 C). clear A B C. set (x := a * a + b * b - 1) in *. set (y := a * a + b * b - 5 / 10) in *. set (z := a * a - b * b) in *.
  unfold Rdiv in *. lra.
Qed.
Lemma chen_v_below : exists v, value chen_v [1 / 2; 1 / 2] v /\ v < -2000.
Proof.
  eexists. split; [apply chen_v_value|]. replace (1 / 2 * (1 / 2) + 1 / 2 * (1 / 2) - 5 / 10) with 0 by lra. replace (1 / 2 * (1 / 2) - 1 / 2 * (1 / 2)) with 0 by lra.
  replace (1 / 2 * (1 / 2) + 1 / 2 * (1 / 2) - 1) with (- (1 / 2)) by lra.
  assert (0 < 1 / 1000 / (1 / 1000 * (1 / 1000) + - (1 / 2) * - (1 / 2))) by (apply Rdiv_lt_0_compat; lra).
  assert (- (1 / 1000) / (1 / 1000 * (1 / 1000) + - (1 / 2) * - (1 / 2)) < 0) by (unfold Rdiv in *; lra).
  replace (1 / 1000 / (1 / 1000 * (1 / 1000) + 0 * 0)) with 1000 by field. lra.
Qed.
Lemma eavd_at : exists v, value eavd [2842503 / 1000000; 1920175 / 1000000] v /\ 200 < v.
Proof. eexists. split; [val @eavd|]. lra. Qed.
