(** * Minima of the test functions of fixed dimension *)
From Coq Require Import Lra Lia Psatz.
From Verif Require Export TfProofs.
Open Scope R_scope.

Lemma run2 (k : option R -> option R -> option R) a b :
  (_ ← rassert (bool_decide (length (map Some [a; b]) = 2%nat)); x1 ← index (map Some [a; b]) 0; x2 ← index (map Some [a; b]) 1; Ok (k x1 x2))
  = Ok (k (Some a) (Some b)).
Proof. reflexivity. Qed.
Lemma run3 (k : option R -> option R -> option R -> option R) a b c :
  (_ ← rassert (bool_decide (length (map Some [a; b; c]) = 3%nat)); x1 ← index (map Some [a; b; c]) 0; x2 ← index (map Some [a; b; c]) 1;
   x3 ← index (map Some [a; b; c]) 2; Ok (k x1 x2 x3))
  = Ok (k (Some a) (Some b) (Some c)).
Proof. reflexivity. Qed.
Lemma run4 (k : option R -> option R -> option R -> option R -> option R) a b c d :
  (_ ← rassert (bool_decide (length (map Some [a; b; c; d]) = 4%nat)); x1 ← index (map Some [a; b; c; d]) 0; x2 ← index (map Some [a; b; c; d]) 1;
   x3 ← index (map Some [a; b; c; d]) 2; x4 ← index (map Some [a; b; c; d]) 3; Ok (k x1 x2 x3 x4))
  = Ok (k (Some a) (Some b) (Some c) (Some d)).
Proof. reflexivity. Qed.
Lemma run5 (k : option R -> option R -> option R -> option R -> option R -> option R) a b c d e :
  (_ ← rassert (bool_decide (length (map Some [a; b; c; d; e]) = 5%nat)); x1 ← index (map Some [a; b; c; d; e]) 0; x2 ← index (map Some [a; b; c; d; e]) 1;
   x3 ← index (map Some [a; b; c; d; e]) 2; x4 ← index (map Some [a; b; c; d; e]) 3; x5 ← index (map Some [a; b; c; d; e]) 4; Ok (k x1 x2 x3 x4 x5))
  = Ok (k (Some a) (Some b) (Some c) (Some d) (Some e)).
Proof. reflexivity. Qed.
Ltac run := first [refine (eq_trans (run2 _ _ _) _) | refine (eq_trans (run3 _ _ _ _) _) | refine (eq_trans (run4 _ _ _ _ _) _) | refine (eq_trans (run5 _ _ _ _ _ _) _)];
  cbv beta; apply (f_equal (@Ok (option R))).
(** Goal [global_minimum f dims [..] m] for a function of two variables: the value at the point, and the bound. *)
Lemma min2 (f : list (option R) -> outcome (option R)) (g : R -> R -> R) p q m :
  (forall a b, value f [a; b] (g a b)) -> g p q = m -> (forall a b, m <= g a b) -> global_minimum f (fun n => n = 2%nat) [p; q] m.
Proof.
  intros Hv Hp Hm. split; [reflexivity|]. split; [rewrite <- Hp; apply Hv|].
  intros x Hx. apply len2 in Hx as (a & b & ->). exists (g a b). auto.
Qed.
Lemma min4 (f : list (option R) -> outcome (option R)) (g : R -> R -> R -> R -> R) p q r s m :
  (forall a b c d, value f [a; b; c; d] (g a b c d)) -> g p q r s = m -> (forall a b c d, m <= g a b c d) ->
  global_minimum f (fun n => n = 4%nat) [p; q; r; s] m.
Proof.
  intros Hv Hp Hm. split; [reflexivity|]. split; [rewrite <- Hp; apply Hv|].
  intros x Hx. apply len4 in Hx as (a & b & c & d & ->). exists (g a b c d). auto.
Qed.
Lemma sqr_nonneg a : 0 <= a * a. Proof. exact (Rle_0_sqr a). Qed.
(** Nonnegativity of sums and products of squares, absolute values, roots and exponentials *)
Ltac nn := repeat first
  [ lra | apply sqr_nonneg | apply Rplus_le_le_0_compat | apply Rabs_pos | apply sqrt_pos | (left; apply exp_pos) | apply Rmult_le_pos ].
Ltac ev2 := repeat first [ progress ev | rewrite e_div by (first [lra | nn; fail]) | rewrite e_sqrt by (nn; fail) | rewrite e_div by (apply Rgt_not_eq; nra) ].
Ltac val f := intros; unfold value, f; run; ev2; reflexivity.
Ltac bound := intros; cbv beta; nn.
Lemma cos_le1 a : -1 <= cos a <= 1. Proof. destruct (COS_bound a). lra. Qed.
Lemma sin_le1 a : -1 <= sin a <= 1. Proof. destruct (SIN_bound a). lra. Qed.
Lemma cos_cos_le1 a b : -1 <= cos a * cos b <= 1.
Proof. pose proof (cos_le1 a). pose proof (cos_le1 b). nra. Qed.
Lemma sin_kpi k : sin (IZR k * PI) = 0.
Proof. apply sin_eq_0_1. exists k. reflexivity. Qed.
Lemma exp_le1 a : a <= 0 -> exp a <= 1.
Proof. intros H. rewrite <- exp_0. destruct H as [H| ->]; [left; apply exp_increasing, H|right; reflexivity]. Qed.

Lemma beale_min : global_minimum beale (fun n => n = 2%nat) [3; 1/2] 0.
Proof. eapply min2; [val @beale|cbv beta; lra|bound]. Qed.
Lemma booth_min : global_minimum booth (fun n => n = 2%nat) [1; 3] 0.
Proof. eapply min2; [val @booth|cbv beta; lra|bound]. Qed.
Lemma bohachevsky_n1_min : global_minimum bohachevsky_n1 (fun n => n = 2%nat) [0; 0] 0.
Proof.
  eapply min2; [val @bohachevsky_n1|cbv beta; rewrite !Rmult_0_r, cos_0; lra|]. intros a b. cbv beta.
  pose proof (cos_le1 (3 * PI * a)). pose proof (cos_le1 (4 * PI * b)). pose proof (sqr_nonneg a). pose proof (sqr_nonneg b). lra.
Qed.
Lemma bohachevsky_n2_min : global_minimum bohachevsky_n2 (fun n => n = 2%nat) [0; 0] 0.
Proof.
  eapply min2; [val @bohachevsky_n2|cbv beta; rewrite !Rmult_0_r, cos_0; lra|]. intros a b. cbv beta.
  pose proof (cos_cos_le1 (3 * PI * a) (4 * PI * b)). pose proof (sqr_nonneg a). pose proof (sqr_nonneg b). lra.
Qed.
Lemma bohachevsky_n3_min : global_minimum bohachevsky_n3 (fun n => n = 2%nat) [0; 0] 0.
Proof.
  eapply min2; [val @bohachevsky_n3|cbv beta; rewrite !Rmult_0_r, Rplus_0_r, cos_0; lra|]. intros a b. cbv beta.
  pose proof (cos_le1 (3 * PI * a + 4 * PI * b)). pose proof (sqr_nonneg a). pose proof (sqr_nonneg b). lra.
Qed.
Lemma bukin_4_min : global_minimum bukin_4 (fun n => n = 2%nat) [-10; 0] 0.
Proof. eapply min2; [val @bukin_4|cbv beta; replace (-10 + 10) with 0 by lra; rewrite Rabs_R0; lra|bound]. Qed.
Lemma bukin_n6_min : global_minimum bukin_n6 (fun n => n = 2%nat) [-10; 1] 0.
Proof.
  eapply min2; [val @bukin_n6| |bound].
  cbv beta. replace (1 - 1 / 100 * (-10 * -10)) with 0 by lra. replace (-10 + 10) with 0 by lra. rewrite Rabs_R0, sqrt_0. lra.
Qed.
Lemma three_hump_camel_min : global_minimum three_hump_camel (fun n => n = 2%nat) [0; 0] 0.
Proof.
  eapply min2; [val @three_hump_camel|cbv beta; lra|]. intros a b. cbv beta.
  pose proof (sqr_nonneg (b + a / 2)). pose proof (sqr_nonneg (a * (a * a - 315 / 100))). pose proof (sqr_nonneg a). lra.
Qed.
Lemma colville_min : global_minimum colville (fun n => n = 4%nat) [1; 1; 1; 1] 0.
Proof.
  eapply min4; [val @colville|cbv beta; lra|]. intros a b c d. cbv beta.
  set (u := a * a - b). set (v := c * c - d).
  pose proof (sqr_nonneg u). pose proof (sqr_nonneg v). pose proof (sqr_nonneg (a - 1)). pose proof (sqr_nonneg (c - 1)).
  pose proof (sqr_nonneg (b - 1 + (d - 1))). pose proof (sqr_nonneg (b - 1)). pose proof (sqr_nonneg (d - 1)). lra.
Qed.
Lemma drop_wave_min : global_minimum drop_wave (fun n => n = 2%nat) [0; 0] (-1).
Proof.
  assert (D : forall a b, 0 < 5 / 10 * (a * a + b * b) + 2) by (intros a b; pose proof (sqr_nonneg a); pose proof (sqr_nonneg b); lra).
  eapply min2.
  - intros a b. unfold value, drop_wave. run. ev2. reflexivity.
  - cbv beta. replace (0 * 0 + 0 * 0) with 0 by lra. rewrite sqrt_0, Rmult_0_r, cos_0. lra.
  - intros a b. cbv beta. specialize (D a b). set (d := _ + 2) in *. pose proof (cos_le1 (12 * R_sqrt.sqrt (a * a + b * b))).
    assert (2 <= d) by (subst d; pose proof (sqr_nonneg a); pose proof (sqr_nonneg b); lra).
    apply Rmult_le_reg_r with d; [lra|]. unfold Rdiv. rewrite (Rmult_assoc _ (/ d)), Rinv_l by lra. lra.
Qed.
Lemma easom_min : global_minimum easom (fun n => n = 2%nat) [PI; PI] (-1).
Proof.
  eapply min2; [val @easom| |].
  - cbv beta. replace (-1 * ((PI - PI) * (PI - PI) + (PI - PI) * (PI - PI))) with 0 by lra. rewrite exp_0, cos_PI. lra.
  - intros a b. cbv beta. set (e := exp _). assert (0 < e <= 1).
    { split; [apply exp_pos|]. apply exp_le1. pose proof (sqr_nonneg (a - PI)). pose proof (sqr_nonneg (b - PI)). lra. }
    pose proof (cos_cos_le1 a b). nra.
Qed.
Lemma freudenstein_roth_min : global_minimum freudenstein_roth (fun n => n = 2%nat) [5; 4] 0.
Proof. eapply min2; [val @freudenstein_roth|cbv beta; lra|bound]. Qed.
Lemma goldstein_price_min : global_minimum goldstein_price (fun n => n = 2%nat) [0; -1] 3.
Proof.
  eapply min2; [val @goldstein_price|cbv beta; lra|]. intros a b. cbv beta.
  set (A := 1 + _). set (B := 30 + _).
  assert (HA : 1 <= A).
  { assert (E : A = 1 + (a + b + 1) * (a + b + 1) * (3 * ((a + b - 7 / 3) * (a + b - 7 / 3)) + 8 / 3)) by (subst A; ring_simplify; lra).
    rewrite E. assert (0 <= (a + b + 1) * (a + b + 1) * (3 * ((a + b - 7 / 3) * (a + b - 7 / 3)) + 8 / 3)) by nn. lra. }
  assert (HB : 3 <= B).
  { set (t := 2 * a - 3 * b) in *. assert (E : B = 3 + (t - 3) * (t - 3) * (3 * ((t + 1 / 3) * (t + 1 / 3)) + 8 / 3)) by (subst B t; field).
    rewrite E. assert (0 <= (t - 3) * (t - 3) * (3 * ((t + 1 / 3) * (t + 1 / 3)) + 8 / 3)) by nn. lra. }
  nra.
Qed.
Lemma himmelblau_min : global_minimum himmelblau (fun n => n = 2%nat) [3; 2] 0.
Proof. eapply min2; [val @himmelblau|cbv beta; lra|bound]. Qed.
Lemma levy_n13_min : global_minimum levy_n13 (fun n => n = 2%nat) [1; 1] 0.
Proof. eapply min2; [val @levy_n13|cbv beta; rewrite !Rmult_1_r, sin_kpi; lra|bound]. Qed.
Lemma leon_min : global_minimum leon (fun n => n = 2%nat) [1; 1] 0.
Proof. eapply min2; [val @leon|cbv beta; lra|bound]. Qed.
Lemma matyas_min : global_minimum matyas (fun n => n = 2%nat) [0; 0] 0.
Proof.
  eapply min2; [val @matyas|cbv beta; lra|]. intros a b. cbv beta.
  pose proof (sqr_nonneg (a - b)). pose proof (sqr_nonneg a). pose proof (sqr_nonneg b). lra.
Qed.
Lemma parsopoulos_min : global_minimum parsopoulos (fun n => n = 2%nat) [PI / 2; 0] 0.
Proof. eapply min2; [val @parsopoulos|cbv beta; rewrite cos_PI2, sin_0; lra|bound]. Qed.
Lemma periodic_min : global_minimum periodic (fun n => n = 2%nat) [0; 0] (9 / 10).
Proof.
  eapply min2; [val @periodic| |].
  - cbv beta. rewrite sin_0. replace (-1 * (0 * 0 + 0 * 0)) with 0 by lra. rewrite exp_0. lra.
  - intros a b. cbv beta. pose proof (sqr_nonneg (sin a)). pose proof (sqr_nonneg (sin b)).
    assert (exp (-1 * (a * a + b * b)) <= 1) by (apply exp_le1; pose proof (sqr_nonneg a); pose proof (sqr_nonneg b); lra). lra.
Qed.
Lemma price1_min p q : (p = 5 \/ p = -5) -> (q = 5 \/ q = -5) -> global_minimum price1 (fun n => n = 2%nat) [p; q] 0.
Proof.
  intros Hp Hq. assert (Rabs p = 5) by (destruct Hp as [-> | ->]; [apply Rabs_pos_eq; lra|rewrite Rabs_left; lra]).
  assert (Rabs q = 5) by (destruct Hq as [-> | ->]; [apply Rabs_pos_eq; lra|rewrite Rabs_left; lra]).
  eapply min2; [val @price1|cbv beta; rewrite H, H0; lra|bound].
Qed.
Lemma price2_min : global_minimum price2 (fun n => n = 2%nat) [0; 0] (9 / 10).
Proof.
  eapply min2; [val @price2| |].
  - cbv beta. rewrite sin_0. replace (-1 * (0 * 0) - 0 * 0) with 0 by lra. rewrite exp_0. lra.
  - intros a b. cbv beta. pose proof (sqr_nonneg (sin a)). pose proof (sqr_nonneg (sin b)).
    assert (exp (-1 * (a * a) - b * b) <= 1) by (apply exp_le1; pose proof (sqr_nonneg a); pose proof (sqr_nonneg b); lra). lra.
Qed.
Lemma price4_min : global_minimum price4 (fun n => n = 2%nat) [0; 0] 0.
Proof. eapply min2; [val @price4|cbv beta; lra|bound]. Qed.
Lemma rotated_ellipse_min : global_minimum rotated_ellipse (fun n => n = 2%nat) [0; 0] 0.
Proof.
  eapply min2; [val @rotated_ellipse|cbv beta; lra|]. intros a b. cbv beta. set (s := R_sqrt.sqrt 3).
  assert (Hs : s * s = 3) by (apply sqrt_def; lra). pose proof (sqr_nonneg (7 * a - 3 * s * b)). pose proof (sqr_nonneg b).
  assert (s * s * (b * b) = 3 * (b * b)) by (rewrite Hs; reflexivity). lra.
Qed.
Lemma rotated_ellipse2_min : global_minimum rotated_ellipse2 (fun n => n = 2%nat) [0; 0] 0.
Proof.
  eapply min2; [val @rotated_ellipse2|cbv beta; lra|]. intros a b. cbv beta.
  pose proof (sqr_nonneg (a - b)). pose proof (sqr_nonneg a). pose proof (sqr_nonneg b). lra.
Qed.
Lemma half_shrunk s d : 0 <= s -> 1 <= d -> 0 <= 5 / 10 + (s - 5 / 10) / d.
Proof.
  intros Hs Hd. apply Rmult_le_reg_r with d; [lra|]. rewrite Rmult_0_l, Rmult_plus_distr_r. unfold Rdiv at 2.
  rewrite (Rmult_assoc _ (/ d)), Rinv_l by lra. lra.
Qed.
Lemma schaffer_n1_min : global_minimum schaffer_n1 (fun n => n = 2%nat) [0; 0] 0.
Proof.
  eapply min2.
  - intros a b. unfold value, schaffer_n1. run. ev. rewrite e_div. { ev. reflexivity. } pose proof (sqr_nonneg a). pose proof (sqr_nonneg b). lra.
  - cbv beta. replace (0 * 0 + 0 * 0) with 0 by lra. rewrite sin_0. lra.
  - intros a b. cbv beta. apply half_shrunk; [nn|]. pose proof (sqr_nonneg a). pose proof (sqr_nonneg b). lra.
Qed.
Lemma schaffer_n2_min : global_minimum schaffer_n2 (fun n => n = 2%nat) [0; 0] 0.
Proof.
  assert (D : forall a b, 1 <= (1 + 1 / 1000 * (a * a + b * b)) * (1 + 1 / 1000 * (a * a + b * b))).
  { intros a b. assert (1 <= 1 + 1 / 1000 * (a * a + b * b)) by (pose proof (sqr_nonneg a); pose proof (sqr_nonneg b); lra). nra. }
  eapply min2.
  - intros a b. unfold value, schaffer_n2. run. ev. rewrite e_div. { ev. reflexivity. } specialize (D a b). lra.
  - cbv beta. replace (0 * 0 - 0 * 0) with 0 by lra. rewrite sin_0. lra.
  - intros a b. cbv beta. apply half_shrunk; [nn|apply D].
Qed.
