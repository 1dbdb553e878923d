(** * Property theorems: the test functions (C70 - C77, C79) *)
From Coq Require Import Lra Lia Psatz.
From Verif Require TfF64Proofs.
From Verif Require Import TfSpec TfDocNotProofs TfFormulaProofs TfShapeProofs F64R PopulationSpec.
Open Scope R_scope.

(** In the theorems the functions are computed over the real numbers ([num_R]: an operation without a real result gives [None]), except in C73 and
    C75, which hold for any arithmetic, and C74, which is about IEEE-754 numbers. *)

(** ** C70: functions of any dimension *)
(** For vectors with at least one coordinate *)
Theorem C70_minimum_nonempty :
  forall n, (1 <= n)%nat ->
  Forall (fun '(f, c) => global_minimum f (fun k => (1 <= k)%nat) (constant n c) 0)
    [(sphere, 0); (rastrigin, 0); (ackley, 0); (griewank, 0); (zakharov, 0); (sum_squares, 0); (sum_of_powers, 0); (rotated_hyper_ellipsoid, 0);
     (xin_she_yang_2, 0); (brown, 0); (levy, 1)].
Proof.
  intros n Hn. repeat (apply List.Forall_cons; [|]); [..|apply List.Forall_nil].
  - apply sphere_min, Hn.
  - apply rastrigin_min, Hn.
  - apply ackley_min, Hn.
  - apply griewank_min, Hn.
  - apply zakharov_min, Hn.
  - apply sum_squares_min, Hn.
  - apply sum_of_powers_min, Hn.
  - apply rotated_hyper_ellipsoid_min, Hn.
  - apply xin_she_yang_2_min, Hn.
  - apply brown_min, Hn.
  - apply levy_min, Hn.
Qed.
Print Assumptions C70_minimum_nonempty.
(** For every vector *)
Theorem C70_minimum_any :
  forall n, Forall (fun '(f, c, m) => global_minimum f (fun _ => True) (constant n c) m)
    [(schumer_steiglitz, 0, 0); (chung_reynolds, 0, 0); (alpine, 0, 0); (salomon, 0, 0); (powell_sum, 0, 0); (quintic, -1, 0); (quintic, 2, 0); (exponential, 0, -1)].
Proof.
  intros n. repeat (apply List.Forall_cons; [|]); [..|apply List.Forall_nil].
  - apply schumer_steiglitz_min.
  - apply chung_reynolds_min.
  - apply alpine_min.
  - apply salomon_min.
  - apply powell_sum_min.
  - apply quintic_min. left. reflexivity.
  - apply quintic_min. right. reflexivity.
  - apply exponential_min.
Qed.
Print Assumptions C70_minimum_any.
(** For vectors with at least two coordinates *)
Theorem C70_minimum_atleast2 :
  forall n, (2 <= n)%nat ->
  Forall (fun '(f, c) => global_minimum f (fun k => (2 <= k)%nat) (constant n c) 0) [(rosenbrock, 1); (pathological, 0); (trigonometric1, 0)].
Proof.
  intros n Hn. repeat (apply List.Forall_cons; [|]); [..|apply List.Forall_nil].
  - apply rosenbrock_min, Hn.
  - apply pathological_min, Hn.
  - apply trigonometric1_min, Hn.
Qed.
Print Assumptions C70_minimum_atleast2.
(** x_i = 2 ^ (-(2^i - 2) / 2^i) *)
Theorem C70_dixon_price :
  forall n, (2 <= n)%nat -> global_minimum dixon_price (fun k => (2 <= k)%nat) (map (fun i => Rpower 2 (- (2 ^ i - 2) / 2 ^ i)) (seq 1 n)) 0.
Proof. exact dixon_price_min. Qed.
Print Assumptions C70_dixon_price.
(** x_i = i (n + 1 - i), minimum -n (n + 4) (n - 1) / 6 *)
Theorem C70_trid :
  forall n, (2 <= n)%nat -> global_minimum trid (fun k => k = n) (map (fun i => INR i * (INR n + 1 - INR i)) (seq 1 n)) (- INR n * (INR n + 4) * (INR n - 1) / 6).
Proof. exact trid_min. Qed.
Print Assumptions C70_trid.
Theorem C70_qing :
  forall i xs, 0 <= i -> (forall a, a ∈ xs -> a = R_sqrt.sqrt i \/ a = - R_sqrt.sqrt i) -> global_minimum (fun x => qing x (Some i)) (fun _ => True) xs 0.
Proof. exact qing_min. Qed.
Print Assumptions C70_qing.
Theorem C70_powell :
  forall n, (4 <= n)%nat -> global_minimum powell2 (fun k => (4 <= k)%nat) (constant n 0) 0 /\
    ((n mod 4 <> 0)%nat -> global_minimum powell (fun k => (4 <= k)%nat /\ (k mod 4 <> 0)%nat) (constant n 0) 0).
Proof. intros n Hn. split; [apply powell2_min, Hn|intros Hm; apply powell_min; assumption]. Qed.
Print Assumptions C70_powell.
(** The values are not all the minimum: these functions are not constant. *)
Example C70_nonvacuous :
  value sphere [3; 4] 25 /\ value rosenbrock [0; 1] 101 /\ value trid [1; 1] (-1) /\
  [2; 2] = map (fun i => INR i * (INR 2 + 1 - INR i)) (seq 1 2) /\ (1 <= length (constant 5 0))%nat.
Proof.
  split; [|split; [|split; [|split]]].
  - unfold value, sphere. cbn. f_equal. f_equal. lra.
  - unfold value, rosenbrock. rewrite rassert_yes by (cbn; lia). cbn. f_equal. f_equal. lra.
  - unfold value, trid. rewrite rassert_yes by (cbn; lia). cbn. f_equal. f_equal. lra.
  - cbn. f_equal; [lra|]. f_equal. lra.
  - cbn. lia.
Qed.

(** ** C71: functions of two or four variables *)
Theorem C71_minimum_two :
  Forall (fun '(f, a, b, m) => global_minimum f (fun k => k = 2%nat) [a; b] m)
    [(beale, 3, 1 / 2, 0); (bohachevsky_n1, 0, 0, 0); (bohachevsky_n2, 0, 0, 0); (bohachevsky_n3, 0, 0, 0); (booth, 1, 3, 0); (bukin_4, -10, 0, 0);
     (bukin_n6, -10, 1, 0); (three_hump_camel, 0, 0, 0); (drop_wave, 0, 0, -1); (easom, PI, PI, -1); (freudenstein_roth, 5, 4, 0);
     (goldstein_price, 0, -1, 3); (himmelblau, 3, 2, 0); (levy_n13, 1, 1, 0); (leon, 1, 1, 0); (matyas, 0, 0, 0); (parsopoulos, PI / 2, 0, 0);
     (periodic, 0, 0, 9 / 10); (price1, 5, 5, 0); (price1, 5, -5, 0); (price1, -5, 5, 0); (price1, -5, -5, 0); (price2, 0, 0, 9 / 10); (price4, 0, 0, 0);
     (rotated_ellipse, 0, 0, 0); (rotated_ellipse2, 0, 0, 0); (schaffer_n1, 0, 0, 0); (schaffer_n2, 0, 0, 0)].
Proof.
  repeat (apply List.Forall_cons; [first [exact beale_min|exact bohachevsky_n1_min|exact bohachevsky_n2_min|exact bohachevsky_n3_min|exact booth_min|exact bukin_4_min
   |exact bukin_n6_min|exact three_hump_camel_min|exact drop_wave_min|exact easom_min|exact freudenstein_roth_min|exact goldstein_price_min|exact himmelblau_min
   |exact levy_n13_min|exact leon_min|exact matyas_min|exact parsopoulos_min|exact periodic_min|apply price1_min; auto|exact price2_min|exact price4_min
   |exact rotated_ellipse_min|exact rotated_ellipse2_min|exact schaffer_n1_min|exact schaffer_n2_min]|]). apply List.Forall_nil.
Qed.
Print Assumptions C71_minimum_two.
Theorem C71_minimum_four :
  global_minimum colville (fun k => k = 4%nat) [1; 1; 1; 1] 0 /\ minimum_where_defined miele_cantrell (fun k => k = 4%nat) [0; 1; 1; 1] 0.
Proof. split; [exact colville_min|exact miele_cantrell_min]. Qed.
Print Assumptions C71_minimum_four.
Example C71_nonvacuous : value booth [0; 0] 74 /\ value himmelblau [0; 0] 170 /\ value matyas [1; 0] (26 / 100).
Proof.
  split; [|split].
  - unfold value, booth. run. ev. f_equal. lra.
  - unfold value, himmelblau. run. ev. f_equal. lra.
  - unfold value, matyas. run. ev. f_equal. lra.
Qed.

(** ** C72: documentation that does not describe the function *)
(** The documented minimum (the last three components: point, value, and a tolerance wide enough for the digits given) is not one. *)
Theorem C72_wrong_documented_minimum :
  Forall (fun '(f, xs, m, tol) => ~ minimum_within f (length xs) xs m tol)
    [ (ackley2, [0; 0], -200, 100);
      (ackley3, [0; - (4 / 10)], -219, 100);
      (biggs_exp2, [1; 10], 0, 100); (biggs_exp3, [1; 10; 5], 0, 100); (biggs_exp4, [1; 10; 1; 5], 0, 100); (biggs_exp5, [1; 10; 1; 5; 4], 0, 100);
      (biggs_exp6, [1; 10; 1; 5; 4; 3], 0, 100);
      (box_betts, [1; 10; 1], 0, 0);
      (branin_default, [- PI; 2275 / 1000], 397887 / 1000000, 1);
      (branin_rcos, [- (32 / 10); 1253 / 100], 5559037 / 1000000, 1);
      (brent, [0; 0], 0, 1);
      (chen_bird, [- (7 / 18); - (13 / 18)], -2000, 100);
      (chen_v, [- (3888889 / 10000000); 7222222 / 10000000], -2000, 100);
      (cube, [-1; 1], 0, 1);
      (eavd, [2842503 / 1000000; 1920175 / 1000000], 470427 / 1000000, 1);
      (egg_crate, [2842503 / 1000000; 1920175 / 1000000], 470427 / 1000000, 1);
      (exp2, [1; 10], 0, 0);
      (giunta, [45834282 / 100000000; 45834282 / 100000000], 60447 / 1000000, 1 / 100);
      (keane, [0; 139325 / 100000], - (673668 / 1000000), 1 / 10);
      (paviani, constant 10 (9351 / 1000), -45, 1);
      (pen_holder, [9646168 / 1000000; - (9646168 / 1000000)], - (96354 / 100000), 1 / 100);
      (price3, [5; 5], 0, 1);
      (schmidt_vetters, [78547 / 100000; 78547 / 100000; 78547 / 100000], 3, 1 / 4);
      (testtube_holder, [PI / 2; 0], -10, 1);
      (trecanni, [0; 0], 0, 1); (trecanni, [-2; 0], 0, 1);
      (wayburn_seader1, [- (299 / 10000); 0], - (3791 / 1000000), 1 / 1000);
      (wayburn_seader2, [2 / 10; 1], 0, 1) ].
Proof.
  repeat (apply List.Forall_cons; [|]); [..|apply List.Forall_nil].
  - apply no_undefined, ackley2_undefined. reflexivity.
  - apply no_bound_lt with 0; [exact ackley3_positive|lra].
  - apply no_above_le with 1000; [exact biggs_exp2_at|lra].
  - apply no_above_le with 1000; [exact biggs_exp3_at|lra].
  - apply no_above_le with 1000; [exact biggs_exp4_at|lra].
  - apply no_above_le with 490; [exact biggs_exp5_at|lra].
  - apply no_above_le with 539; [exact biggs_exp6_at|lra].
  - apply no_bound_lt with 0; [exact box_betts_positive|lra].
  - apply no_above with 10000; [exact branin_default_at|lra].
  - apply no_above with 10000; [exact branin_rcos_at|lra].
  - eapply no_value; [exact brent_at0|]. rewrite Rabs_pos_eq; lra.
  - apply no_above with (-1001); [exact chen_bird_at|lra].
  - apply no_above with (-1); [exact chen_v_at|lra].
  - eapply no_value; [exact cube_at|]. rewrite Rabs_pos_eq; lra.
  - apply no_above with 200; [exact eavd_at|lra].
  - apply no_above with 11; [exact egg_crate_at|lra].
  - apply no_above with 0; [exact exp2_at|lra].
  - eapply no_below; [|exact giunta_below|lra]. reflexivity.
  - apply no_bound with 0; [exact keane_nonneg|lra].
  - apply no_bound with 0; [exact paviani_nonneg|lra].
  - intros H. destruct (proj1 (proj2 H)) as (v & Hv & _). apply (no_below pen_holder 2 [9646168 / 1000000; - (9646168 / 1000000)] (- (96354 / 100000)) (1 / 100) [9646168 / 1000000; - (9646168 / 1000000)] v); [reflexivity|exact Hv| |exact H].
    apply pen_holder_below in Hv; [lra|reflexivity].
  - apply no_above_le with 40000; [apply price3_at; auto|lra].
  - apply no_above with (33 / 10); [exact schmidt_vetters_at|lra].
  - apply no_bound_lt with (-5); [exact testtube_holder_above|lra].
  - eapply no_below; [|exact trecanni_below|lra]. reflexivity.
  - eapply no_below; [|exact trecanni_below|lra]. reflexivity.
  - apply no_bound with 0; [exact (min_bound _ _ _ _ wayburn_seader1_min)|lra].
  - eapply no_value; [exact wayburn_seader2_at|]. rewrite Rabs_pos_eq; lra.
Qed.
Print Assumptions C72_wrong_documented_minimum.
(** The same for functions of any dimension. *)
Theorem C72_wrong_documented_minimum_n :
  forall n, (2 <= n)%nat ->
  Forall (fun '(f, c, m, tol) => ~ minimum_within f n (constant n c) m tol)
    [ (alpine2, 7917 / 1000, 2808 / 1000 * (2808 / 1000) ^ (n - 1), 1);
      (cosine_mixture, 0, 0, 1); (csendes, 0, 0, 1); (deb1, 0, 0, 1 / 2); (deb3, 0, 0, 1 / 10); (exponential, 0, 1, 1); (schwefel, 4209687 / 10000, 0, 1);
      (trigonometric2, 9 / 10, 0, 1) ].
Proof.
  intros n Hn. assert (2 <= INR n) by (apply (le_INR 2); exact Hn). repeat (apply List.Forall_cons; [|]); [..|apply List.Forall_nil].
  - eapply no_value; [apply alpine2_zero|].
    + apply Forall_forall. intros a Ha. apply in_constant in Ha. lra.
    + assert (1 <= (2808 / 1000) ^ (n - 1)) by (apply pow_R1_Rle; lra). rewrite Rabs_left; lra.
  - apply no_unbounded, cosine_mixture_unbounded. lia.
  - apply no_undefined, csendes_undefined. lia.
  - destruct (deb1_min n Hn) as (Hd & Hv & _). eapply no_below; [exact Hd|exact Hv|].
    assert (1 <= INR n / (INR n - 1)) by (apply Rmult_le_reg_r with (INR n - 1); [lra|]; unfold Rdiv; rewrite Rmult_assoc, Rinv_l by lra; lra). unfold Rdiv in *. lra.
  - eapply no_value; [apply deb3_at0, Hn|].
    assert (1 / 8 <= INR n / (8 * (INR n - 1))) by (apply Rmult_le_reg_r with (8 * (INR n - 1)); [lra|]; unfold Rdiv; rewrite (Rmult_assoc (INR n)), Rinv_l by lra; lra).
    rewrite Rabs_left; lra.
  - destruct (exponential_min n) as (Hd & Hv & _). eapply no_value; [exact Hv|]. rewrite Rabs_left; lra.
  - apply no_unbounded, schwefel_unbounded. lia.
  - destruct (trigonometric2_at n Hn) as [Hv Hlt]. eapply no_value; [exact Hv|]. rewrite Rabs_pos_eq; lra.
Qed.
Print Assumptions C72_wrong_documented_minimum_n.
(** These have a documented global minimum but no lower bound at all. *)
Theorem C72_no_lower_bound :
  Forall (fun '(f, d) => unbounded_below f d)
    [ (adijman, 2%nat); (bukin_2, 2%nat); (six_hump_camel, 2%nat); (damavandi, 2%nat); (deckkers_aarts, 2%nat); (holder_table, 2%nat); (hosaki, 2%nat);
      (mcormick, 2%nat); (quadratic, 2%nat); (rosenbrock_modified, 2%nat); (rump, 2%nat); (wolfe, 3%nat); (dolan, 5%nat) ] /\
  forall n, (1 <= n)%nat -> unbounded_below schwefel n /\ unbounded_below cosine_mixture n.
Proof.
  split; [|intros n Hn; split; [apply schwefel_unbounded, Hn|apply cosine_mixture_unbounded, Hn]].
  repeat (apply List.Forall_cons; [first [exact adijman_unbounded|exact bukin_2_unbounded|exact six_hump_camel_unbounded|exact damavandi_unbounded|exact deckkers_aarts_unbounded
    |exact holder_table_unbounded|exact hosaki_unbounded|exact mcormick_unbounded|exact quadratic_unbounded|exact rosenbrock_modified_unbounded|exact rump_unbounded
    |exact wolfe_unbounded|exact dolan_unbounded]|]). apply List.Forall_nil.
Qed.
Print Assumptions C72_no_lower_bound.
(** Where the minimum of some of them really is. *)
Theorem C72_actual_minimum :
  global_minimum cube (fun k => k = 2%nat) [1; 1] 0 /\ global_minimum egg_crate (fun k => k = 2%nat) [0; 0] 0 /\
  global_minimum price3 (fun k => k = 2%nat) [1; 1] 0 /\ global_minimum wayburn_seader1 (fun k => k = 2%nat) [1; 2] 0 /\
  global_minimum chen_bird (fun k => k = 2%nat) [5 / 18; 17 / 18] (-2000) /\
  forall n, (2 <= n)%nat -> global_minimum deb1 (fun k => k = n) (constant n (1 / 10)) (- INR n / (INR n - 1)).
Proof. exact (conj cube_min (conj egg_crate_min (conj price3_min (conj wayburn_seader1_min (conj chen_bird_min deb1_min))))). Qed.
Print Assumptions C72_actual_minimum.
(** The permutation functions and ackley2 never have a real value; power_sum is 0 at the documented point for one vector b only. *)
Theorem C72_undefined :
  (forall x, length x = 2%nat -> undefined_at ackley2 x) /\
  (forall x beta, length x = 2%nat -> undefined_at (fun x => perm_0_d_beta x (Some beta)) x) /\
  (forall x beta, x <> [] -> undefined_at (fun x => perm_d_beta x (Some beta)) x).
Proof. exact (conj ackley2_undefined (conj perm_0_d_beta_undefined perm_d_beta_undefined)). Qed.
Print Assumptions C72_undefined.
Theorem C72_power_sum :
  forall b : list R, let n := length b in (1 <= n)%nat ->
  exists v, value (fun x => power_sum x (map Some b)) (constant n 0) v /\ (v = 0 <-> b = INR n :: constant (n - 1) 0).
Proof. exact power_sum_at0. Qed.
Print Assumptions C72_power_sum.
(** [minimum_within] is not a claim that nothing satisfies. *)
Example C72_nonvacuous : minimum_within booth 2 [1; 3] (1 / 10) (1 / 10).
Proof.
  destruct booth_min as (Hd & Hv & L). split; [reflexivity|]. split.
  - exists 0. split; [exact Hv|]. rewrite Rabs_left; lra.
  - intros x w Hx Hw. pose proof (min_bound _ _ _ _ booth_min x w Hx Hw). lra.
Qed.

(** ** C73: functions that cannot be evaluated at all *)
Theorem C73_never_return :
  forall T (num : Num T), Forall (fun f => forall x, f x = Panic)
    [de_jong_n5; devilliers_glasser1; hartmann_3d; hartmann_4d; hartmann_6d; shekel_default; stretched_v_sine_wave; trid10].
Proof. exact @always_panics. Qed.
Print Assumptions C73_never_return.
Theorem C73_shekel_never_returns : forall T (num : Num T) x m beta (c : list (list T)), shekel x m beta c = Panic.
Proof. exact @shekel_panics. Qed.
Print Assumptions C73_shekel_never_returns.
Theorem C73_rana_pinter_panic : forall T (num : Num T) (x : list T), x <> [] -> rana x = Panic /\ pinter x = Panic.
Proof. intros T num x H. split; [apply rana_panics, H|apply pinter_panics, H]. Qed.
Print Assumptions C73_rana_pinter_panic.

(** ** C75: which vectors are accepted *)
Theorem C75_dimensions :
  forall T (num : Num T),
  Forall (fun f => accepts f (fun n => n = 2%nat))
  [ackley2; ackley3; adijman; beale; biggs_exp2; bird; bohachevsky_n1; bohachevsky_n2; bohachevsky_n3; booth; branin_rcos; branin_rcos2; branin_default; brent;
   bukin_2; bukin_4; bukin_n6; three_hump_camel; six_hump_camel; chen_bird; chen_v; chichinadze; cross_in_tray; cube; damavandi; deckkers_aarts; drop_wave;
   easom; eavd; egg_crate; eggholder; exp2; freudenstein_roth; giunta; goldstein_price; himmelblau; holder_table; holder_table2; holder_table3; hosaki;
   jennrich_sampson; levy_n13; keane; leon; matyas; mcormick; parsopoulos; pen_holder; periodic; price1; price2; price3; price4; quadratic; ripple1; ripple25;
   rosenbrock_modified; rotated_ellipse; rotated_ellipse2; rump; schaffer_n1; schaffer_n2; schaffer_n3; schaffer_n4; shubert; testtube_holder; trecanni; ursem1;
   ursem3; ursem4; ursem_waves; trefethen; vss; wayburn_seader1; wayburn_seader2; wayburn_seader3; zettl; zirilli] /\
  Forall (fun f => accepts f (fun n => n = 3%nat)) [brad; bartels_conn; biggs_exp3; box_betts; schmidt_vetters; wolfe] /\
  Forall (fun f => accepts f (fun n => n = 4%nat)) [biggs_exp4; colville; miele_cantrell] /\
  Forall (fun f => accepts f (fun n => n = 5%nat)) [biggs_exp5; devilliers_glasser2; dolan] /\
  accepts biggs_exp6 (fun n => n = 6%nat) /\ accepts paviani (fun n => n = 10%nat) /\ accepts gulf_research (fun n => n = 99%nat) /\
  Forall (fun f => accepts f (fun n => (1 <= n)%nat))
  [ackley; griewank; levy; michalewicz; rastrigin; rotated_hyper_ellipsoid; schwefel; sphere; styblinski_tang; sum_of_powers; sum_squares; xin_she_yang_2; zakharov; brown; deb1; deb3] /\
  Forall (fun f => accepts f (fun n => (2 <= n)%nat)) [dixon_price; pathological; rosenbrock; trid; trigonometric1; trigonometric2] /\
  Forall (fun f => accepts f (fun _ => True))
  [alpine; alpine2; chung_reynolds; cosine_mixture; csendes; exponential; powell_sum; quintic; salomon; sargan; schumer_steiglitz] /\
  accepts powell2 (fun n => (4 <= n)%nat) /\ accepts powell (fun n => (4 <= n)%nat /\ (n mod 4 <> 0)%nat).
Proof.
  intros T num.
  exact (conj accept2 (conj accept3 (conj accept4 (conj accept5 (conj accept6 (conj accept10 (conj accept99 (conj accept_ne (conj accept_ge2 (conj accept_any (conj powell2_accepts powell_accepts))))))))))).
Qed.
Print Assumptions C75_dimensions.
(** bartels_conn is documented as a function of two variables with its minimum at (0, 0), where it panics. *)
Theorem C75_bartels_conn_rejects_its_documented_dimension :
  forall T (num : Num T) (x : list T), length x = 2%nat -> bartels_conn x = Panic.
Proof.
  intros T num x H. pose proof accept3 as A. apply List.Forall_inv_tail, List.Forall_inv in A. apply A. lia.
Qed.
Print Assumptions C75_bartels_conn_rejects_its_documented_dimension.

(** ** C76: minima documented by decimal approximations *)
Theorem C76_approximate_minima :
  minimum_within zirilli 2 [- (10465 / 10000); 0] (- (3523 / 10000)) (1 / 10000) /\
  minimum_within zettl 2 [- (299 / 10000); 0] (- (3791 / 1000000)) (1 / 1000000) /\
  forall n, (1 <= n)%nat -> minimum_within styblinski_tang n (constant n (- (2903534 / 1000000))) (- (39166165 / 1000000) * INR n) (5 / 1000000 * INR n).
Proof.
  split; [|split].
  - destruct zirilli_approx as [V L]. split; [reflexivity|]. split; [exact V|]. intros x w Hx Hw. destruct (L x Hx) as (v & Hv & Hle).
    assert (E : Some w = Some v) by (apply Ok_inj; unfold value in *; congruence). injection E as ->. lra.
  - destruct zettl_approx as [V L]. split; [reflexivity|]. split; [exact V|]. intros x w Hx Hw. destruct (L x Hx) as (v & Hv & Hle).
    assert (E : Some w = Some v) by (apply Ok_inj; unfold value in *; congruence). injection E as ->. lra.
  - intros n Hn. destruct (styblinski_tang_approx n Hn) as [(v & Hv & Hlt) L]. assert (1 <= INR n) by (apply (le_INR 1); exact Hn).
    assert (Lc : length (constant n (- (2903534 / 1000000))) = n) by apply repeat_length'. split; [exact Lc|]. split.
    + exists v. split; [exact Hv|]. destruct (L _ Lc) as (w & Hw & Hle). assert (E : Some w = Some v) by (apply Ok_inj; unfold value in *; congruence). injection E as ->.
      apply Rabs_le. lra.
    + intros x w Hx Hw. destruct (L x Hx) as (u & Hu & Hle). assert (E : Some w = Some u) by (apply Ok_inj; unfold value in *; congruence). injection E as ->. lra.
Qed.
Print Assumptions C76_approximate_minima.
(** The documented -39.16599 n for styblinski_tang is not the minimum. *)
Theorem C76_styblinski_tang_digits :
  forall n, (1 <= n)%nat -> ~ minimum_within styblinski_tang n (constant n (- (2903534 / 1000000))) (- (3916599 / 100000) * INR n) (1 / 10000 * INR n).
Proof.
  intros n Hn. destruct (styblinski_tang_approx n Hn) as [(v & Hv & Hlt) _]. assert (1 <= INR n) by (apply (le_INR 1); exact Hn).
  eapply no_below; [|exact Hv|lra]. apply repeat_length'.
Qed.
Print Assumptions C76_styblinski_tang_digits.
Example C76_nonvacuous : exists v, value zirilli [1; 1] v /\ 0 < v.
Proof. eexists. split; [val @zirilli|]. lra. Qed.

(** ** C77: wordmax *)
(** The value is the number of true genes: at most the length, and equal to it exactly for the word without false genes. *)
Theorem C77_wordmax :
  forall chromosome : list bool, exists k, @wordmax _ num_R chromosome = Some (INR k) /\ k = count_occ Bool.bool_dec chromosome true /\
    (k <= length chromosome)%nat /\ (k = length chromosome <-> chromosome = constant (length chromosome) true).
Proof.
  intros l. exists (length (filter (fun g => g = true) l)). assert (C : length (filter (fun g => g = true) l) = count_occ Bool.bool_dec l true).
  { induction l as [|b l IH]; [reflexivity|]. destruct b.
    - rewrite filter_cons_True by reflexivity. rewrite count_occ_cons_eq by reflexivity. cbn [length]. rewrite IH. reflexivity.
    - rewrite filter_cons_False by discriminate. rewrite count_occ_cons_neq by discriminate. exact IH. }
  split; [|split; [exact C|split]].
  - unfold wordmax. apply e_nat.
  - rewrite C. apply count_occ_bound.
  - rewrite C. split.
    + intros H. unfold constant. clear C. induction l as [|b l IH]; [reflexivity|]. cbn [length repeat].
      destruct b; [rewrite count_occ_cons_eq in H by reflexivity; cbn [length] in H; rewrite IH at 1 by lia; reflexivity|].
      rewrite count_occ_cons_neq in H by discriminate. cbn [length] in H. pose proof (count_occ_bound Bool.bool_dec true l). lia.
    + intros E. rewrite E at 1. apply count_occ_repeat_eq. reflexivity.
Qed.
Print Assumptions C77_wordmax.
Example C77_nonvacuous : @wordmax _ num_R [true; false; true] = Some (INR 2).
Proof. unfold wordmax. rewrite e_nat. reflexivity. Qed.

(** ** C74: floating-point values of the sums of squares *)
(** For finite coordinates the f64 result is a number (possibly infinite, never NaN) that is not negative, so that individuals can always be compared;
    and it is exactly 0.0 at the documented minimum. *)
Theorem C74_never_nan_never_negative :
  forall (L : libm) (x : list f64), Forall finite_f64 x ->
  let num := num_f64 L in
  let good f := exists v, f x = Ok v /\ is_nan v = false /\ fle f0 v = true in
  (x <> [] -> good sphere /\ good rotated_hyper_ellipsoid) /\
  good chung_reynolds /\ good schumer_steiglitz /\ (forall i, finite_f64 i -> good (fun x => qing x i)) /\
  ((2 <= length x)%nat -> good rosenbrock) /\ ((4 <= length x)%nat -> good powell2) /\
  ((Z.of_nat (length x) <= 2 ^ 53)%Z -> (x <> [] -> good sum_squares) /\ ((2 <= length x)%nat -> good dixon_price)) /\
  (length x = 2%nat -> good booth /\ good himmelblau /\ good price1 /\ good leon /\ good bukin_4).
Proof.
  intros L x H num good0. subst num.
  assert (G : forall f, TfF64Proofs.good f x -> good0 f).
  { intros f (v & Hv & P). exists v. split; [exact Hv|]. split; [apply (TfF64Proofs.pos_nn v P)|apply P]. }
  split; [|split; [|split; [|split; [|split; [|split; [|split]]]]]].
  - intros Hx. split; apply G; [apply TfF64Proofs.sphere_good; assumption|apply TfF64Proofs.rotated_hyper_ellipsoid_good; assumption].
  - apply G, TfF64Proofs.chung_reynolds_good, H.
  - apply G, TfF64Proofs.schumer_steiglitz_good, H.
  - intros i Hi. apply (G (fun x => qing x i)). apply TfF64Proofs.qing_good; assumption.
  - intros Hx. apply G, TfF64Proofs.rosenbrock_good; assumption.
  - intros Hx. apply G, TfF64Proofs.powell2_good; assumption.
  - intros Hl. split; intros Hx; apply G; [apply TfF64Proofs.sum_squares_good; assumption|apply TfF64Proofs.dixon_price_good; assumption].
  - intros Hx. destruct x as [|a [|b [|]]]; try discriminate Hx. apply Forall_cons in H as [Ha H]. apply Forall_cons in H as [Hb _].
    pose proof (TfF64Proofs.two_good L) as T. repeat (apply Forall_cons in T as [? T]). repeat split; apply G; auto.
Qed.
Print Assumptions C74_never_nan_never_negative.
Theorem C74_exactly_zero :
  forall (L : libm) (n : nat), let num := num_f64 L in
  chung_reynolds (constant n f0) = Ok f0 /\ schumer_steiglitz (constant n f0) = Ok f0 /\
  ((1 <= n)%nat -> sphere (constant n f0) = Ok f0 /\ rotated_hyper_ellipsoid (constant n f0) = Ok f0) /\
  ((1 <= n)%nat -> (Z.of_nat n <= 2 ^ 53)%Z -> sum_squares (constant n f0) = Ok f0) /\
  ((2 <= n)%nat -> rosenbrock (constant n f1) = Ok f0) /\ ((4 <= n)%nat -> powell2 (constant n f0) = Ok f0) /\
  Forall (fun '(f, a, b) => f [f_of_Z a; f_of_Z b] = Ok f0)
    [(booth, 1%Z, 3%Z); (himmelblau, 3%Z, 2%Z); (price1, 5%Z, 5%Z); (price1, (-5)%Z, 5%Z); (leon, 1%Z, 1%Z); (bukin_4, (-10)%Z, 0%Z)].
Proof.
  intros L n num. subst num.
  split; [apply TfF64Proofs.chung_reynolds_zero|]. split; [apply TfF64Proofs.schumer_steiglitz_zero|].
  split; [intros H; split; [apply TfF64Proofs.sphere_zero, H|apply TfF64Proofs.rotated_hyper_ellipsoid_zero, H]|].
  split; [intros H H'; apply TfF64Proofs.sum_squares_zero; assumption|]. split; [intros H; apply TfF64Proofs.rosenbrock_zero, H|].
  split; [intros H; apply TfF64Proofs.powell2_zero, H|]. exact (TfF64Proofs.two_zero L).
Qed.
Print Assumptions C74_exactly_zero.
(** The hypothesis "finite" matters: the matyas function, though a positive quadratic form, is NaN at (1e200, 1e200), and the sphere of NaN is NaN;
    and a sum of squares can overflow to infinity. *)
Definition some_libm : libm := Libm (fun x => x) (fun x => x) (fun x _ => x) (fun x _ => x) (fun x => x) (fun x => x) (fun x => x) (fun x => x).
Definition f_1e200 : f64 := f_of_Z (10 ^ 200).
Theorem C74_limits :
  let num := num_f64 some_libm in
  finite_f64 f_1e200 /\ matyas [f_1e200; f_1e200] = Ok S754_nan /\ sphere [f_1e200] = Ok finf /\ sphere [S754_nan] = Ok S754_nan.
Proof. cbv zeta. repeat split; vm_compute; reflexivity. Qed.
Print Assumptions C74_limits.
Example C74_nonvacuous : Forall finite_f64 [f1; f_of_Z 3] /\ (let num := num_f64 some_libm in sphere [f1; f_of_Z 3] = Ok (f_of_Z 10)).
Proof. split; [repeat constructor; vm_compute; reflexivity|vm_compute; reflexivity]. Qed.

(** ** C79: the functions of any dimension are the published ones *)
(** The published formulas, with coordinates counted from 1 ([coord]), sums and products written out ([Sum], [Prod]) *)
Theorem C79_published_formulas :
  forall x : list R, (1 <= length x)%nat -> let d := length x in let X := coord x in
  value sphere x (Sum 1 d (fun i => X i ^ 2)) /\
  value sum_squares x (Sum 1 d (fun i => INR i * X i ^ 2)) /\
  value powell_sum x (Sum 1 d (fun i => Rabs (X i) ^ i)) /\
  value rotated_hyper_ellipsoid x (Sum 1 d (fun i => Sum 1 i (fun j => X j ^ 2))) /\
  value rastrigin x (10 * INR d + Sum 1 d (fun i => X i ^ 2 - 10 * cos (2 * PI * X i))) /\
  value griewank x (Sum 1 d (fun i => X i ^ 2 / 4000) - Prod 1 d (fun i => cos (X i / R_sqrt.sqrt (INR i))) + 1) /\
  value ackley x (- 20 * exp (- (2 / 10) * R_sqrt.sqrt (1 / INR d * Sum 1 d (fun i => X i ^ 2)))
                  - exp (1 / INR d * Sum 1 d (fun i => cos (2 * PI * X i))) + 20 + exp 1) /\
  (let s := Sum 1 d (fun i => 5 / 10 * INR i * X i) in value zakharov x (Sum 1 d (fun i => X i ^ 2) + s ^ 2 + s ^ 4)) /\
  value styblinski_tang x (Sum 1 d (fun i => X i ^ 4 - 16 * X i ^ 2 + 5 * X i) / 2) /\
  value schwefel x (4189829 / 10000 * INR d - Sum 1 d (fun i => X i * sin (R_sqrt.sqrt (Rabs (X i))))) /\
  value michalewicz x (- Sum 1 d (fun i => sin (X i) * sin (INR i * X i ^ 2 / PI) ^ 20)) /\
  ((2 <= d)%nat ->
   value rosenbrock x (Sum 1 (d - 1) (fun i => 100 * (X (i + 1)%nat - X i ^ 2) ^ 2 + (1 - X i) ^ 2)) /\
   value trid x (Sum 1 d (fun i => (X i - 1) ^ 2) - Sum 2 d (fun i => X i * X (i - 1)%nat))).
Proof.
  intros x H d X.
  split; [exact (sphere_formula x H)|]. split; [exact (sum_squares_formula x H)|]. split; [exact (powell_sum_formula x)|].
  split; [exact (rotated_hyper_ellipsoid_formula x H)|]. split; [exact (rastrigin_formula x H)|]. split; [exact (griewank_formula x H)|].
  split; [exact (ackley_formula x H)|]. split; [exact (zakharov_formula x H)|]. split; [exact (styblinski_tang_formula x H)|].
  split; [exact (schwefel_formula x H)|]. split; [exact (michalewicz_formula x H)|].
  intros H2. split; [exact (rosenbrock_formula x H2)|exact (trid_formula x H2)].
Qed.
Print Assumptions C79_published_formulas.
(** Two functions are not the published ones, because the code counts coordinates from 0: dixon_price (published: weight i) and sum_of_powers
    (published: exponent i + 1; the code computes the same function as powell_sum). *)
Theorem C79_shifted_formulas :
  forall x : list R, let d := length x in let X := coord x in
  ((2 <= d)%nat -> value dixon_price x ((X 1%nat - 1) ^ 2 + Sum 2 d (fun i => INR (i - 1) * (2 * X i ^ 2 - X (i - 1)%nat) ^ 2))) /\
  ((1 <= d)%nat -> value sum_of_powers x (Sum 1 d (fun i => Rabs (X i) ^ i))).
Proof. intros x d X. split; [exact (dixon_price_formula x)|exact (sum_of_powers_formula x)]. Qed.
Print Assumptions C79_shifted_formulas.
Theorem C79_not_the_published_function :
  (exists v, value dixon_price [1; 1] v /\ v <> (coord [1; 1] 1 - 1) ^ 2 + Sum 2 2 (fun i => INR i * (2 * coord [1; 1] i ^ 2 - coord [1; 1] (i - 1)) ^ 2)) /\
  (exists v, value sum_of_powers [2] v /\ v <> Sum 1 1 (fun i => Rabs (coord [2] i) ^ (i + 1))).
Proof.
  split.
  - eexists. split; [apply dixon_price_formula; cbn; lia|]. unfold Sum, coord. cbn. lra.
  - eexists. split; [apply sum_of_powers_formula; cbn; lia|]. unfold Sum, coord. cbn. rewrite Rabs_pos_eq by lra. lra.
Qed.
Print Assumptions C79_not_the_published_function.
Example C79_nonvacuous : (1 <= length [1; 2])%nat /\ value sphere [1; 2] 5.
Proof. split; [cbn; lia|]. pose proof (sphere_formula [1; 2] ltac:(cbn; lia)) as H. unfold Sum, coord in H. cbn in H. eapply value_eq; [exact H|lra]. Qed.
