(** * Property theorems: generated travelling salesman inputs (C98, C99) *)
From Verif Require Import AcoTspGenProofs AcoTspProofs AcoRunProofs AcoAntProofs.
From Coq Require Import Reals Lra Lia.
Open Scope nat_scope.

(** ** C98 *)
(** The generator never fails; every city lies in the square [0, 100) x [0, 100). *)
Theorem C98_cities_in_square :
  forall n r, exists cities cost r', generate_tsp_cost n r = Ok (cities, cost, r') /\ length cities = n /\ Forall in_square cities.
Proof. intros n r. destruct (generate_Ok n r) as (c & m & r' & H & L & F & _). exists c, m, r'. split; [exact H|]. split; [exact L|apply grid_square, F]. Qed.
Print Assumptions C98_cities_in_square.
(** Two draws for a city: x first, then y, each the draw of [0, 1) times 100, rounded; nothing else is drawn. *)
Theorem C98_cities_are_the_draws :
  forall n r cities cost r', generate_tsp_cost n r = Ok (cities, cost, r') -> (forall j, r' j = r (2 * n + j)) /\
  forall i x y, cities !! i = Some (x, y) -> f2r x = rnd (IZR (Z.of_N (r (2 * i)%nat mod 2 ^ 52)) * / 2 ^ 52 * 100)%R /\
    f2r y = rnd (IZR (Z.of_N (r (2 * i + 1)%nat mod 2 ^ 52)) * / 2 ^ 52 * 100)%R.
Proof. exact @generate_unit_draws. Qed.
Print Assumptions C98_cities_are_the_draws.
(** The cost matrix is square and symmetric with a zero diagonal; every entry is the Euclidean distance of the two cities up
    to a relative error of 4 half ulps, at most 142, and zero exactly when the cities coincide. *)
Theorem C98_cost_matrix :
  forall n r cities cost r', generate_tsp_cost n r = Ok (cities, cost, r') ->
  nrows cost = n /\ ncols cost = n /\ symmetric cost /\ (forall i, i < n -> entry cost i i = f0) /\
  forall i j a b, cities !! i = Some a -> cities !! j = Some b ->
    number (entry cost i j) /\ (0 <= f2r (entry cost i j) <= 142)%R /\ (f2r (entry cost i j) = 0%R <-> same_place a b) /\
    (Rabs (f2r (entry cost i j) - euclid a b) <= 4 * half_ulp * euclid a b)%R.
Proof.
  intros n r cities cost r' H. apply generate_inv in H as (<- & F & Hm). destruct (cost_spec cities) as (m' & Hm' & R & C & S & _). rewrite Hm in Hm'. injection Hm' as <-.
  split; [exact R|]. split; [exact C|]. split; [exact S|]. split; [intros i Hi; exact (cost_diagonal cities cost i Hm F Hi)|]. intros i j a b Ha Hb.
  destruct (entry_weight cities cost i j Hm F (lookup_lt_Some _ _ _ Ha) (lookup_lt_Some _ _ _ Hb)) as ((N & B & _) & P & W). unfold leg in *. rewrite Ha, Hb in *.
  split; [exact N|]. split; [exact B|]. split; [rewrite (sandwich_0 _ _ 3 3 P W); apply euclid_0|]. apply accurate; assumption.
Qed.
Print Assumptions C98_cost_matrix.
(** The triangle inequality holds up to rounding. *)
Theorem C98_nearly_metric :
  forall n r cities cost r' i j k, generate_tsp_cost n r = Ok (cities, cost, r') -> i < n -> j < n -> k < n ->
  (f2r (entry cost i k) <= (f2r (entry cost i j) + f2r (entry cost j k)) * (1 + 8 * half_ulp))%R.
Proof. intros n r cities cost r' i j k H Hi Hj Hk. apply generate_inv in H as (<- & F & Hm). exact (metric_R cities cost i j k Hm F Hi Hj Hk). Qed.
Print Assumptions C98_nearly_metric.
(** The heuristic made of the generated costs: zero for coinciding cities, else positive and finite; small enough for the
    ants' choice not to overflow. *)
Theorem C98_heuristic :
  forall n r cities cost r', generate_tsp_cost n r = Ok (cities, cost, r') ->
  exists h, create_heuristic cost = Ok h /\ nrows h = n /\ ncols h = n /\
  forall i j a b, cities !! i = Some a -> cities !! j = Some b -> number (entry h i j) /\ (same_place a b -> entry h i j = f0) /\
    (~ same_place a b -> (0 < f2r (entry h i j) <= 2 ^ 99)%R).
Proof.
  intros n r cities cost r' H. apply generate_inv in H as (<- & F & Hm). destruct (heuristic_R cities cost Hm F) as (h & A & B & C & D). exists h. split; [exact A|]. split; [exact B|]. split; [exact C|].
  intros i j a b Ha Hb. destruct (D i j a b Ha Hb) as (D1 & D2 & D3). split; [exact D1|]. split; [exact D2|]. intros N. specialize (D3 N). rewrite pow_IZR. exact D3.
Qed.
Print Assumptions C98_heuristic.
Definition square_rng : rng := rng_of [0; 0; 2251799813685248; 0; 2251799813685248; 2251799813685248]%N.
Example C98_nonvacuous :
  match generate_tsp_cost 3 square_rng with
  | Ok (cities, cost, _) => cities = [(f0, f0); (f_of_nat 50, f0); (f_of_nat 50, f_of_nat 50)] /\ entry cost 0 1 = f_of_nat 50 /\ flt (f_of_nat 70) (entry cost 2 0) = true
  | _ => False
  end.
Proof. vm_compute. auto. Qed.

(** ** C99 *)
(** The cost computed for a closed path through the generated cities: finite, and the true length up to rounding. *)
Theorem C99_tour_cost :
  forall n r cities cost r' p c, generate_tsp_cost n r = Ok (cities, cost, r') -> Forall (fun v => v < n) p -> path_cost cost p = Ok c ->
  number c /\ (tour_length cities p * (1 - half_ulp) ^ (length p + 3) <= f2r c <= tour_length cities p * (1 + half_ulp) ^ (length p + 3))%R.
Proof.
  intros n r cities cost r' p c H Hp Hc. apply generate_inv in H as (<- & F & Hm). destruct (path_R cities cost p Hm F Hp) as [R B].
  apply cost_fold_spec in Hc as [_ ->]. rewrite uu_eq in B. split; [exact (proj1 R)|exact B].
Qed.
Print Assumptions C99_tour_cost.
(** Its grade: never NaN; +infinity exactly for tours of length zero, else positive and finite. *)
Theorem C99_grade :
  forall n r cities cost r' p f, generate_tsp_cost n r = Ok (cities, cost, r') -> Forall (fun v => v < n) p ->
  grade_solution cost (Sol p f0) = Ok (Sol p f) ->
  (tour_length cities p = 0%R /\ f = finf) \/ ((0 < tour_length cities p)%R /\ number f /\ (0 < f2r f)%R).
Proof.
  intros n r cities cost r' p f H Hp Hg. apply generate_inv in H as (<- & F & Hm). destruct (path_R cities cost p Hm F Hp) as [R B].
  unfold grade_solution in Hg. apply obind_Ok in Hg as (c & Hc & Hg). injection Hg as <-. apply cost_fold_spec in Hc as [_ ->]. cbn [sol_path] in *.
  pose proof (tour_length_pos cities p) as P. pose proof (sandwich_0 _ _ _ _ P B) as Z. change (foldl fadd f0 ?l) with (float_sum l).
  destruct (grade_R _ R) as [[E1 E2]|(E1 & E2 & E3)].
  - left. split; [apply Z; rewrite E1; apply f2r_f0|exact E2].
  - right. assert (tour_length cities p <> 0%R) by (rewrite <- Z; lra). split; [lra|]. split; [exact E2|]. pose proof uu_small. apply Rinv_0_lt_compat in E1. eapply Rlt_le_trans; [|apply E3]. apply Rmult_lt_0_compat; [exact E1|lra].
Qed.
Print Assumptions C99_grade.
(** An iteration of the Ant System on generated cities reports, up to rounding, a shortest of the tours its ants made;
    C40_run_protocol: a run is a sequence of such iterations. *)
Theorem C99_best_is_shortest :
  forall T n r cities cost r' op u (init : T -> T) check p s sols b p' s', 0 < n ->
  generate_tsp_cost n r = Ok (cities, cost, r') ->
  nrows p = n -> symmetric p -> Forall (usable n) s.1 ->
  one_iteration (tsp (ant_system op) cost u init check) p s sols b p' s' ->
  Forall (fun x => tour n (sol_path x)) sols /\ b ∈ sols /\
  forall x, x ∈ sols -> (tour_length cities (sol_path b) * (1 - half_ulp) ^ (n + 4) <= tour_length cities (sol_path x) * (1 + half_ulp) ^ (n + 4))%R.
Proof.
  intros T n r cities cost r' op u init check p s sols b p' s' Hn H Hr Hs Hu Hit. apply generate_inv in H as (L & F & Hm).
  destruct (tsp_iteration op n cost u init check p s sols b p' s' Hn Hr Hs Hu Hit) as (_ & HF & Hb).
  destruct Hit as (paths & p1 & s1 & us & s2 & _ & _ & _ & _ & Hbest & _).
  assert (HN : Forall (fun x => F64.is_nan (sol_fitness x) = false) sols).
  { apply Forall_forall. intros x Hx. rewrite Forall_forall in HF. destruct (HF x Hx) as [HT HG]. rewrite HG. destruct (tour_facts n _ HT) as (_ & _ & HV). rewrite <- L in HV.
    destruct (path_R cities cost (sol_path x) Hm F HV) as [R _]. destruct (grade_R _ R) as [[_ ->]|(_ & [_ E2] & _)]; [reflexivity|]. apply ffinite_not_nan, E2. }
  specialize (Hbest HN). split; [eapply Forall_impl; [exact HF|]; intros x [A _]; exact A|]. split; [exact Hb|]. intros x Hx. rewrite Forall_forall in HF, Hbest.
  destruct (HF x Hx) as [TX GX]. destruct (HF b Hb) as [TB GB]. specialize (Hbest x Hx). red in GX, GB. rewrite GX, GB in Hbest.
  destruct (tour_facts n _ TX) as (_ & LX & VX). destruct (tour_facts n _ TB) as (_ & LB & VB). rewrite <- L in VX, VB.
  pose proof (better_is_shorter cities cost (sol_path b) (sol_path x) Hm F VB VX ltac:(congruence) Hbest) as Q. rewrite uu_eq, LB in Q. exact Q.
Qed.
Print Assumptions C99_best_is_shortest.
Definition gen_ants : list ant := [canonical_ant 3 (rng_of [1]%N) (rng_of []); canonical_ant 3 (rng_of [0; 7]%N) (rng_of [1]%N)].
Example C99_nonvacuous :
  symmetric (mrepeat 3 3 f1) /\ Forall (usable 3) gen_ants /\
  match generate_tsp_cost 3 square_rng with
  | Ok (_, cost, _) =>
      match aco_run (tsp (ant_system (fun p => Ok p)) cost (AntSystemPU fhalf) ic_init ic_check) 3 (mrepeat 3 3 f1) (gen_ants, sol_default) (0, 2) with
      | Ok (evs, _, _) => length evs = 9
      | _ => False
      end
  | _ => False
  end.
Proof. split; [split; reflexivity|]. split; [repeat constructor|]. vm_compute. reflexivity. Qed.
