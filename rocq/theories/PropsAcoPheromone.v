(** * Property theorems: pheromone updates, best policies, grading (C37-C39, C41, C51, C62, C63) *)
From Verif Require Import AcoPheromoneProofs AcoGradeProofs AcoGroupProofs AcoDepositProofs AcoUtilProofs F64R.
From Coq Require Import Reals.
Open Scope nat_scope.

(** ** C37 *)
(** Symmetry is kept exactly, for any paths, rates and fitnesses. *)
Theorem C37_updates_keep_symmetry :
  (forall rate m sols m', symmetric m -> as_update rate m sols = Ok m' -> symmetric m') /\
  (forall rate m sols best m' best', symmetric m -> elitist_update rate m sols best = Ok (m', best') -> symmetric m') /\
  (forall policy rate m sols best m' best', symmetric m -> acs_update policy rate m sols best = Ok (m', best') -> symmetric m') /\
  (forall policy rate lo hi m sols best m' best', symmetric m -> mmas_update policy rate lo hi m sols best = Ok (m', best') -> symmetric m').
Proof. split; [exact as_update_symmetric|]. split; [exact elitist_symmetric|]. split; [exact acs_update_symmetric|exact mmas_symmetric]. Qed.
Print Assumptions C37_updates_keep_symmetry.

(** The value of every edge after the update, for tours of at least three places: evaporation, then one addition of the
    fitness for each depositing tour that uses the edge, in order. *)
Theorem C37_ant_system_deposits :
  forall rate m sols m' n, 3 <= n -> Forall (fun s => tour n (sol_path s)) sols -> as_update rate m sols = Ok m' ->
  nrows m' = nrows m /\ ncols m' = ncols m /\ forall a b, after_deposits a b sols (fmul (entry m a b) (fsub f1 rate)) (entry m' a b).
Proof. exact as_deposits. Qed.
Print Assumptions C37_ant_system_deposits.
Theorem C37_elitist_deposits :
  forall rate m sols best m' best' n, 3 <= n -> Forall (fun s => tour n (sol_path s)) sols -> tour_or_none n best ->
  elitist_update rate m sols best = Ok (m', best') ->
  best' = overall_best best sols /\ nrows m' = nrows m /\ ncols m' = ncols m /\
  forall a b, after_deposits a b (sols ++ [best']) (fmul (entry m a b) (fsub f1 rate)) (entry m' a b).
Proof. exact elitist_deposits. Qed.
Print Assumptions C37_elitist_deposits.
Theorem C37_ant_colony_system_deposits :
  forall k rate m sols best m' best' n, 3 <= n -> Forall (fun s => tour n (sol_path s)) sols -> tour_or_none n best ->
  acs_update (apply_policy k) rate m sols best = Ok (m', best') ->
  best' = apply_policy k best sols /\ nrows m' = nrows m /\ ncols m' = ncols m /\
  forall a b, after_deposits a b [Sol (sol_path best') (fmul (sol_fitness best') rate)] (fmul (entry m a b) (fsub f1 rate)) (entry m' a b).
Proof. exact acs_deposits. Qed.
Print Assumptions C37_ant_colony_system_deposits.

(** Edges on no depositing path are only scaled; here the paths are arbitrary. *)
Theorem C37_other_edges_only_evaporate :
  (forall rate m sols m' a b, as_update rate m sols = Ok m' -> Forall (fun s => ~ neighbours (sol_path s) a b) sols ->
     entry m' a b = fmul (entry m a b) (fsub f1 rate)) /\
  (forall rate m sols best m' best' a b, elitist_update rate m sols best = Ok (m', best') ->
     Forall (fun s => ~ neighbours (sol_path s) a b) (sols ++ [best']) -> entry m' a b = fmul (entry m a b) (fsub f1 rate)) /\
  (forall policy rate m sols best m' best' a b, acs_update policy rate m sols best = Ok (m', best') ->
     ~ neighbours (sol_path best') a b -> entry m' a b = fmul (entry m a b) (fsub f1 rate)).
Proof.
  split_and!.
  - intros rate m sols m' a b H Hn. apply trail_spec in H as (_ & _ & E). rewrite E, trail_value_off by exact Hn. reflexivity.
  - intros rate m sols best m' best' a b H Hn. apply obind_Ok in H as (m1 & H1 & H). apply obind_Ok in H as (m2 & H2 & H). injection H as <- <-.
    apply Forall_app in Hn as [Hn Hb]. apply Forall_inv in Hb. apply trail_spec in H1 as (_ & _ & E1). apply trail1_spec in H2 as (_ & _ & E2 & _).
    rewrite E2, (not_neighbours_zero _ _ _ Hb). cbn [deposited Nat.iter]. rewrite E1, trail_value_off by exact Hn. reflexivity.
  - intros policy rate m sols best m' best' a b H Hn. apply obind_Ok in H as (m1 & H1 & H). injection H as <- <-. apply trail1_spec in H1 as (_ & _ & E2 & _).
    rewrite E2, (not_neighbours_zero _ _ _ Hn). reflexivity.
Qed.
Print Assumptions C37_other_edges_only_evaporate.

Definition ones (n : nat) : matrix := mrepeat n n f1.
Definition t0 : solution := Sol [0; 1; 2; 3] fhalf.
Definition t1 : solution := Sol [0; 2; 1; 3] f1.
Example C37_nonvacuous :
  symmetric (ones 4) /\ Forall (fun s => tour 4 (sol_path s)) [t0; t1] /\ tour_or_none 4 sol_default /\
  (exists m', as_update fhalf (ones 4) [t0; t1] = Ok m' /\ entry m' 0 3 = f_of_nat 2 /\ entry m' 0 1 = f1 /\ entry m' 0 0 = fhalf) /\
  (exists m' b, elitist_update fhalf (ones 4) [t0; t1] sol_default = Ok (m', b) /\ b = t1 /\ entry m' 0 3 = f_of_nat 3) /\
  (exists m' b, acs_update (apply_policy OverallBest) fhalf (ones 4) [t0; t1] sol_default = Ok (m', b) /\ b = t1 /\ entry m' 0 3 = f1) /\
  (exists m' b, mmas_update (apply_policy IterationBest) fhalf fhalf f1 (ones 4) [t0; t1] sol_default = Ok (m', b) /\ b = t1 /\ entry m' 0 3 = f1).
Proof.
  split; [split; reflexivity|]. split; [|split; [left; reflexivity|]].
  { repeat (apply Forall_cons; split). - unfold tour. reflexivity. - unfold tour. cbn. apply perm_skip. apply perm_swap. - constructor. }
  split; [eexists; split; [vm_compute; reflexivity|]; split_and!; reflexivity|].
  split; [eexists _, _; split; [vm_compute; reflexivity|]; split_and!; reflexivity|].
  split; [eexists _, _; split; [vm_compute; reflexivity|]; split_and!; reflexivity|].
  eexists _, _; split; [vm_compute; reflexivity|]; split_and!; reflexivity.
Qed.

(** ** C38 *)
Theorem C38_best_tour_within_bounds :
  forall policy rate lo hi m sols best m' best', flt lo hi = true -> mmas_update policy rate lo hi m sols best = Ok (m', best') ->
  best' = policy best sols /\ nrows m' = nrows m /\ ncols m' = ncols m /\
  (forall a b, neighbours (sol_path best') a b -> fle lo (entry m' a b) = true /\ fle (entry m' a b) hi = true) /\
  (forall a b, ~ neighbours (sol_path best') a b -> entry m' a b = fmul (entry m a b) (fsub f1 rate)).
Proof. exact mmas_spec. Qed.
Print Assumptions C38_best_tour_within_bounds.
Lemma fclamp_limited lo hi v : cut_to lo hi v (fclamp v lo hi).
Proof.
  unfold cut_to, fclamp, fgt. split; [|split; [|split]].
  - intros H1 H2. rewrite H1, H2. reflexivity.
  - intros H. destruct (flt lo v) eqn:E; [|reflexivity]. pose proof (fle_lt_trans _ _ _ H E) as X. rewrite flt_irrefl in X. discriminate.
  - intros H1 H2. rewrite H1. destruct (flt v hi) eqn:E; [|reflexivity]. pose proof (fle_lt_trans _ _ _ H2 E) as X. rewrite flt_irrefl in X. discriminate.
  - intros H. destruct (flt lo v) eqn:E; [|reflexivity]. apply flt_nan_r in E. congruence.
Qed.
(** Only bounds 0 <= lower < upper are accepted *)
Theorem C38_bounds_checked :
  forall lo hi, (fle f0 lo = true /\ flt lo hi = true -> mmas_new lo hi = Ok (lo, hi)) /\ (~ (fle f0 lo = true /\ flt lo hi = true) -> mmas_new lo hi = Panic).
Proof.
  intros lo hi. unfold mmas_new, fge, fgt. destruct (fle f0 lo), (flt lo hi); split; intros H; try reflexivity; try (destruct H; discriminate); exfalso; apply H; auto.
Qed.
Print Assumptions C38_bounds_checked.
(** The exact value, in the direction of travel; the opposite direction is made equal. *)
Theorem C38_best_tour_value :
  forall k rate lo hi m sols best m' best' n, 3 <= n -> Forall (fun s => tour n (sol_path s)) sols -> tour_or_none n best ->
  mmas_update (apply_policy k) rate lo hi m sols best = Ok (m', best') ->
  best' = apply_policy k best sols /\
  forall a b, follows (sol_path best') a b ->
    cut_to lo hi (fadd (fmul (entry m a b) (fsub f1 rate)) (sol_fitness best')) (entry m' a b) /\ entry m' b a = entry m' a b.
Proof.
  intros k rate lo hi m sols best m' best' n Hn Hs Hb H. destruct (mmas_exact k rate lo hi m sols best m' best' n Hn Hs Hb H) as [E V]. split; [exact E|]. intros a b F. destruct (V a b F) as [V1 V2]. split; [|exact V2]. rewrite V1. apply fclamp_limited.
Qed.
Print Assumptions C38_best_tour_value.
(** The upper bound holds everywhere once it holds, for evaporation rates of [0, 1]. *)
Theorem C38_never_above_upper_bound :
  forall k rate lo hi m sols best m' best', flt lo hi = true -> nonneg_finite rate -> fle rate f1 = true ->
  (forall i j, in_matrix m i j -> nonneg_finite (entry m i j) /\ fle (entry m i j) hi = true) ->
  fle f0 lo = true -> mmas_update (apply_policy k) rate lo hi m sols best = Ok (m', best') ->
  forall i j, in_matrix m i j -> fle f0 (entry m' i j) = true /\ fle (entry m' i j) hi = true.
Proof. exact mmas_upper. Qed.
Print Assumptions C38_never_above_upper_bound.
(** The lower bound fails: edges off the best tour evaporate below it. *)
Theorem C38_lower_bound_refuted :
  exists rate lo hi m sols best m' best', mmas_new lo hi = Ok (lo, hi) /\ nonneg_finite rate /\ flt rate f1 = true /\
    (forall i j, in_matrix m i j -> nonneg_finite (entry m i j) /\ fle lo (entry m i j) = true /\ fle (entry m i j) hi = true) /\
    Forall (fun s => tour 4 (sol_path s) /\ nonneg_finite (sol_fitness s)) sols /\
    mmas_update overall_best rate lo hi m sols best = Ok (m', best') /\ in_matrix m 0 2 /\ flt (entry m' 0 2) lo = true.
Proof.
  exists fhalf, f1, (f_of_nat 2), (ones 4), [t0], sol_default. eexists _, _. split; [reflexivity|]. split; [repeat split; reflexivity|]. split; [reflexivity|].
  split. { intros i j _. repeat split; reflexivity. }
  split. { apply Forall_cons. split; [|constructor]. split; [unfold tour; reflexivity|repeat split; reflexivity]. }
  split; [vm_compute; reflexivity|]. split; [split; cbn; lia|reflexivity].
Qed.
Print Assumptions C38_lower_bound_refuted.
Example C38_nonvacuous :
  exists m' b, mmas_update overall_best fhalf f1 (f_of_nat 2) (ones 4) [t0] sol_default = Ok (m', b) /\
    neighbours (sol_path b) 0 1 /\ entry m' 0 1 = f1 /\ flt f1 (f_of_nat 2) = true.
Proof. eexists _, _. split; [vm_compute; reflexivity|]. split; [left; exists 0; split; reflexivity|split; reflexivity]. Qed.

(** ** C39 *)
(** [hist]: the solution lists of successive update_best calls; [best]: the solution stored before. *)
Theorem C39_overall_best_of_history :
  forall hist best, is_nan (sol_fitness best) = false ->
  let b := foldl overall_best best hist in
  (b = best \/ b ∈ concat hist) /\ fle (sol_fitness best) (sol_fitness b) = true /\
  (Forall (fun sols => Forall (fun s => is_nan (sol_fitness s) = false) sols) hist -> Forall (fun s => fle (sol_fitness s) (sol_fitness b) = true) (concat hist)).
Proof.
  intros hist best H b. destruct (overall_history hist best H) as (A & B & _). split; [exact A|]. split; [exact B|].
  intros HF. apply overall_history_max; [exact H|exact HF].
Qed.
Print Assumptions C39_overall_best_of_history.
(** In particular the stored fitness never decreases, whatever comes in (NaN included). *)
Theorem C39_overall_best_monotone :
  forall hist1 hist2, fle (sol_fitness (foldl overall_best sol_default hist1)) (sol_fitness (foldl overall_best sol_default (hist1 ++ hist2))) = true.
Proof.
  intros h1 h2. rewrite foldl_app. destruct (overall_history h1 sol_default eq_refl) as (_ & _ & N). exact (proj1 (proj2 (overall_history h2 _ N))).
Qed.
Print Assumptions C39_overall_best_monotone.
(** From the start: the default solution gives way to any solution of positive fitness. *)
Theorem C39_overall_best_from_the_start :
  forall hist, Forall (fun sols => Forall (fun s => is_nan (sol_fitness s) = false) sols) hist -> Exists (fun s => flt f0 (sol_fitness s) = true) (concat hist) ->
  foldl overall_best sol_default hist ∈ concat hist /\
  Forall (fun s => fle (sol_fitness s) (sol_fitness (foldl overall_best sol_default hist)) = true) (concat hist).
Proof.
  intros hist HN HE. destruct (C39_overall_best_of_history hist sol_default eq_refl) as (A & _ & B). specialize (B HN). split; [|exact B].
  destruct A as [A|A]; [|exact A]. exfalso. apply Exists_exists in HE as (s & Hs & P). pose proof (proj1 (Forall_forall _ _) B s Hs) as Q. cbv beta in Q. rewrite A in Q.
  change (sol_fitness sol_default) with f0 in Q. pose proof (flt_le_trans _ _ _ P Q) as X. rewrite flt_irrefl in X. discriminate X.
Qed.
Print Assumptions C39_overall_best_from_the_start.
Theorem C39_iteration_best :
  forall hist sols best, sols <> [] ->
  let b := foldl iteration_best best (hist ++ [sols]) in
  b ∈ sols /\ (Forall (fun s => is_nan (sol_fitness s) = false) sols -> Forall (fun s => fle (sol_fitness s) (sol_fitness b) = true) sols) /\
  foldl iteration_best best (hist ++ [sols] ++ [[]]) = b.
Proof.
  intros hist sols best Hne b. unfold b. rewrite !foldl_app. cbn [foldl]. destruct (find_best_ok sols Hne) as [x Hx].
  assert (E : forall y, iteration_best y sols = x) by (intros y; unfold iteration_best; rewrite Hx; reflexivity). rewrite !E.
  split; [apply find_best_in, Hx|]. split; [|reflexivity]. intros HF. eapply find_best_max; eauto.
Qed.
Print Assumptions C39_iteration_best.
(** With a NaN among the fitnesses the best can be missed: NaN in the middle of a list hides what came before. *)
Theorem C39_nan_hides_best :
  exists sols b, find_best_sol sols = Ok b /\ Exists (fun s => flt (sol_fitness b) (sol_fitness s) = true) sols.
Proof.
  exists [Sol [0] (f_of_nat 5); Sol [1] S754_nan; Sol [2] f1]. eexists. split; [vm_compute; reflexivity|]. apply Exists_cons_hd. reflexivity.
Qed.
Print Assumptions C39_nan_hides_best.
Example C39_nonvacuous : foldl overall_best sol_default [[t0]; [t1; t0]; []; [t0]] = t1 /\ foldl iteration_best sol_default [[t1]; [t0]; []] = t0.
Proof. split; reflexivity. Qed.

(** ** C41 *)
Theorem C41_grading :
  forall w sols sols', path_length_inverse w sols = Ok sols' ->
  map sol_path sols' = map sol_path sols /\
  Forall (fun s => sol_fitness s = fdiv f1 (float_sum (map (fun e => entry w e.1 e.2) (windows (sol_path s))))) sols'.
Proof. exact grading. Qed.
Print Assumptions C41_grading.
(** The edges summed up are those of the closed path. *)
Theorem C41_edges_of_closed_path :
  forall (p : list nat) i e, windows p !! i = Some e <-> p !! i = Some e.1 /\ p !! ((i + 1) mod length p) = Some e.2.
Proof.
  intros p i [x y]. rewrite windows_lookup. cbn [fst snd]. split; [intros (a & b & E & A & B); injection E as -> ->; auto|intros [A B]; eauto].
Qed.
Print Assumptions C41_edges_of_closed_path.
(** Whole-number weights up to a total of 2^53: the cost is the exact total, and does not depend on the starting place
    nor, for symmetric weights, on the direction. *)
Theorem C41_whole_weights :
  forall w (k : nat -> nat -> nat), (forall i j, in_matrix w i j -> entry w i j = f_of_nat (k i j)) -> nrows w = ncols w ->
  forall p q, Forall (fun v => v < nrows w) (p ++ q) ->
  let total := sum_list_with (fun e => k e.1 e.2) (windows (p ++ q)) in
  (Z.of_nat total <= 2 ^ 53)%Z ->
  path_cost w (p ++ q) = Ok (f_of_nat total) /\ path_cost w (q ++ p) = path_cost w (p ++ q) /\
  ((forall i j, k i j = k j i) -> path_cost w (reverse (p ++ q)) = path_cost w (p ++ q)).
Proof.
  intros w k Hk Hsq p q Hr total Ht.
  assert (HE : Forall (fun e => in_matrix w e.1 e.2) (windows (p ++ q))).
  { eapply Forall_impl; [apply windows_range, Hr|]. intros e [A B]. split; [exact A|]. rewrite <- Hsq. exact B. }
  split; [apply path_cost_exact; auto|]. split; [eapply cost_rotation; eauto|]. intros Hs. eapply cost_reversal; eauto.
Qed.
Print Assumptions C41_whole_weights.
(** In binary64 arithmetic the cost depends on the starting place in general. *)
Definition skew : matrix := Mat 3 3 (fun i j =>
  if decide (i + j = 1) then S754_finite false 4503599627370496 (-105) else if decide (i + j = 2) then f1 else S754_finite false 4503599627370496 (-105)).
Theorem C41_rotation_refuted :
  exists w p q c d, nrows w = 3 /\ ncols w = 3 /\ (forall i j, nonneg_finite (entry w i j)) /\ symmetric w /\ tour 3 (p ++ q) /\
    path_cost w (p ++ q) = Ok c /\ path_cost w (q ++ p) = Ok d /\ feq c d = false.
Proof.
  exists skew, [0; 1], [2]. eexists _, _. split; [reflexivity|]. split; [reflexivity|]. split.
  { intros i j. unfold skew. cbn [entry]. repeat (destruct (decide _)); repeat split; reflexivity. }
  split. { split; [reflexivity|]. intros i j _. unfold skew. cbn [entry]. rewrite (Nat.add_comm i j). reflexivity. }
  split; [unfold tour; reflexivity|]. split; [vm_compute; reflexivity|]. split; [vm_compute; reflexivity|]. vm_compute. reflexivity.
Qed.
Print Assumptions C41_rotation_refuted.
Example C41_nonvacuous :
  path_length_inverse (Mat 3 3 (fun i j => f_of_nat (i + j))) [Sol [0; 1; 2] f0] = Ok [Sol [0; 1; 2] (fdiv f1 (f_of_nat 6))].
Proof. vm_compute. reflexivity. Qed.

(** ** C51 *)
Lemma filter_sublist {A} (P : A -> Prop) `{!forall x, Decision (P x)} (l : list A) : sublist (filter P l) l.
Proof. induction l as [|x l IH]; [constructor|]. rewrite filter_cons. destruct (decide (P x)); [apply sublist_skip, IH|apply sublist_cons, IH]. Qed.
(** [us]: the sub-updates, acting on a common state; [ps]: the pheromones; finite non-negative fitnesses. *)
Theorem C51_groups :
  forall S (us : list (matrix -> list solution -> S -> outcome (matrix * S))) ps sols s ps' s',
  part_from_eval us ps sols s = Ok (ps', s') ->
  exists gs, length gs = length us /\ concat gs ≡ₚ sols /\ Forall (fun g => sublist g sols) gs /\ in_turn us ps gs s ps' s' /\
    (Forall (fun x => nonneg_finite (sol_fitness x)) sols -> (Z.of_nat (length ps) <= 2 ^ 53)%Z ->
      (forall i j gi gj a b, gs !! i = Some gi -> gs !! j = Some gj -> a ∈ gi -> b ∈ gj -> fle (sol_fitness a) (sol_fitness b) = true -> i <= j < length ps) /\
      (forall a, a ∈ sols -> (forall b, b ∈ sols -> fle (sol_fitness a) (sol_fitness b) = true) -> exists g, gs !! 0 = Some g /\ a ∈ g)).
Proof.
  intros S us ps sols s ps' s' H. pose proof H as H0. apply part_from_eval_spec in H as (lo & hi & gs & Hb & HL & HP & HG & HT). exists gs.
  assert (Hps : 0 < length ps).
  { unfold part_from_eval in H0. apply obind_Ok in H0 as ([? ?] & _ & H0). cbn zeta in H0. apply obind_Ok in H0 as ([] & X & _). destruct ps; [discriminate|cbn; lia]. }
  split; [exact HL|]. split; [exact HP|]. split.
  { apply Forall_forall. intros g Hg. apply elem_of_list_lookup in Hg as [i Hi]. rewrite (HG _ _ Hi). apply filter_sublist. }
  split; [exact HT|]. intros HF HZ.
  assert (IN : forall i g a, gs !! i = Some g -> a ∈ g -> a ∈ sols /\ group_index lo hi (length ps) a = i).
  { intros i g a Hi Ha. rewrite (HG _ _ Hi) in Ha. apply elem_of_list_filter in Ha. tauto. }
  split.
  - intros i j gi gj a b Hi Hj Ha Hb' Hle. destruct (IN _ _ _ Hi Ha) as [A1 <-]. destruct (IN _ _ _ Hj Hb') as [B1 <-]. eapply group_monotone; eauto.
  - intros a Ha Hmin. pose proof (group_worst sols lo hi (length ps) a Hb HF Hps HZ Ha Hmin) as HW.
    rewrite <- HP in Ha. apply elem_of_list_In, in_concat in Ha as (g & Hg & Ha). apply elem_of_list_In in Hg, Ha. apply elem_of_list_lookup in Hg as [i Hi].
    destruct (IN _ _ _ Hi Ha) as [_ E]. rewrite HW in E. subst i. eauto.
Qed.
Print Assumptions C51_groups.
(** The best solution goes to the last group, unless the fitnesses are so close that the group width is subnormal. *)
Theorem C51_best_in_last_group :
  forall S (us : list (matrix -> list solution -> S -> outcome (matrix * S))) ps sols s ps' s' lo hi a,
  part_from_eval us ps sols s = Ok (ps', s') -> Forall (fun x => nonneg_finite (sol_fitness x)) sols -> (Z.of_nat (length ps) <= 2 ^ 50)%Z ->
  a ∈ sols -> (forall b, b ∈ sols -> fle (sol_fitness b) (sol_fitness a) = true) ->
  find_bounds sols = Ok (lo, hi) -> (INR (length ps) * Flocq.Core.Raux.bpow Flocq.Core.Zaux.radix2 (-1022) <= f2r (fsub hi lo))%R ->
  exists gs g, in_turn us ps gs s ps' s' /\ gs !! (length ps - 1) = Some g /\ a ∈ g.
Proof.
  intros S us ps sols s ps' s' lo hi a H HF HZ Ha Hmax Hb Hw. pose proof H as H0. apply part_from_eval_spec in H as (lo' & hi' & gs & Hb' & HL & HP & HG & HT).
  rewrite Hb in Hb'. injection Hb' as <- <-.
  assert (Hps : 0 < length ps).
  { unfold part_from_eval in H0. apply obind_Ok in H0 as ([? ?] & _ & H0). cbn zeta in H0. apply obind_Ok in H0 as ([] & X & _). destruct ps; [discriminate|cbn; lia]. }
  pose proof (group_best sols lo hi (length ps) a Hb HF Hps HZ Ha Hmax Hw) as E. exists gs.
  rewrite <- HP in Ha. apply elem_of_list_In, in_concat in Ha as (g & Hg & Ha). apply elem_of_list_In in Hg, Ha. apply elem_of_list_lookup in Hg as [i Hi].
  exists g. split; [exact HT|]. pose proof Ha as Ha'. rewrite (HG _ _ Hi) in Ha'. apply elem_of_list_filter in Ha' as [E' _]. rewrite E in E'. subst i. auto.
Qed.
Print Assumptions C51_best_in_last_group.
Definition remember (m : matrix) (g : list solution) (s : list (list nat)) : outcome (matrix * list (list nat)) := Ok (m, s ++ [concat (map sol_path g)]).
Example C51_nonvacuous :
  part_from_eval [remember; remember; remember] [ones 2; ones 2; ones 2]
    [Sol [4] (f_of_nat 4); Sol [1] f1; Sol [7] (f_of_nat 7); Sol [2] (f_of_nat 2); Sol [3] (f_of_nat 3)] []
  = Ok ([ones 2; ones 2; ones 2], [[1; 2]; [4; 3]; [7]]).
Proof. vm_compute. reflexivity. Qed.

(** ** C62 *)
(** Local updates change exactly the last edges of the partial paths, in the direction of travel. *)
Theorem C62_local_updates :
  (forall rate m paths m', decay rate m paths = Ok m' -> nrows m' = nrows m /\ ncols m' = ncols m /\
     forall a b, after_steps (fun x => fmul x rate) a b paths (entry m a b) (entry m' a b)) /\
  (forall rate stable m paths m', decay_to rate stable m paths = Ok m' -> nrows m' = nrows m /\ ncols m' = ncols m /\
     forall a b, after_steps (fun x => fadd (fmul x rate) (fmul stable (fsub f1 rate))) a b paths (entry m a b) (entry m' a b)).
Proof. split; [exact decay_spec|exact decay_to_spec]. Qed.
Print Assumptions C62_local_updates.
Theorem C62_local_update_total :
  forall rate m paths, Forall (fun p => exists q s r, p = q ++ [s; r] /\ in_matrix m s r) paths -> exists m', decay rate m paths = Ok m'.
Proof. exact decay_ok. Qed.
Print Assumptions C62_local_update_total.
(** So a symmetric matrix does not stay symmetric. *)
Theorem C62_symmetry_refuted :
  exists rate m paths m', fle f0 rate = true /\ flt rate f1 = true /\ symmetric m /\ decay rate m paths = Ok m' /\ ~ symmetric m'.
Proof.
  exists fhalf, (ones 3), [[0; 1]]. eexists. split; [reflexivity|]. split; [reflexivity|]. split; [split; reflexivity|]. split; [vm_compute; reflexivity|].
  intros [_ H]. assert (E := H 0 1 ltac:(split; cbn; lia)). vm_compute in E. discriminate.
Qed.
Print Assumptions C62_symmetry_refuted.
Example C62_nonvacuous : exists m', decay fhalf (ones 3) [[2; 0; 1]; [0; 1]; [2]  ++ [1]] = Ok m' /\ entry m' 0 1 = fmul fhalf fhalf /\ entry m' 1 0 = f1 /\ entry m' 2 1 = fhalf.
Proof. eexists. split; [vm_compute; reflexivity|]. split_and!; reflexivity. Qed.

(** ** C63 *)
(** [powf] is the platform's power function. *)
Theorem C63_goodness_elementwise :
  forall powf alpha beta h p, nrows h = nrows p -> ncols h = nrows p -> ncols p = nrows p ->
  exists g, canonical_goodness powf alpha beta h p = Ok g /\ nrows g = nrows p /\ ncols g = nrows p /\
    forall i j, in_matrix p i j -> entry g i j = fmul (powf (entry p i j) alpha) (powf (entry h i j) beta).
Proof.
  intros powf alpha beta h p H1 H2 H3. destruct (goodness_ok powf alpha beta h p H1 H2 H3) as [g Hg]. exists g. split; [exact Hg|]. apply (goodness_spec powf alpha beta h p g H1 H2 H3 Hg).
Qed.
Print Assumptions C63_goodness_elementwise.
Theorem C63_small_heuristic_panics :
  forall powf alpha beta h p, nrows h * ncols h < nrows p * nrows p -> canonical_goodness powf alpha beta h p = Panic.
Proof. exact goodness_too_small. Qed.
Print Assumptions C63_small_heuristic_panics.
(** A heuristic with more rows is accepted, and then wrong elements are combined. *)
Theorem C63_oversized_heuristic_misread :
  exists h p g, nrows p = 2 /\ ncols p = 2 /\ nrows h = 3 /\ ncols h = 3 /\
    canonical_goodness (fun x _ => x) f1 f1 h p = Ok g /\ entry g 0 1 <> fmul (entry p 0 1) (entry h 0 1) /\ entry g 0 1 = fmul (entry p 0 1) (entry h 2 0).
Proof.
  exists (Mat 3 3 (fun i j => f_of_nat (1 + i + 3 * j))), (ones 2). eexists. do 4 (split; [reflexivity|]). split; [vm_compute; reflexivity|]. split; vm_compute; [discriminate|reflexivity].
Qed.
Print Assumptions C63_oversized_heuristic_misread.
Theorem C63_heuristic_from_weights :
  forall w, exists h, create_heuristic w = Ok h /\ nrows h = nrows w /\ ncols h = ncols w /\
  forall i j, in_matrix w i j -> entry h i j = if feq (entry w i j) f0 then f0 else fdiv f1 (entry w i j).
Proof. exact heuristic_spec. Qed.
Print Assumptions C63_heuristic_from_weights.
Theorem C63_cost_of_cities :
  forall cities, exists m, tsp_cost cities = Ok m /\ nrows m = length cities /\ ncols m = length cities /\ symmetric m /\
  forall i j a b, i <= j -> cities !! i = Some a -> cities !! j = Some b ->
    entry m i j = fsqrt (fadd (fmul (fsub a.1 b.1) (fsub a.1 b.1)) (fmul (fsub a.2 b.2) (fsub a.2 b.2))).
Proof. exact cost_spec. Qed.
Print Assumptions C63_cost_of_cities.
Example C63_nonvacuous :
  exists m, tsp_cost [(f0, f0); (f_of_nat 3, f_of_nat 4); (f0, f_of_nat 4)] = Ok m /\ entry m 0 1 = f_of_nat 5 /\ entry m 1 0 = f_of_nat 5 /\ entry m 2 1 = f_of_nat 3 /\ entry m 1 1 = f0.
Proof. eexists. split; [vm_compute; reflexivity|]. split_and!; reflexivity. Qed.
