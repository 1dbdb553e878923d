(** * Proofs about the COCO experiment *)
From Verif Require Export CocoSpec GaEvalProofs WeakRunProofs.
From Verif Require Import SelectionProofs SusProofs CrossoverProofs MutationProofs SelectionRProofs ReplacementProofs PopulationProofs.
From Coq Require Import Reals Lra.
Open Scope nat_scope.

(** ** Random search *)
Section Random.
Context (p : problem) (B : bbob_problem p).
Lemma coco_uniform_unit r u r' : coco_uniform r = (u, r') -> fle f0 u = true /\ flt u f1 = true.
Proof. unfold coco_uniform. intros [= <- _]. destruct (fle f0 (f_of_bits (r 0))) eqn:E1; [|auto]. destruct (flt (f_of_bits (r 0)) f1) eqn:E2; auto. Qed.
Lemma random_point_ok round : forall n i r, i + n <= p_dimension p ->
  exists x r', random_point round p n i r = Ok (x, r') /\ length x = n /\
    forall j v, x !! j = Some v -> exists c u, p_ranges p !! (i + j) = Some c /\ (exists q q', coco_uniform q = (u, q')) /\ v = fadd c.1 (fmul u (fsub c.2 c.1)).
Proof.
  induction n as [|n IH]; intros i r H; cbn [random_point]; [exists [], r; split_and!; auto; intros; discriminate|].
  assert (is_Some (p_ranges p !! i)) as [c Hc] by (apply lookup_lt_is_Some; rewrite (bp_ranges _ B); lia).
  unfold index at 1. rewrite Hc. cbn [unwrap mbind outcome_bind]. destruct (coco_uniform r) as [u r1] eqn:U.
  destruct (IH (i + 1) r1) as (xs & r' & -> & L & HF); [lia|]. cbn [mbind outcome_bind]. rewrite (bp_integers _ B).
  rewrite bool_decide_eq_false_2 by lia. eexists _, _. split; [reflexivity|]. split; [cbn; lia|].
  intros [|j] v Hv; cbn in Hv.
  - injection Hv as <-. exists c, u. rewrite Nat.add_0_r. split_and!; eauto.
  - destruct (HF j v Hv) as (c' & u' & Hc' & Hu' & Hv'). exists c', u'. replace (i + S j) with (i + 1 + j) by lia. auto.
Qed.
Lemma exact_scale (c : f64 * f64) u : exact_width c -> fvalid u -> fle f0 u = true -> flt u f1 = true ->
  let v := fadd c.1 (fmul u (fsub c.2 c.1)) in fle c.1 v = true /\ fle v c.2 = true.
Proof.
  intros [([Vl Fl] & [Vh Fh] & Hle & Fw) E] Vu H0 H1. destruct c as [lo hi]. cbn [fst snd] in *.
  apply fle_R in Hle; auto. destruct (unit_f2r u Vu H0 (flt_le _ _ H1)) as [Fu [U0 U1]].
  assert (Vw : fvalid (fsub hi lo)) by (apply fvalid_sub; auto).
  assert (Hm : (0 <= rnd (f2r u * f2r (fsub hi lo)) <= f2r (fsub hi lo))%R).
  { split; [rewrite <- rnd_0; apply rnd_le, Rmult_le_pos; lra|]. rewrite <- (rnd_id _ Vw) at 2. apply rnd_le.
    rewrite <- (Rmult_1_l (f2r (fsub hi lo))) at 2. apply Rmult_le_compat_r; lra. }
  destruct (fmul_R u (fsub hi lo) Vu Vw Fu Fw) as [Em Fm].
  { rewrite Rabs_pos_eq by lra. pose proof (f2r_bound _ Vw) as B2. rewrite Rabs_pos_eq in B2 by lra. lra. }
  assert (Vm : fvalid (fmul u (fsub hi lo))) by (apply fvalid_mul; auto).
  assert (Hb : (f2r lo <= rnd (f2r lo + f2r (fmul u (fsub hi lo))) <= f2r hi)%R).
  { rewrite Em. split; [rewrite <- (rnd_id lo Vl) at 1|rewrite <- (rnd_id hi Vh)]; apply rnd_le; lra. }
  destruct (fadd_R lo (fmul u (fsub hi lo)) Vl Vm Fl Fm) as [Ea Fa].
  { pose proof (f2r_bound _ Vl) as B1. pose proof (f2r_bound _ Vh) as B2. apply Rabs_def2 in B1, B2. apply Rabs_def1; lra. }
  assert (Va : fvalid (fadd lo (fmul u (fsub hi lo)))) by (apply fvalid_add; auto).
  split; apply fle_R; auto; rewrite Ea; lra.
Qed.
Lemma coco_uniform_valid r u r' : coco_uniform r = (u, r') -> fvalid u.
Proof. unfold coco_uniform. intros [= <- _]. destruct (_ && _); [apply fvalid_of_bits|reflexivity]. Qed.
Lemma random_point_in_ranges round r : Forall exact_width (p_ranges p) ->
  exists x r', random_point round p (p_dimension p) 0 r = Ok (x, r') /\ length x = p_dimension p /\ in_ranges (p_ranges p) x.
Proof.
  intros HX. destruct (random_point_ok round (p_dimension p) 0 r) as (x & r' & E & L & HF); [lia|]. exists x, r'. split; [exact E|]. split; [exact L|].
  apply Forall2_same_length_lookup_2; [rewrite (bp_ranges _ B); lia|]. intros i c v Hc Hv.
  destruct (HF i v Hv) as (c' & u & Hc' & (q & q' & Hu) & ->). cbn in Hc'. rewrite Hc in Hc'. injection Hc' as <-.
  destruct (coco_uniform_unit _ _ _ Hu). apply exact_scale; auto; [|eapply coco_uniform_valid, Hu]. rewrite Forall_forall in HX. apply HX. apply elem_of_list_lookup; eauto.
Qed.
Lemma evaluate_ok x y st : length x = p_dimension p -> y = 1 -> evaluate_function p x y st = Ok (p_objective p x, PState (x :: evaluated_points st) (constraint_calls st)).
Proof. intros H ->. unfold evaluate_function. rewrite (bp_objectives _ B), !bool_decide_eq_true_2 by auto. reflexivity. Qed.
Lemma random_loop_ok round : forall budget st r, exists new r', random_points_loop round p budget st r = Ok (PState (new ++ evaluated_points st) (constraint_calls st), r') /\
  length new = budget /\ Forall (fun x => length x = p_dimension p) new /\ (Forall exact_width (p_ranges p) -> Forall (in_ranges (p_ranges p)) new).
Proof.
  induction budget as [|n IH]; intros st r; cbn [random_points_loop]; [exists [], r; destruct st; split_and!; auto|].
  destruct (random_point_ok round (p_dimension p) 0 r) as (x & r1 & E & L & _); [lia|]. rewrite E. cbn [mbind outcome_bind]. rewrite (bp_constraints _ B).
  change (bool_decide (0 < 0)) with false. cbv iota. rewrite evaluate_ok by (auto; apply B). cbn [mbind outcome_bind].
  destruct (IH (PState (x :: evaluated_points st) (constraint_calls st)) r1) as (new & r' & -> & Ln & Fn & In). cbn [evaluated_points constraint_calls].
  exists (new ++ [x]), r'. rewrite <- app_assoc. split; [reflexivity|]. split; [rewrite app_length; cbn; lia|]. split; [apply Forall_app; auto|].
  intros HX. apply Forall_app. split; [auto|]. constructor; [|constructor]. destruct (random_point_in_ranges round r HX) as (x' & r2 & E' & _ & I). rewrite E in E'. injection E' as <- _. exact I.
Qed.
Lemma random_search_ok round budget st w : exists new w', random_search round p budget (st, w) = Ok (PState (new ++ p_initial p :: evaluated_points st) (constraint_calls st), w') /\
  length new = budget /\ Forall (fun x => length x = p_dimension p) new /\ (Forall exact_width (p_ranges p) -> Forall (in_ranges (p_ranges p)) new) /\ w_calls w' = w_calls w + 1.
Proof.
  unfold random_search. rewrite evaluate_ok by (auto; apply B). cbn [mbind outcome_bind].
  destruct (random_loop_ok round budget (PState (p_initial p :: evaluated_points st) (constraint_calls st)) (w_random w)) as (new & r' & -> & L & F & I).
  cbn [mbind outcome_bind evaluated_points constraint_calls]. exists new. eexists. split_and!; eauto.
Qed.
Lemma random_restarts round n w : 2 <= n -> exists new w', restarts (random_search round) n p (fresh_problem, w) = Ok (PState (new ++ [p_initial p]) 0, w') /\
  length new = 10 * p_dimension p /\ Forall (fun x => length x = p_dimension p) new /\ (Forall exact_width (p_ranges p) -> Forall (in_ranges (p_ranges p)) new) /\ w_calls w' = w_calls w + 1.
Proof.
  intros Hn. destruct n as [|[|n]]; [lia..|]. cbn [restarts fst fresh_problem evaluated_points length constraint_calls final_target_hit existsb orb].
  unfold budget_multiplier. pose proof (bp_dimension _ B) as Hd. rewrite bool_decide_eq_false_2 by lia. cbn [orb].
  replace (p_dimension p * 10 - (0 + 0)) with (10 * p_dimension p) by lia.
  destruct (random_search_ok round (10 * p_dimension p) fresh_problem w) as (new & w' & -> & L & F & I & C). cbn [mbind outcome_bind fst evaluated_points constraint_calls fresh_problem].
  rewrite app_length, L. cbn [length]. replace (p_dimension p * 10 - (10 * p_dimension p + 1 + 0)) with 0 by lia. rewrite bool_decide_eq_true_2 by reflexivity. rewrite orb_true_r.
  exists new, w'. split_and!; auto.
Qed.
Lemma random_problem round w : exists new w', one_problem (random_search round) p w = Ok (PState (new ++ [p_initial p]) 0, w') /\
  length new = 10 * p_dimension p /\ Forall (fun x => length x = p_dimension p) new /\ (Forall exact_width (p_ranges p) -> Forall (in_ranges (p_ranges p)) new) /\ w_calls w' = w_calls w + 1.
Proof.
  unfold one_problem. rewrite (bp_constraints _ B), (bp_objectives _ B), (bp_integers _ B). cbn [rassert mbind outcome_bind].
  rewrite !bool_decide_eq_true_2 by lia. cbn [rassert mbind outcome_bind]. apply random_restarts. unfold independent_restarts. lia.
Qed.
End Random.

(** ** The genetic search *)
Section Genetic.
Context (p : problem) (B : bbob_problem p) (debug : bool) (Q : f64 -> Prop).
Notation d := (p_dimension p).
Context (HQ : forall r n pop g', random_points_generate SharedRng (RandomPoints d (p_ranges p) r) n = Ok (pop, g') -> Forall (fun x => Forall Q (chromosome x)) pop).
Context (g : random_points) (Hg1 : rp_dim g = d) (Hg2 : rp_constraints g = p_ranges p).
Context (base : list (list f64)) (cc : nat).
Notation cfg := (coco_solver debug p g).
Definition good_point (x : list f64) : Prop := length x = d /\ Forall Q x.
Definition PQ (x : individual f64) : Prop := good_point (chromosome x).
Definition WQ (s : pstate * rng) : Prop := exists new, evaluated_points s.1 = new ++ base /\ Forall good_point new /\ constraint_calls s.1 = cc.
Definition DQ (x : individual f64) : Prop := is_nan (fitness x) = false.
Lemma gen_ok s : WQ s -> exists pop s', g_generate cfg 100 s = Ok (pop, s') /\ s'.1 = s.1 /\ Forall PQ pop /\ length pop = 100.
Proof.
  intros Ws. cbn [g_generate coco_solver]. rewrite Hg1, Hg2.
  destruct (random_points_all d (p_ranges p) s.2 SharedRng 100) as (_ & _ & H). destruct (H (RandomPoints d (p_ranges p) s.2)) as (pop & g' & E & L & _ & _ & F).
  { left. unfold random_points_with_constraints. pose proof (bp_dimension _ B). rewrite (bp_ranges _ B). rewrite !bool_decide_eq_true_2 by auto. reflexivity. }
  rewrite E. cbn [mbind outcome_bind]. eexists _, _. split; [reflexivity|]. split; [reflexivity|]. split; [|exact L].
  apply HQ in E. apply Forall_forall. intros x Hx. rewrite Forall_forall in E, F. split; [apply F, Hx|apply E, Hx].
Qed.
Lemma fit_ok s x : WQ s -> PQ x -> exists s', g_fitness cfg x s = Ok (p_objective p (chromosome x), x, s') /\ WQ s' /\ length (evaluated_points s'.1) = length (evaluated_points s.1) + 1.
Proof.
  intros (new & E & F & C) [L HF]. cbn [g_fitness coco_solver]. rewrite (evaluate_ok p B) by auto. cbn [mbind outcome_bind]. eexists. split; [reflexivity|]. split.
  - exists (chromosome x :: new). cbn. rewrite E. split; [reflexivity|]. split; [constructor; [split; assumption|exact F]|exact C].
  - cbn. lia.
Qed.
Lemma sel_ok m pop s : Forall DQ pop -> length pop = 100 -> exists sel s', g_select cfg m pop s = Ok (sel, s') /\ s'.1 = s.1 /\ length sel = 100 /\ Forall (fun i => i < 100) sel.
Proof.
  intros HD L. cbn [g_select coco_solver]. destruct (tournament_spec f_0_2 100 pop s.2) as (sel & grps & r' & E & Ls & F).
  - reflexivity.
  - split; reflexivity.
  - intros ->. discriminate.
  - rewrite L. lia.
  - exact HD.
  - rewrite E. cbn [mbind outcome_bind]. eexists _, _. split; [reflexivity|]. split; [reflexivity|]. split; [exact Ls|]. rewrite L in F.
    clear -F. induction F as [|grp i grps sel (_ & _ & Fi & Hi & _) F IH]; constructor; [|exact IH]. rewrite Forall_forall in Fi. auto.
Qed.
Lemma recomb_Forall {A} (R : A -> Prop) p1 p2 c1 c2 : length p1 = length p2 -> recombination p1 p2 c1 c2 -> Forall R p1 -> Forall R p2 -> Forall R c1 /\ Forall R c2.
Proof.
  intros Hl (L1 & L2 & HF) F1 F2. rewrite !Forall_lookup in *. split; intros i x Hx.
  all: assert (Hi : i < length p1) by (apply lookup_lt_Some in Hx; lia).
  all: destruct (lookup_lt_is_Some_2 p1 i Hi) as [a Ha]; destruct (lookup_lt_is_Some_2 p2 i ltac:(lia)) as [b Hb].
  all: destruct (HF i a b Ha Hb) as [[E1 E2]|[E1 E2]]; rewrite ?E1, ?E2 in Hx; injection Hx as <-; eauto.
Qed.
Lemma single_ok (a b : individual f64) r : PQ a -> PQ b -> exists c e r', lift_single (uniform SharedRng) a b r = Ok ((c, e), r') /\ PQ c /\ PQ e.
Proof.
  intros [La Fa] [Lb Fb]. unfold lift_single. destruct (uniform_recomb SharedRng (chromosome a) (chromosome b) r) as (c1 & c2 & r' & -> & R); [congruence|].
  cbn [mbind outcome_bind]. eexists _, _, _. split; [reflexivity|]. assert (Lab : length (chromosome a) = length (chromosome b)) by congruence. destruct (recomb_Forall Q _ _ _ _ Lab R Fa Fb) as [F1 F2]. destruct R as (L1 & L2 & _).
  split; (split; [cbn; congruence|cbn; assumption]).
Qed.
Lemma cross_ok m pool s : Forall PQ pool -> length pool = 100 -> exists ch s', g_crossover cfg m pool s = Ok (ch, s') /\ s'.1 = s.1 /\ Forall PQ ch /\ length ch = 100.
Proof.
  intros HP L. cbn [g_crossover coco_solver].
  destruct (crossover_apply_ok (lift_single (uniform SharedRng)) PQ pool s.2 HP) as (out & r' & E).
  - rewrite L. reflexivity.
  - intros a b r Ha Hb. destruct (single_ok a b r Ha Hb) as (c & e & r' & E & _). eauto.
  - rewrite E. cbn [mbind outcome_bind]. eexists _, _. split; [reflexivity|]. split; [reflexivity|]. split.
    + eapply (crossover_apply_post (lift_single (uniform SharedRng)) PQ PQ); [exact HP| |exact E]. intros a b r c e r1 Ha Hb E1. destruct (single_ok a b r Ha Hb) as (c' & e' & r'' & E2 & Hc & He). rewrite E2 in E1. injection E1 as <- <- <-. auto.
    + apply crossover_apply_pairs in E. destruct E as [E _]. congruence.
Qed.
Lemma mut_ok m c s : PQ c -> exists c' s', g_mutate cfg m c s = Ok (c', s') /\ s'.1 = s.1 /\ PQ c'.
Proof.
  intros [L F]. cbn [g_mutate coco_solver]. unfold mutate_individual. destruct (reversing_perm f_0_05 (chromosome c) s.2 s.2) as (ch' & r' & -> & HP). cbn [mbind outcome_bind].
  eexists _, _. split; [reflexivity|]. split; [reflexivity|]. split; cbn; [rewrite HP; exact L|]. rewrite HP. exact F.
Qed.
Lemma repl_ok m pop ch s : Forall PQ pop -> Forall DQ pop -> length pop = 100 -> Forall PQ ch -> length ch = 100 -> Forall DQ ch ->
  exists pop', g_replace cfg m pop ch s = Ok (pop', s) /\ Forall PQ pop' /\ length pop' = 100.
Proof.
  intros P1 D1 L1 P2 D2 L2. cbn [g_replace coco_solver]. destruct (weak_parent_spec debug pop ch) as (pop' & E & L & _); [intros ->; discriminate|lia|rewrite L1; reflexivity|assumption..|].
  rewrite E. cbn [mbind outcome_bind]. exists pop'. split; [reflexivity|]. split; [|lia].
  pose proof (weak_parent_members _ _ _ _ E) as Src. apply Forall_forall. intros x Hx. rewrite Forall_forall in Src, P1, P2. destruct (Src x Hx); auto.
Qed.
Lemma WQ_same s s' : s'.1 = s.1 -> WQ s -> WQ s'.
Proof. intros E (new & H). exists new. rewrite E. exact H. Qed.
Lemma coco_run_ok ck m0 s : WQ s -> exists evs b m s', g_run cfg ck m0 s = Ok (evs, b, m, s') /\ WQ s' /\
  length (evaluated_points s'.1) = length (evaluated_points s.1) + 100 + 300 * finished_iterations evs /\ 0 < finished_iterations evs <= N.to_nat 10000.
Proof.
  intros Ws. destruct (total_run cfg WQ PQ DQ 100) with (ck := ck) (m0 := m0) (s := s) as (evs & b & m & s' & E & W').
  - cbn. lia.
  - intros t Wt. destruct (gen_ok t Wt) as (pop & t' & E & E1 & F & L). exists pop, t'. split_and!; auto. eapply WQ_same; eassumption.
  - reflexivity.
  - intros t x Wt Px. destruct (fit_ok t x Wt Px) as (t' & E & W' & _). eexists _, _, _. split; [exact E|]. split; [exact W'|]. split; [exact Px|]. apply (bp_number _ B).
  - intros a b Ha Hb. cbn [g_cmp coco_solver]. unfold ind_cmp, key_cmp. unfold DQ in *. destruct (fcmp (fitness a) (fitness b)) eqn:E; [eauto|].
    apply fcmp_nan in E. destruct E; congruence.
  - intros m pop t Wt _ HD L. destruct (sel_ok m pop t HD L) as (sel & t' & E & E1 & L' & F). exists sel, t'. split_and!; auto. eapply WQ_same; eassumption.
  - intros m pool t Wt HP L. destruct (cross_ok m pool t HP L) as (ch & t' & E & E1 & F & L'). exists ch, t'. split_and!; auto. eapply WQ_same; eassumption.
  - intros m c t Wt Pc. destruct (mut_ok m c t Pc) as (c' & t' & E & E1 & F). exists c', t'. split_and!; auto. eapply WQ_same; eassumption.
  - intros m pop ch t Wt HP HD L HPc Lc HDc. destruct (repl_ok m pop ch t HP HD L HPc Lc (HDc eq_refl)) as (pop' & E & F & L'). exists pop', t. split_and!; auto.
  - exact Ws.
  - exists evs, b, m, s'. split; [exact E|]. split; [exact W'|].
    destruct (count_run cfg (fun n t => WQ t /\ length (evaluated_points t.1) = n) PQ 100) with (ck := ck) (m0 := m0) (s := s) (evs := evs) (b := b) (m := m) (s' := s') (n := length (evaluated_points s.1)) as ([_ Cn] & C1 & C2);
      [..|exact E|].
    + intros n t pop t' [Wt En] G. destruct (gen_ok t Wt) as (pop1 & t1 & G1 & E1 & F & L). change (g_population_size cfg) with 100 in G. rewrite G1 in G. injection G as <- <-. rewrite E1. split_and!; auto. eapply WQ_same; eassumption.
    + intros n t x v x' t' [Wt En] Px _ G. destruct (fit_ok t x Wt Px) as (t1 & G1 & W1 & L1). rewrite G1 in G. injection G as <- <- <-. split; [split; [exact W1|lia]|exact Px].
    + reflexivity.
    + intros n m' pop t sel t' [Wt En] _ G. cbn [g_select coco_solver] in G. apply obind_Ok in G as ([sel1 r1] & G1 & G). injection G as <- <-.
      split; [split; [exact Wt|exact En]|]. unfold tournament in G1. apply obind_Ok in G1 as ([] & _ & G1). eapply repeatO_post with (P := fun _ => True) in G1; [apply G1|auto].
    + intros n m' pool t ch t' [Wt En] HP L G. destruct (cross_ok m' pool t HP L) as (ch1 & t1 & G1 & E1 & F & L'). rewrite G1 in G. injection G as <- <-. rewrite E1. split_and!; auto. eapply WQ_same; eassumption.
    + intros n m' c t c' t' [Wt En] Pc G. destruct (mut_ok m' c t Pc) as (c1 & t1 & G1 & E1 & F). rewrite G1 in G. injection G as <- <-. rewrite E1. split_and!; auto. eapply WQ_same; eassumption.
    + intros n m' pop ch t pop' t' Jt HP HPc G. cbn [g_replace coco_solver] in G. apply obind_Ok in G as (q & G1 & G). injection G as <- <-. split; [exact Jt|].
      apply weak_parent_members in G1. apply Forall_forall. intros x Hx. rewrite Forall_forall in G1, HP, HPc. destruct (G1 x Hx); auto.
    + split; [exact Ws|reflexivity].
    + cbn in Cn. rewrite Cn. change (g_generation_limit cfg) with (N.to_nat 10000) in *. split; [lia|]. split; [apply C2; lia|exact C1].
Qed.
End Genetic.

(** ** Restarts and the experiment *)
Definition range_value (p : problem) (v : f64) : Prop := Forall proper_range (p_ranges p) -> exists c, c ∈ p_ranges p /\ fle c.1 v = true /\ fle v c.2 = true.
Lemma Forall2_values (p : problem) (cs : list (f64 * f64)) (xs : list f64) : (forall c, c ∈ cs -> c ∈ p_ranges p) ->
  Forall2 (fun c v => fle c.1 v = true /\ fle v c.2 = true) cs xs -> Forall (fun v => exists c, c ∈ p_ranges p /\ fle c.1 v = true /\ fle v c.2 = true) xs.
Proof.
  intros Hs H. induction H as [|c v cs xs [H1 H2] H IH]; constructor.
  - exists c. split; [apply Hs; left|auto].
  - apply IH. intros c' Hc'. apply Hs. right. exact Hc'.
Qed.
Lemma generated_values p r n pop g' : random_points_generate SharedRng (RandomPoints (p_dimension p) (p_ranges p) r) n = Ok (pop, g') ->
  Forall (fun x => Forall (range_value p) (chromosome x)) pop.
Proof.
  intros H. apply Forall_forall. intros x Hx. apply Forall_forall. intros v Hv HR. pose proof (random_points_within _ _ _ _ _ H HR) as F. cbn in F.
  rewrite Forall_forall in F. pose proof (Forall2_values p _ _ (fun c h => h) (F x Hx)) as G. rewrite Forall_forall in G. apply G, Hv.
Qed.
Section Experiment.
Context (p : problem) (B : bbob_problem p) (debug : bool).
Notation good := (good_point p (range_value p)).
Lemma ga_search_ok budget st w : exists new k w', ecrs_ga_search debug p budget (st, w) = Ok (PState (new ++ evaluated_points st) (constraint_calls st), w') /\
  length new = 100 + 300 * k /\ 0 < k <= N.to_nat 10000 /\ Forall good new /\ w_calls w' = w_calls w + 1.
Proof.
  unfold ecrs_ga_search, random_points_with_constraints. pose proof (bp_dimension _ B) as Hd. rewrite (bp_ranges _ B). rewrite !bool_decide_eq_true_2 by auto. cbn [rassert mbind outcome_bind].
  destruct (coco_run_ok p B debug (range_value p) (generated_values p) (RandomPoints (p_dimension p) (p_ranges p) (w_thread w)) eq_refl eq_refl
    (evaluated_points st) (constraint_calls st) (w_clocks w (w_calls w)) (Metrics 0 100 None) (st, w_thread w)) as (evs & b & m & [st' r'] & -> & (new & E & F & C) & L & K).
  { exists []. split_and!; auto. }
  cbn [mbind outcome_bind]. cbn [fst] in E, L, C. exists new, (finished_iterations evs). eexists. split; [destruct st' as [ep cl]; cbn in E, C; subst; reflexivity|].
  split_and!; auto; try apply K. rewrite E, app_length in L. clear -L. lia.
Qed.
Definition cost (k : nat) : nat := 100 + 300 * k.
Lemma ga_restarts n : forall st w, constraint_calls st = 0 -> exists ks new w', restarts (ecrs_ga_search debug) n p (st, w) = Ok (PState (new ++ evaluated_points st) 0, w') /\
  w_calls w' = w_calls w + length ks /\ length new = list_sum (map cost ks) /\ Forall (fun k => 0 < k <= N.to_nat 10000) ks /\ Forall good new /\
  (ks <> [] -> evaluations st + 400 * (length ks - 1) < 10 * p_dimension p) /\
  (length ks <= n) /\ (length ks < n -> final_target_hit p (PState (new ++ evaluated_points st) 0) = true \/ 10 * p_dimension p <= evaluations st + length new) /\
  (0 < n -> evaluated_points st = [] -> ks <> []).
Proof.
  induction n as [|n IH]; intros st w HC; cbn [restarts].
  { exists [], [], w. destruct st as [ep cl]; cbn in HC; subst. cbn. split_and!; auto; intros; [congruence|lia|lia]. }
  cbn [fst]. rewrite HC. unfold budget_multiplier. destruct (final_target_hit p st) eqn:FT; cbn [orb].
  { exists [], [], w. destruct st as [ep cl]; cbn in HC; subst. cbn [app length map list_sum evaluated_points]. split_and!; auto; intros; try congruence; try lia. cbn in H0. subst. discriminate. }
  case_bool_decide as D.
  { exists [], [], w. destruct st as [ep cl]; cbn in HC, D; subst. cbn [app length map list_sum evaluated_points]. unfold evaluations. cbn [evaluated_points length]. split_and!; auto; intros; try congruence; try lia. subst.
    pose proof (bp_dimension _ B). cbn [length] in D. lia. }
  destruct (ga_search_ok (p_dimension p * 10 - (length (evaluated_points st) + 0)) st w) as (new & k & w1 & -> & L & K & F & W1). cbn [mbind outcome_bind].
  destruct (IH (PState (new ++ evaluated_points st) (constraint_calls st)) w1 HC) as (ks & new' & w' & -> & W' & L' & Fk & F' & H1 & H2 & H3 & _). cbn [evaluated_points] in *.
  exists (k :: ks), (new' ++ new), w'. rewrite <- app_assoc. split; [reflexivity|].
  assert (Es : list_sum (map cost (k :: ks)) = cost k + list_sum (map cost ks)) by reflexivity. rewrite Es. clear Es. unfold cost at 1.
  unfold evaluations in *. cbn [evaluated_points length] in *. rewrite !app_length in *. clear IH HC FT.
  split; [lia|]. split; [lia|]. split; [apply Forall_cons; auto|]. split; [apply Forall_app; auto|]. split.
  { intros _. destruct ks as [|k' ks']; [cbn [length]; lia|]. specialize (H1 ltac:(discriminate)). cbn [length] in *. lia. }
  split; [lia|]. split; [|discriminate]. intros Hl. destruct H3 as [H3|H3]; [lia|left; exact H3|right; lia].
Qed.
Lemma ga_problem w : exists ks new w', one_problem (ecrs_ga_search debug) p w = Ok (PState new 0, w') /\
  w_calls w' = w_calls w + length ks /\ ks <> [] /\ length new = list_sum (map cost ks) /\ Forall (fun k => 0 < k <= N.to_nat 10000) ks /\ Forall good new /\
  400 * (length ks - 1) < 10 * p_dimension p /\
  (final_target_hit p (PState new 0) = true \/ 10 * p_dimension p <= length new \/ length ks = N.to_nat 100000).
Proof.
  unfold one_problem. rewrite (bp_constraints _ B), (bp_objectives _ B), (bp_integers _ B). cbn [rassert mbind outcome_bind].
  rewrite !bool_decide_eq_true_2 by lia. cbn [rassert mbind outcome_bind].
  destruct (ga_restarts independent_restarts fresh_problem w eq_refl) as (ks & new & w' & E & W & L & Fk & F & H1 & H2 & H3 & H4). unfold independent_restarts in *.
  unfold evaluations in *. cbn [fresh_problem evaluated_points length] in *. rewrite app_nil_r in *. exists ks, new, w'.
  assert (Hk : ks <> []) by (apply H4; first [reflexivity|lia]). split_and!; auto.
  destruct (decide (length ks < N.to_nat 100000)) as [Hl|Hl]; [destruct (H3 Hl); auto|right; right; lia].
Qed.
End Experiment.
Lemma experiment_ok (search : search_fn) (R : problem -> pstate -> Prop) :
  (forall p w, bbob_problem p -> exists st w', one_problem search p w = Ok (st, w') /\ R p st) ->
  forall suite w, Forall bbob_problem suite -> exists sts w', run_experiment search suite w = Ok (sts, w') /\ Forall2 R suite sts.
Proof.
  intros H. induction suite as [|p ps IH]; intros w HB; cbn [run_experiment]; [exists [], w; auto|]. apply Forall_cons in HB as [Hp HB].
  destruct (H p w Hp) as (st & w1 & -> & Hst). cbn [mbind outcome_bind]. destruct (IH w1 HB) as (sts & w' & -> & F). cbn [mbind outcome_bind]. eauto.
Qed.
Lemma experiment_panics (search : search_fn) q :
  (forall p w, bbob_problem p -> exists st w', one_problem search p w = Ok (st, w')) ->
  0 < p_constraints q \/ 1 < p_objectives q \/ 0 < p_integers q ->
  forall suite rest w, Forall bbob_problem suite -> run_experiment search (suite ++ q :: rest) w = Panic.
Proof.
  intros H Hq. induction suite as [|p ps IH]; intros rest w HB; cbn [run_experiment app].
  - unfold one_problem. destruct Hq as [Hq|[Hq|Hq]].
    + rewrite (bool_decide_eq_false_2 (p_constraints q = 0)) by lia. reflexivity.
    + destruct (bool_decide (p_constraints q = 0)); [|reflexivity]. cbn [rassert mbind outcome_bind]. rewrite (bool_decide_eq_false_2 (p_objectives q <= 1)) by lia. reflexivity.
    + destruct (bool_decide (p_constraints q = 0)); [|reflexivity]. cbn [rassert mbind outcome_bind]. destruct (bool_decide (p_objectives q <= 1)); [|reflexivity]. cbn [rassert mbind outcome_bind].
      rewrite (bool_decide_eq_false_2 (p_integers q = 0)) by lia. reflexivity.
  - apply Forall_cons in HB as [Hp HB]. destruct (H p w Hp) as (st & w1 & ->). cbn [mbind outcome_bind]. rewrite IH by exact HB. reflexivity.
Qed.
(** All ranges alike: every coordinate in its own range. *)
Lemma alike_in_ranges (p : problem) c x : Forall (eq c) (p_ranges p) -> proper_range c -> length (p_ranges p) = p_dimension p -> good_point p (range_value p) x -> in_ranges (p_ranges p) x.
Proof.
  intros Hc Pc HL [L F]. assert (HP : Forall proper_range (p_ranges p)) by (eapply Forall_impl; [exact Hc|intros ? <-; exact Pc]).
  apply Forall2_same_length_lookup_2; [lia|]. intros i c' v Hi Hv. rewrite Forall_lookup in F. rewrite (Forall_lookup (eq c)) in Hc. destruct (F i v Hv HP) as (c2 & H2 & H3).
  apply elem_of_list_lookup in H2 as [j Hj]. rewrite <- (Hc i c' Hi). rewrite <- (Hc j c2 Hj) in H3. exact H3.
Qed.
Lemma random_experiment round suite w : Forall bbob_problem suite ->
  exists states w', run_experiment (random_search round) suite w = Ok (states, w') /\
  w_calls w' = w_calls w + length suite /\
  Forall2 (fun p st => constraint_calls st = 0 /\ evaluations st = 10 * p_dimension p + 1 /\
    exists points, evaluated_points st = points ++ [p_initial p] /\ Forall (fun x => length x = p_dimension p) points /\
      (Forall exact_width (p_ranges p) -> Forall (in_ranges (p_ranges p)) points)) suite states.
Proof.
  revert w. induction suite as [|p ps IH]; intros w HB; cbn [run_experiment]; [exists [], w; split_and!; auto|]. apply Forall_cons in HB as [Hp HB].
  destruct (random_problem p Hp round w) as (new & w1 & -> & L & F & I & W1). cbn [mbind outcome_bind]. destruct (IH w1 HB) as (sts & w' & -> & W & G). cbn [mbind outcome_bind].
  eexists _, _. split; [reflexivity|]. split; [cbn [length]; lia|]. constructor; [|exact G]. unfold evaluations. cbn [evaluated_points constraint_calls]. rewrite app_length. cbn [length].
  split_and!; eauto.
Qed.
Lemma ga_searched debug p w : bbob_problem p -> exists st w' ks, one_problem (ecrs_ga_search debug) p w = Ok (st, w') /\ w_calls w' = w_calls w + length ks /\ searched p st ks.
Proof.
  intros B. destruct (ga_problem p B debug w) as (ks & new & w' & E & W & Hk & L & Fk & F & H1 & H2). exists (PState new 0), w', ks. split; [exact E|]. split; [exact W|].
  split_and!; auto; cbn [evaluated_points].
  - destruct H2 as [H2|[H2|H2]]; [left|auto..]. unfold final_target_hit in H2. apply existsb_exists in H2 as (x & Hx & H2). exists x. split; [apply elem_of_list_In, Hx|exact H2].
  - eapply Forall_impl; [exact F|]. intros x [Hx _]. exact Hx.
  - intros HP. eapply Forall_impl; [exact F|]. intros x [_ Hx]. eapply Forall_impl; [exact Hx|]. intros v Hv. apply Hv, HP.
Qed.
Lemma ga_experiment debug suite w : Forall bbob_problem suite ->
  exists states w', run_experiment (ecrs_ga_search debug) suite w = Ok (states, w') /\ Forall2 (fun p st => exists ks, searched p st ks) suite states.
Proof. apply experiment_ok. intros p w0 B. destruct (ga_searched debug p w0 B) as (st & w' & ks & E & _ & H). eauto. Qed.
Lemma searched_one p st ks : searched p st ks -> p_dimension p <= 40 -> exists k, ks = [k] /\ evaluations st = 100 + 300 * k /\ 400 <= evaluations st /\ k <= N.to_nat 10000.
Proof.
  intros (_ & Hk & Fk & E & H & _) Hd. destruct ks as [|k [|k2 ks]]; [congruence| |cbn [length] in H; lia]. exists k. apply Forall_cons in Fk as [Hk1 _].
  assert (E2 : evaluations st = 100 + 300 * k) by (rewrite E; cbn [map list_sum foldr]; lia). split; [reflexivity|]. split; [exact E2|]. split; lia.
Qed.
Lemma searched_over p st ks : searched p st ks -> 400 <= evaluations st.
Proof.
  intros (_ & Hk & Fk & E & _). destruct ks as [|k ks]; [congruence|]. apply Forall_cons in Fk as [Hk1 _]. rewrite E. change (list_sum (map (fun k0 => 100 + 300 * k0) (k :: ks))) with (100 + 300 * k + list_sum (map (fun k0 => 100 + 300 * k0) ks)). lia.
Qed.
Lemma searched_alike p st ks c : searched p st ks -> bbob_problem p -> Forall (eq c) (p_ranges p) -> proper_range c -> Forall (in_ranges (p_ranges p)) (evaluated_points st).
Proof.
  intros (_ & _ & _ & _ & _ & _ & HL & HV) B Hc Pc. assert (HP : Forall proper_range (p_ranges p)) by (eapply Forall_impl; [exact Hc|intros ? <-; exact Pc]).
  specialize (HV HP). apply Forall_forall. intros x Hx. rewrite Forall_forall in HL, HV. eapply alike_in_ranges; [exact Hc|exact Pc|apply B|]. split; [auto|].
  eapply Forall_impl; [exact (HV x Hx)|]. intros v Hv _. exact Hv.
Qed.
Lemma main_ok debug round suite w : Forall bbob_problem suite -> exists a b w', coco_main debug round suite w = Ok (a, b, w') /\
  Forall2 (fun p st => 400 <= evaluations st) suite a /\ Forall2 (fun p st => evaluations st = 10 * p_dimension p + 1) suite b.
Proof.
  intros HB. unfold coco_main. destruct (ga_experiment debug suite w HB) as (a & w1 & -> & Ha). cbn [mbind outcome_bind].
  destruct (random_experiment round suite w1 HB) as (b & w2 & -> & _ & Hb). cbn [mbind outcome_bind]. exists a, b, w2. split; [reflexivity|]. split.
  - eapply Forall2_impl; [exact Ha|]. intros p st [ks H]. eapply searched_over, H.
  - eapply Forall2_impl; [exact Hb|]. intros p st (_ & H & _). exact H.
Qed.
Lemma unsupported_panics (search : search_fn) round debug q suite rest w :
  search = random_search round \/ search = ecrs_ga_search debug ->
  0 < p_constraints q \/ 1 < p_objectives q \/ 0 < p_integers q ->
  Forall bbob_problem suite -> run_experiment search (suite ++ q :: rest) w = Panic.
Proof.
  intros Hs Hq. apply experiment_panics; [|exact Hq]. intros p w0 B. destruct Hs as [-> | ->].
  - destruct (random_problem p B round w0) as (new & w' & E & _). eauto.
  - destruct (ga_searched debug p w0 B) as (st & w' & ks & E & _). eauto.
Qed.
Lemma ga_one_run debug p w : bbob_problem p -> p_dimension p <= 40 ->
  exists st w' k, one_problem (ecrs_ga_search debug) p w = Ok (st, w') /\ w_calls w' = w_calls w + 1 /\
  evaluations st = 100 + 300 * k /\ 400 <= evaluations st /\ k <= N.to_nat 10000.
Proof.
  intros B Hd. destruct (ga_searched debug p w B) as (st & w' & ks & E & W & H). destruct (searched_one _ _ _ H Hd) as (k & -> & E1 & E2). exists st, w', k. auto.
Qed.
Lemma ga_in_region debug p w c st w' : bbob_problem p -> Forall (eq c) (p_ranges p) -> proper_range c ->
  one_problem (ecrs_ga_search debug) p w = Ok (st, w') -> Forall (in_ranges (p_ranges p)) (evaluated_points st).
Proof.
  intros B Hc Pc E. destruct (ga_searched debug p w B) as (st1 & w1 & ks & E1 & _ & H). rewrite E in E1. injection E1 as <- <-. eapply searched_alike; eassumption.
Qed.
