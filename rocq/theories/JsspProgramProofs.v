(** * The job shop program as a whole *)
From Verif Require Export JsspMainProofs JsspShareProofs.
Open Scope nat_scope.

Lemma main_delay_ok : delay_ok main_delay. Proof. repeat split; vm_compute; reflexivity. Qed.
Definition offspring (o : operators) (pop : list jind) (r : rng) : outcome (list jind * rng) :=
  '(chosen, r) ← ops_select o pop r;
  pool ← omapM (index pop) chosen;
  '(children, r) ← ops_cross o pool r;
  ops_replace o pop children r.
Section Run.
Context (nm : nat) (jobs : shop) (V : valid_shop nm jobs) (Std : standard_shop jobs) (p : provider) (Lp : load nm jobs = Ok p).
Notation reach := (reachable jobs p main_delay).
Notation rated := (rated jobs main_delay p).
Notation evaluated := (evaluated jobs main_delay p).
Lemma tasks_pos : 0 < n_tasks jobs.
Proof. destruct V as (H1 & H2 & _). destruct jobs as [|job js]; [congruence|]. unfold n_tasks. cbn. specialize (H2 job ltac:(left)). destruct job; [congruence|]. cbn. lia. Qed.
Lemma rated_settled x : rated x -> settled jobs p x.
Proof.
  intros R. split; [apply (reach_genes nm jobs V main_delay main_delay_ok Std p Lp), R|]. destruct (rated_evaluated nm jobs V main_delay main_delay_ok Std p Lp x R) as (y & Ry & Ey).
  pose proof (reevaluation nm jobs V main_delay main_delay_ok p y x (j_fitness x) Std Lp Ry Ey) as (k & Ex). destruct (reachable_same nm jobs V main_delay main_delay_ok p x Std Lp (proj1 R)) as (k' & H). exists (k + k'). intros fuel Hf. rewrite <- H by lia. apply Ex. lia.
Qed.
Lemma rated_distance pop : pop <> [] -> Forall rated pop -> avg_distance pop = Ok (mean_distance pop).
Proof.
  intros Ne F. apply avg_distance_eq; [exact Ne|]. eapply Forall_impl; [exact F|]. intros x R. destruct (rated_settled x R) as [[L _] _]. cbv beta. rewrite L. apply Nat.mul_pos_pos; [apply Nat.lt_0_succ|exact tasks_pos].
Qed.
Context (o : operators) (size : nat) (next : list jind -> list jind -> Prop) (Hsize : 0 < size).
Lemma size_ne (pop : list jind) : length pop = size -> pop <> []. Proof. intros L ->. cbn in L. lia. Qed.

Context (Step : forall pop r, length pop = size -> Forall rated pop -> exists pop2 r', offspring o pop r = Ok (pop2, r') /\ length pop2 = size /\ Forall reach pop2 /\ forall pop3, Forall2 evaluated pop2 pop3 -> next pop pop3).
Lemma generation_log pops pop best r log : length pop = size -> Forall rated pop -> pops <> [] -> Forall (fun pop => pop <> []) pops -> logged pops log best ->
  exists k pop' best' r' log', (forall fuel, k <= fuel -> main_generation jssp_probe o fuel main_delay size (length pops) pop best r log = Ok (pop', best', r', log')) /\
  length pop' = size /\ Forall rated pop' /\ next pop pop' /\ logged (pops ++ [pop']) log' best' /\ (best' = best \/ best' ∈ pop').
Proof.
  intros L F Np Nps Lg. destruct (eval_pop_spec nm jobs V main_delay main_delay_ok Std p Lp pop (rated_reach jobs main_delay p pop F)) as (k1 & pop1 & E1 & F1). apply (evaluated_same _ _ _ _ _ F) in F1 as ->.
  destruct (Step pop r L F) as (pop2 & r' & Eo & L2 & R2 & Hn). destruct (eval_pop_spec nm jobs V main_delay main_delay_ok Std p Lp pop2 R2) as (k2 & pop3 & E2 & F2). destruct (evaluated_rated _ _ _ _ _ F2) as [L3 R3].
  assert (Ne3 : pop3 <> []) by (apply size_ne; congruence). pose proof (rated_distance pop3 Ne3 R3) as Ed. assert (Eb : exists b, jssp_best pop3 = Ok b /\ first_best pop3 b) by (destruct pop3 as [|x l]; [congruence|]; exists (best_from x l); split; [reflexivity|apply best_from_first]). destruct Eb as (b & Eb & Fb).
  pose proof (logged_step pops log best pop3 b Np Nps Lg Fb) as Lg'. exists (k1 + k2), pop3, (if (j_fitness b <? j_fitness best)%N then b else best), r'. eexists. split; [|split; [congruence|split; [exact R3|split; [exact (Hn pop3 F2)|split; [exact Lg'|]]]]].
  - intros fuel Hf. unfold main_generation. cbn [jssp_probe mbind outcome_bind]. rewrite (E1 fuel) by lia. cbn [mbind outcome_bind]. unfold offspring in Eo.
    destruct (ops_select o pop r) as [[chosen r1]| |]; [|discriminate|discriminate]. cbn [mbind outcome_bind] in *. destruct (omapM (index pop) chosen) as [pool| |]; [|discriminate|discriminate]. cbn [mbind outcome_bind] in *.
    destruct (ops_cross o pool r1) as [[kids r2]| |]; [|discriminate|discriminate]. cbn [mbind outcome_bind] in *. rewrite Eo. cbn [mbind outcome_bind]. rewrite bool_decide_eq_true_2 by exact L2. cbn [rassert mbind outcome_bind].
    rewrite (E2 fuel) by lia. cbn [mbind outcome_bind]. rewrite Ed. cbn [mbind outcome_bind]. rewrite Eb. cbn [mbind outcome_bind log_population log_newbest log_bestingen log_output].
    destruct (j_fitness b <? j_fitness best)%N; cbn [jssp_probe mbind outcome_bind log_population log_newbest log_bestingen log_output]; [reflexivity|]. rewrite app_nil_r. reflexivity.
  - destruct (_ <? _)%N; [right; exact (first_best_in _ _ Fb)|left; reflexivity].
Qed.
Definition consecutive (pops : list (list jind)) : Prop := forall g pop pop', pops !! g = Some pop -> pops !! S g = Some pop' -> next pop pop'.
Lemma consecutive_snoc pops pop pop' : consecutive (pops ++ [pop]) -> next pop pop' -> consecutive ((pops ++ [pop]) ++ [pop']).
Proof.
  intros C N g a b Ha Hb. pose proof (lookup_lt_Some _ _ _ Hb) as Hl. rewrite !app_length in Hl. cbn in Hl. rewrite lookup_app_l in Ha by (rewrite app_length; cbn; lia).
  destruct (decide (S g < length (pops ++ [pop]))) as [H|H]; [rewrite lookup_app_l in Hb by exact H; exact (C g a b Ha Hb)|].
  rewrite app_length in H. cbn in H. assert (g = length pops) as -> by lia. rewrite lookup_app_r in Ha by lia. rewrite Nat.sub_diag in Ha. injection Ha as <-. rewrite lookup_app_r in Hb by (rewrite app_length; cbn; lia). rewrite app_length in Hb. cbn in Hb. replace (S (length pops) - (length pops + 1)) with 0 in Hb by lia. injection Hb as <-. exact N.
Qed.
Context (expired : nat -> bool).
Definition good_pop (pop : list jind) : Prop := length pop = size /\ Forall rated pop.
Lemma generations_log : forall gens pops pop best r log, Forall good_pop (pops ++ [pop]) -> logged (pops ++ [pop]) log best -> consecutive (pops ++ [pop]) ->
  exists k added pop' best' log', (forall fuel, k <= fuel -> main_generations jssp_probe o fuel main_delay size expired gens (length pops) pop best r log = Ok (length pops + length added, pop', best', log')) /\
  Forall good_pop ((pops ++ [pop]) ++ added) /\ logged ((pops ++ [pop]) ++ added) log' best' /\ consecutive ((pops ++ [pop]) ++ added) /\
  length added <= gens /\ (0 < gens -> 0 < length added) /\ (forall g, 0 < g < length added -> expired (length pops + g) = false) /\ (length added = gens \/ expired (length pops + length added) = true).
Proof.
  induction gens as [|gens IH]; intros pops pop best r log G Lg C.
  - exists 0, [], pop, best, log. rewrite app_nil_r. cbn [length]. rewrite Nat.add_0_r. split; [reflexivity|]. split; [exact G|]. split; [exact Lg|]. split; [exact C|]. split; [lia|]. split; [lia|]. split; [intros g Hg; lia|left; reflexivity].
  - pose proof G as G'. apply Forall_app in G' as [_ G']. apply Forall_cons in G' as [[L F] _].
    assert (Ne : Forall (fun pop : list jind => pop <> []) (pops ++ [pop])) by (eapply Forall_impl; [exact G|]; intros q [Lq _]; exact (size_ne q Lq)).
    destruct (generation_log (pops ++ [pop]) pop best r log L F ltac:(destruct pops; discriminate) Ne Lg) as (k1 & pop1 & best1 & r1 & log1 & E1 & L1 & F1 & N1 & Lg1 & _).
    assert (G1 : Forall good_pop ((pops ++ [pop]) ++ [pop1])) by (apply Forall_app; split; [exact G|constructor; [split; assumption|constructor]]).
    pose proof (consecutive_snoc pops pop pop1 C N1) as C1. assert (Hlen : length (pops ++ [pop]) = S (length pops)) by (rewrite app_length; cbn; lia). rewrite Hlen in E1. destruct (expired (S (length pops))) eqn:Ex.
    + exists k1, [pop1], pop1, best1, log1. cbn [length]. split; [|split; [exact G1|split; [exact Lg1|split; [exact C1|split; [lia|split; [lia|split; [intros g Hg; lia|right; rewrite Nat.add_1_r; exact Ex]]]]]]].
      intros fuel Hf. cbn [main_generations]. rewrite (E1 fuel Hf). cbn [mbind outcome_bind]. rewrite Ex, Nat.add_1_r. reflexivity.
    + destruct (IH (pops ++ [pop]) pop1 best1 r1 log1 G1 Lg1 C1) as (k2 & added & pop2 & best2 & log2 & E2 & G2 & Lg2 & C2 & Hle & Hpos & Hex & Hend). rewrite Hlen in E2, Hex, Hend.
      exists (k1 + k2), (pop1 :: added), pop2, best2, log2. change (pop1 :: added) with ([pop1] ++ added). rewrite (app_assoc (pops ++ [pop])). split; [|split; [exact G2|split; [exact Lg2|split; [exact C2|cbn [app length]; split; [lia|split; [lia|split]]]]]].
      * intros fuel Hf. cbn [main_generations]. rewrite (E1 fuel) by lia. cbn [mbind outcome_bind]. rewrite Ex. rewrite (E2 fuel) by lia. do 4 f_equal. cbn. lia.
      * intros g Hg. destruct (decide (g = 1)) as [->|Hg1]; [rewrite Nat.add_1_r; exact Ex|]. replace (length pops + g) with (S (length pops) + (g - 1)) by lia. apply Hex. lia.
      * destruct Hend as [Hend|Hend]; [left; lia|right; rewrite <- Hend; f_equal; lia].
Qed.
Lemma settled_string x : settled jobs p x -> exists s, solution_string (j_ops x) = Ok s /\ solution_of jobs x s.
Proof. intros [G E]. destruct (fresh_string nm jobs V main_delay main_delay_ok Std p Lp _ x _ G E) as (s & start & order & Es & Rs & _ & _ & Ps & Ss). exists s. split; [exact Es|]. exists start. auto. Qed.
Theorem run_log gens r : 0 < gens -> exists pops best log, ends_with (fun fuel => main_run jssp_probe o fuel main_delay size (generate_jssp p) expired gens r empty_log) (best, log) /\
  history jobs p size gens expired next pops /\ chronicle jobs pops log.
Proof.
  intros Hg. destruct (generate_fresh nm jobs p size r V Lp) as (pop0 & r0 & E0 & L0 & F0). assert (R0 : Forall reach pop0). { eapply Forall_impl; [exact F0|]. intros x (c & Gc & ->). apply reach_fresh, Gc. }
  destruct (eval_pop_spec nm jobs V main_delay main_delay_ok Std p Lp pop0 R0) as (k & pop & E & F). destruct (evaluated_rated _ _ _ _ _ F) as [L G]. assert (Lp' : length pop = size) by congruence. assert (Ne : pop <> []) by exact (size_ne pop Lp').
  pose proof (rated_distance pop Ne G) as Ed. assert (Eb : exists b, jssp_best pop = Ok b /\ first_best pop b) by (destruct pop as [|x l]; [congruence|]; exists (best_from x l); split; [reflexivity|apply best_from_first]). destruct Eb as (b & Eb & Fb).
  destruct (generations_log gens [] pop b r0 _ ltac:(constructor; [split; assumption|constructor]) (logged_start pop b Fb) ltac:(intros g x y Hx Hy; discriminate)) as (k2 & added & pop2 & best2 & log2 & E2 & G2 & Lg2 & C2 & Hle & Hpos & Hex & Hend).
  cbn [app length Nat.add] in *. set (pops := pop :: added) in *. assert (Rb : rated best2).
  { pose proof (first_best_in _ _ (lg_best _ _ _ Lg2)) as Hin. apply elem_of_list_In, in_concat in Hin as (q & Hq & Hb). apply elem_of_list_In in Hq, Hb. rewrite Forall_forall in G2. destruct (G2 q Hq) as [_ Fq]. rewrite Forall_forall in Fq. apply Fq, Hb. }
  destruct (settled_string best2 (rated_settled best2 Rb)) as (s & Es & Sol).
  exists pops, best2, (JLog (log_population log2) (log_newbest log2) (log_bestingen log2) (Some (Output s (j_fitness best2) (length added) (j_chromosome best2)))). split; [|split; [split; [|split]|]].
  - exists (k + k2). intros fuel Hf. unfold main_run. cbn [jssp_probe mbind outcome_bind]. rewrite E0. cbn [mbind outcome_bind]. rewrite (E fuel) by lia. cbn [mbind outcome_bind]. rewrite Ed. cbn [mbind outcome_bind]. rewrite Eb.
    cbn [mbind outcome_bind empty_log log_population log_newbest log_bestingen log_output app]. rewrite L0 in *. rewrite (E2 fuel) by lia. cbn [mbind outcome_bind]. rewrite Es. reflexivity.
  - exists (length added). split; [reflexivity|]. split; [specialize (Hpos Hg); lia|]. split; [exact Hex|exact Hend].
  - intros q Hq. rewrite Forall_forall in G2. destruct (G2 q Hq) as [Lq Fq]. split; [exact Lq|]. eapply Forall_impl; [exact Fq|exact rated_settled].
  - exact C2.
  - destruct Lg2 as [L1 L2 L3 L4 L5 L6]. split; [exact L1|]. split; [split; [exact L2|exact L3]|]. split; [split; [exact L4|exact L5]|]. exists best2, s. split; [exact L6|]. split; [exact Sol|]. cbn [log_output]. unfold pops. cbn [length]. rewrite Nat.sub_succ, Nat.sub_0_r. reflexivity.
Qed.
End Run.

(** ** A first generation that panics *)
Lemma run_fails nm jobs (V : valid_shop nm jobs) (Std : standard_shop jobs) p (Lp : load nm jobs = Ok p) o size expired gens r : 0 < size -> 0 < gens ->
  (forall pop r, length pop = size -> Forall (rated jobs main_delay p) pop -> offspring o pop r = Panic) ->
  fails (fun fuel => main_run jssp_probe o fuel main_delay size (generate_jssp p) expired gens r empty_log).
Proof.
  intros Hsize Hg Bad. destruct (generate_fresh nm jobs p size r V Lp) as (pop0 & r0 & E0 & L0 & F0). assert (R0 : Forall (reachable jobs p main_delay) pop0). { eapply Forall_impl; [exact F0|]. intros x (c & Gc & ->). apply reach_fresh, Gc. }
  destruct (eval_pop_spec nm jobs V main_delay main_delay_ok Std p Lp pop0 R0) as (k & pop & E & F). destruct (evaluated_rated _ _ _ _ _ F) as [L G]. assert (Lp' : length pop = size) by congruence. assert (Ne : pop <> []) by (intros ->; cbn in *; lia).
  pose proof (rated_distance nm jobs V Std p Lp pop Ne G) as Ed. assert (Eb : exists b, jssp_best pop = Ok b) by (destruct pop as [|x l]; [congruence|]; exists (best_from x l); reflexivity). destruct Eb as (b & Eb).
  destruct (eval_pop_spec nm jobs V main_delay main_delay_ok Std p Lp pop (rated_reach jobs main_delay p pop G)) as (k1 & pop1 & E1 & F1). apply (evaluated_same _ _ _ _ _ G) in F1 as ->. specialize (Bad pop r0 Lp' G).
  exists (k + k1). intros fuel Hf. unfold main_run. cbn [jssp_probe mbind outcome_bind]. rewrite E0. cbn [mbind outcome_bind]. rewrite (E fuel) by lia. cbn [mbind outcome_bind]. rewrite Ed. cbn [mbind outcome_bind]. rewrite Eb.
  cbn [mbind outcome_bind]. destruct gens as [|gens]; [lia|]. cbn [main_generations]. unfold main_generation. cbn [jssp_probe mbind outcome_bind]. rewrite (E1 fuel) by lia. cbn [mbind outcome_bind]. unfold offspring in Bad.
  destruct (ops_select o pop r0) as [[chosen r1]| |]; [|reflexivity|discriminate]. cbn [mbind outcome_bind] in *. destruct (omapM (index pop) chosen) as [pool| |]; [|reflexivity|discriminate]. cbn [mbind outcome_bind] in *.
  destruct (ops_cross o pool r1) as [[kids r2]| |]; [|reflexivity|discriminate]. cbn [mbind outcome_bind] in *. rewrite Bad. reflexivity.
Qed.

(** ** Rank selection *)
Lemma rank_spin pop r : pop <> [] -> exists a b x y, jssp_rank_spin pop r = Ok (if (j_fitness y <=? j_fitness x)%N then a else b, rng_tail (rng_tail r)) /\
  gen_range 0 (length pop) r = Ok (a, rng_tail r) /\ gen_range 0 (length pop) (rng_tail r) = Ok (b, rng_tail (rng_tail r)) /\ pop !! a = Some x /\ pop !! b = Some y.
Proof.
  intros Ne. assert (Hl : 0 < length pop) by (destruct pop; [congruence|cbn; lia]). destruct (gen_range_is_Ok 0 (length pop) r Hl) as (a & Ea & Ha). destruct (gen_range_is_Ok 0 (length pop) (rng_tail r) Hl) as (b & Eb & Hb).
  destruct (lookup_lt_is_Some_2 pop a ltac:(lia)) as [x Hx]. destruct (lookup_lt_is_Some_2 pop b ltac:(lia)) as [y Hy]. exists a, b, x, y. split; [|auto]. unfold jssp_rank_spin. rewrite Ea. cbn [mbind outcome_bind]. rewrite (index_eq _ _ _ Hx). cbn [mbind outcome_bind]. rewrite Eb. cbn [mbind outcome_bind]. rewrite (index_eq _ _ _ Hy). reflexivity.
Qed.
Lemma rank_spec pop count : pop <> [] -> forall r, exists chosen r', jssp_rank count pop r = Ok (chosen, r') /\ length chosen = count /\ Forall (fun i => i < length pop) chosen.
Proof.
  intros Ne. unfold jssp_rank. induction count as [|count IH]; intros r; [exists [], r; repeat split; constructor|]. destruct (rank_spin pop r Ne) as (a & b & x & y & E & _ & _ & Hx & Hy). destruct (IH (rng_tail (rng_tail r))) as (chosen & r' & E' & L & F).
  exists ((if (j_fitness y <=? j_fitness x)%N then a else b) :: chosen), r'. cbn [repeatO]. rewrite E. cbn [mbind outcome_bind]. rewrite E'. split; [reflexivity|]. split; [cbn; lia|]. constructor; [|exact F]. destruct (_ <=? _)%N; eapply lookup_lt_Some; eassumption.
Qed.
Lemma pool_spec (pop : list jind) chosen : Forall (fun i => i < length pop) chosen -> exists pool : list jind, omapM (index pop) chosen = Ok pool /\ length pool = length chosen /\ Forall (fun x => x ∈ pop) pool.
Proof.
  induction 1 as [|i chosen Hi Fc (pool & Ep & Ll & Fp)]; [exists []; repeat split; constructor|]. destruct (lookup_lt_is_Some_2 pop i ltac:(lia)) as [x Hx]. exists (x :: pool). cbn [omapM]. rewrite (index_eq _ _ _ Hx). cbn [mbind outcome_bind]. rewrite Ep. cbn.
  split; [reflexivity|]. split; [lia|]. constructor; [eapply elem_of_list_lookup_2; exact Hx|exact Fp].
Qed.

(** ** One generation of the solver and of the random search *)
Section Operators.
Context (nm : nat) (jobs : shop) (V : valid_shop nm jobs) (Std : standard_shop jobs) (p : provider) (Lp : load nm jobs = Ok p).
Notation reach := (reachable jobs p main_delay).
Notation rated := (rated jobs main_delay p).
Notation evaluated := (evaluated jobs main_delay p).
Lemma evaluated_genes pop pop' : Forall2 evaluated pop pop' -> forall x', x' ∈ pop' -> exists x, x ∈ pop /\ j_chromosome x' = j_chromosome x.
Proof. induction 1 as [|x x' pop pop' H F IH]; intros z Hz; [apply elem_of_nil in Hz; tauto|]. apply elem_of_cons in Hz as [->|Hz]; [exists x; split; [left|apply H]|]. destruct (IH z Hz) as (y & Hy & E). exists y. split; [right; exact Hy|exact E]. Qed.
Lemma child_mixes keep a b k1 k2 : length (j_chromosome a) = length (j_chromosome b) -> swapped keep (j_chromosome a) (j_chromosome b) k1 k2 -> mixes a b (with_genes k1 a) /\ mixes a b (with_genes k2 b).
Proof.
  intros Lab (L1 & L2 & S). split; intros i g Hg; cbn [with_genes j_chromosome] in Hg.
  - assert (Hi : i < length (j_chromosome a)) by (rewrite <- L1; eapply lookup_lt_Some; exact Hg). destruct (lookup_lt_is_Some_2 (j_chromosome a) i Hi) as [u Hu]. destruct (lookup_lt_is_Some_2 (j_chromosome b) i ltac:(rewrite <- Lab; exact Hi)) as [v Hv].
    destruct (S i u v Hu Hv) as [E _]. rewrite Hg in E. apply (inj Some) in E as ->. destruct (keep i); auto.
  - assert (Hi : i < length (j_chromosome a)) by (rewrite <- L2; eapply lookup_lt_Some; exact Hg). destruct (lookup_lt_is_Some_2 (j_chromosome a) i Hi) as [u Hu]. destruct (lookup_lt_is_Some_2 (j_chromosome b) i ltac:(rewrite <- Lab; exact Hi)) as [v Hv].
    destruct (S i u v Hu Hv) as [_ E]. rewrite Hg in E. apply (inj Some) in E as ->. destruct (keep i); auto.
Qed.
Lemma reach_length x : reach x -> length (j_chromosome x) = 2 * n_tasks jobs.
Proof. intros R. apply (reach_genes nm jobs V main_delay main_delay_ok Std p Lp x R). Qed.
Lemma kids_mix (sel kids : list jind) r : Forall reach sel -> Nat.even (length sel) = true -> (exists r', jssp_crossover sel r = Ok (kids, r')) -> forall x : jind, x ∈ kids -> exists a b : jind, a ∈ sel /\ b ∈ sel /\ mixes a b x.
Proof.
  intros R Ev (r' & E) x Hx. destruct (crossover_all (2 * n_tasks jobs) sel r Ev) as (kids' & r'' & E' & Lk & H). { eapply Forall_impl; [exact R|exact reach_length]. } rewrite E in E'. injection E' as <- _.
  apply elem_of_list_lookup in Hx as [i Hx]. pose proof (lookup_lt_Some _ _ _ Hx) as Hi. rewrite Lk in Hi. rewrite Forall_forall in R.
  assert (Hq : exists q, (i = 2 * q \/ i = 2 * q + 1) /\ 2 * q + 1 < length sel). { apply Nat.even_spec in Ev as [h Eh]. exists (i / 2). pose proof (Nat.div_mod i 2 ltac:(lia)). pose proof (Nat.mod_upper_bound i 2 ltac:(lia)). lia. }
  destruct Hq as (q & Hq & Hlt). destruct (lookup_lt_is_Some_2 sel (2 * q) ltac:(lia)) as [a Ha]. destruct (lookup_lt_is_Some_2 sel (2 * q + 1) Hlt) as [b Hb]. destruct (H q a b Ha Hb) as (k1 & k2 & H1 & H2 & Sw).
  pose proof (elem_of_list_lookup_2 _ _ _ Ha) as Ia. pose proof (elem_of_list_lookup_2 _ _ _ Hb) as Ib. destruct (child_mixes _ a b k1 k2 ltac:(rewrite !reach_length by auto; reflexivity) Sw) as [M1 M2]. exists a, b. split; [exact Ia|]. split; [exact Ib|].
  destruct Hq as [-> | ->]; [rewrite H1 in Hx|rewrite H2 in Hx]; injection Hx as <-; assumption.
Qed.
Lemma mixes_genes a b x y : mixes a b x -> j_chromosome y = j_chromosome x -> mixes a b y.
Proof. intros M E i g Hg. rewrite E in Hg. exact (M i g Hg). Qed.
Lemma solver_step size pop r : 6 <= size -> Nat.even size = true -> size <= 2 ^ 50 -> length pop = size -> Forall rated pop ->
  exists pop2 r', offspring (solver_operators p size) pop r = Ok (pop2, r') /\ length pop2 = size /\ Forall reach pop2 /\ forall pop3, Forall2 evaluated pop2 pop3 -> next_generation pop pop3.
Proof.
  intros H6 Ev Hb Lpop Gpop. assert (Ne : pop <> []) by (intros ->; cbn in Lpop; lia). destruct (rank_spec pop size Ne r) as (chosen & r1 & Es & Lc & Fc). destruct (pool_spec pop chosen Fc) as (pool & Ep & Ll & Fp).
  assert (Gp : Forall reach pool). { eapply Forall_impl; [exact Fp|]. intros x Hx. rewrite Forall_forall in Gpop. apply Gpop, Hx. }
  destruct (crossover_spec jobs pool r1) as (kids & r2 & Ek & Lk & Fk); [rewrite Ll, Lc; exact Ev|eapply Forall_impl; [exact Gp|]; exact (reach_genes nm jobs V main_delay main_delay_ok Std p Lp)|].
  pose proof (replace_spec nm jobs p main_elite main_sample pop kids r2 V Lp) as Rep. cbv zeta in Rep. rewrite Lpop, (elite_share size Hb), (sample_share size Hb) in Rep. clear Hb.
  assert (He : size / 10 + size / 5 <= size). { pose proof (Nat.div_mod size 10 ltac:(lia)). pose proof (Nat.div_mod size 5 ltac:(lia)). lia. } assert (Hs : 0 < size / 10 + size / 5). { pose proof (Nat.div_le_lower_bound size 5 1 ltac:(lia) ltac:(lia)). lia. }
  destruct (Rep He Hs ltac:(lia)) as (b & rest & new & r3 & Er & Pp & Lb & Hbest & Ln & Fn).
  set (kept := take (size - size / 10 - size / 5) kids) in *. assert (Lkept : length kept = size - size / 10 - size / 5) by (unfold kept; rewrite take_length; lia).
  assert (Rb' : Forall rated b). { apply Forall_forall. intros x Hx. rewrite Forall_forall in Gpop. apply Gpop. rewrite Pp. apply elem_of_app. left. exact Hx. }
  assert (L2 : length (b ++ kept ++ new) = size) by (rewrite !app_length; lia).
  exists (b ++ kept ++ new), r3. split; [|split; [exact L2|split]].
  - unfold offspring, solver_operators. cbn [ops_select ops_cross ops_replace]. rewrite Es. cbn [mbind outcome_bind]. rewrite Ep. cbn [mbind outcome_bind]. rewrite Ek. cbn [mbind outcome_bind]. exact Er.
  - apply Forall_app. split; [exact (rated_reach jobs main_delay p b Rb')|]. apply Forall_app. split.
    + apply Forall_take. eapply Forall_impl; [exact Fk|]. intros x (q & c & Hq & Gc & ->). apply reach_child; [|exact Gc]. rewrite Forall_forall in Gp. apply Gp, Hq.
    + eapply Forall_impl; [exact Fn|]. intros x (c & Gc & ->). apply reach_fresh, Gc.
  - intros pop3 F3. apply Forall2_app_inv_l in F3 as (b3 & tail3 & Fb & Ft & ->). apply Forall2_app_inv_l in Ft as (kept3 & new3 & Fkept & Fnew & ->). apply (evaluated_same _ _ _ _ _ Rb') in Fb as ->. apply Forall2_length in Fnew as Ln3. apply Forall2_length in Fkept as Lk3.
    exists b, rest, kept3, new3. rewrite Lpop. split; [reflexivity|]. split; [rewrite !app_length in *; lia|]. split; [exact Pp|]. split; [exact Lb|]. split; [exact Hbest|]. split; [lia|]. intros x Hx. destruct (evaluated_genes _ _ Fkept x Hx) as (y & Hy & Ey).
    destruct (kids_mix pool kids r1 Gp ltac:(rewrite Ll, Lc; exact Ev) ltac:(eauto) y) as (u & v & Hu & Hv & M). { unfold kept in Hy. rewrite <- (take_drop (size - size / 10 - size / 5) kids). apply elem_of_app. left. exact Hy. }
    rewrite Forall_forall in Fp. exists u, v. split; [apply Fp, Hu|]. split; [apply Fp, Hv|]. exact (mixes_genes u v y x M Ey).
Qed.
Lemma solver_panics size pop r : 0 < size -> (Nat.even size = false \/ size < 6) -> length pop = size -> Forall rated pop -> offspring (solver_operators p size) pop r = Panic.
Proof.
  intros Hpos Bad Lpop Gpop. assert (Ne : pop <> []) by (intros ->; cbn in Lpop; lia). destruct (rank_spec pop size Ne r) as (chosen & r1 & Es & Lc & Fc). destruct (pool_spec pop chosen Fc) as (pool & Ep & Ll & Fp).
  unfold offspring, solver_operators. cbn [ops_select ops_cross ops_replace]. rewrite Es. cbn [mbind outcome_bind]. rewrite Ep. cbn [mbind outcome_bind]. destruct (Nat.even size) eqn:Ev.
  - destruct Bad as [?|Bad]; [discriminate|]. assert (Gp : Forall reach pool). { eapply Forall_impl; [exact Fp|]. intros x Hx. rewrite Forall_forall in Gpop. apply Gpop, Hx. }
    destruct (crossover_spec jobs pool r1) as (kids & r2 & Ek & Lk & Fk); [rewrite Ll, Lc; exact Ev|eapply Forall_impl; [exact Gp|]; exact (reach_genes nm jobs V main_delay main_delay_ok Std p Lp)|]. rewrite Ek. cbn [mbind outcome_bind].
    apply replace_panics. right. left. rewrite Lpop. clear - Hpos Bad Ev. do 6 (destruct size as [|size]; [first [exfalso; exact (Nat.nlt_0_r _ Hpos)|discriminate|reflexivity]|]). exfalso. lia.
  - rewrite crossover_odd by (rewrite Ll, Lc; exact Ev). reflexivity.
Qed.
(** The generation of the random search *)
Definition all_new (pop pop' : list jind) : Prop := length pop' = length pop.
Lemma random_step size pop r : length pop = size ->
  exists pop2 r', offspring (random_operators p) pop r = Ok (pop2, r') /\ length pop2 = size /\ Forall reach pop2 /\ forall pop3, Forall2 evaluated pop2 pop3 -> all_new pop pop3.
Proof.
  intros Lpop. destruct (generate_fresh nm jobs p size r V Lp) as (pop0 & r0 & E0 & L0 & F0). exists pop0, r0. unfold offspring, random_operators, random_replace. cbn [ops_select ops_cross ops_replace empty_selection mbind outcome_bind omapM noop_crossover length rassert Nat.even]. rewrite Lpop, E0.
  split; [reflexivity|]. split; [exact L0|]. split. { eapply Forall_impl; [exact F0|]. intros x (c & Gc & ->). apply reach_fresh, Gc. } intros pop3 F3. apply Forall2_length in F3. unfold all_new. congruence.
Qed.
End Operators.
