(** * The run of the job shop solver *)
From Verif Require Export JsspOpsProofs.
Open Scope nat_scope.

Section Solver.
Context (nm : nat) (jobs : shop) (V : valid_shop nm jobs) (dc : f64) (Hdc : delay_ok dc) (Std : standard_shop jobs) (p : provider) (Lp : load nm jobs = Ok p).
Notation reach := (reachable jobs p dc).
Definition rated (x : jind) : Prop := reach x /\ j_valid x = true.
Lemma rated_evaluated x : rated x -> exists y, reach y /\ evaluates dc y x (j_fitness x).
Proof.
  intros [R Hv]. destruct R as [c G|x x' m R E|x c R G]; [discriminate| |discriminate]. exists x. split; [exact R|].
  destruct (reachable_evaluates nm jobs V dc Hdc p x Std Lp R) as (x1 & m1 & E1 & _ & Ef & _). destruct (evaluates_det dc x x' m x1 m1 E E1) as [-> ->]. rewrite Ef. exact E1.
Qed.
Lemma rated_makespan x : rated x -> exists start, feasible jobs start /\ has_makespan jobs start (j_fitness x).
Proof.
  intros Hx. destruct (rated_evaluated x Hx) as (y & R & E). destruct (reachable_evaluates nm jobs V dc Hdc p y Std Lp R) as (x1 & m1 & E1 & _ & _ & _ & _ & _ & _ & _ & _ & _ & _ & _ & best & F & M).
  destruct (evaluates_det dc y x _ x1 m1 E E1) as [-> ->]. eauto.
Qed.
Lemma reach_genes x : reach x -> genes_for jobs (j_chromosome x).
Proof. intros R. apply (reachable_ok nm jobs V dc Hdc p x Std Lp R). Qed.

Definition evaluated (x x' : jind) : Prop := rated x' /\ j_chromosome x' = j_chromosome x /\ (j_valid x = true -> x' = x).
Lemma eval_pop_spec pop : Forall reach pop -> exists k pop', (forall fuel, k <= fuel -> jssp_eval_pop fuel dc pop = Ok pop') /\ Forall2 evaluated pop pop'.
Proof.
  induction 1 as [|x pop R F IH]; [exists 0, []; split; [reflexivity|constructor]|]. destruct IH as (k & pop' & E & H).
  assert (One : exists k1 x', (forall fuel, k1 <= fuel -> (if j_valid x then Ok x else '(y, m) ← evaluate_individual fuel dc x; Ok (JInd (j_chromosome y) (j_ops y) (j_machines y) m (j_valid y) (j_dirty y))) = Ok x') /\ evaluated x x').
  { destruct (j_valid x) eqn:Ev; [exists 0, x; split; [reflexivity|]; repeat split; auto|]. destruct (reachable_evaluates nm jobs V dc Hdc p x Std Lp R) as (x' & m & Ex & Ec & Ef & Evd & _). destruct Ex as (k1 & Ex).
    exists k1, x'. split; [|split; [split; [eapply reach_eval; [exact R|exists k1; exact Ex]|exact Evd]|split; [exact Ec|congruence]]]. intros fuel Hf. rewrite (Ex fuel Hf). cbn [mbind outcome_bind]. rewrite <- Ef. destruct x'; reflexivity. }
  destruct One as (k1 & x' & E1 & H1). exists (k + k1), (x' :: pop'). split; [|constructor; assumption]. intros fuel Hf. unfold jssp_eval_pop in *. cbn [omapM]. rewrite (E1 fuel) by lia. cbn [mbind outcome_bind]. rewrite (E fuel) by lia. reflexivity.
Qed.
Lemma evaluated_rated pop pop' : Forall2 evaluated pop pop' -> length pop' = length pop /\ Forall rated pop'.
Proof. induction 1 as [|x x' pop pop' H F [IH1 IH2]]; [split; [reflexivity|constructor]|]. split; [cbn; lia|]. constructor; [apply H|exact IH2]. Qed.
Lemma evaluated_same pop pop' : Forall rated pop -> Forall2 evaluated pop pop' -> pop' = pop.
Proof. intros G H. induction H as [|x x' pop pop' H F IH]; [reflexivity|]. apply Forall_cons in G as [G1 G]. rewrite (IH G). destruct H as (_ & _ & H). rewrite H by apply G1. reflexivity. Qed.

Lemma best_from_spec l : forall b, (best_from b l ∈ b :: l) /\ forall x, x ∈ b :: l -> (j_fitness (best_from b l) <= j_fitness x)%N.
Proof.
  induction l as [|y l IH]; intros b; cbn [best_from]; [split; [left|]; intros x H; apply elem_of_list_singleton in H as ->; lia|].
  destruct (IH (if (j_fitness y <? j_fitness b)%N then y else b)) as [I1 I2]. destruct (N.ltb_spec (j_fitness y) (j_fitness b)) as [H|H].
  - split; [right; exact I1|]. intros x [->|Hx]%elem_of_cons; [|apply I2; exact Hx]. specialize (I2 y ltac:(left)). lia.
  - split; [apply elem_of_cons in I1 as [->|I1]; [left|right; right; exact I1]|]. intros x [->|[->|Hx]%elem_of_cons]%elem_of_cons; [apply I2; left| |apply I2; right; exact Hx]. specialize (I2 b ltac:(left)). lia.
Qed.
Lemma best_spec pop : pop <> [] -> exists b, jssp_best pop = Ok b /\ b ∈ pop /\ forall x, x ∈ pop -> (j_fitness b <= j_fitness x)%N.
Proof. destruct pop as [|x l]; [congruence|]. intros _. destruct (best_from_spec l x) as [H1 H2]. exists (best_from x l). auto. Qed.

Context (er sr : f64) (size : nat) (select : list jind -> rng -> outcome (list nat * rng)) (expired : nat -> bool).
Notation e := (part er size).
Notation s := (part sr size).
Context (He : e + s <= size) (Hs : 0 < e + s).
Context (Sel : forall pop r, length pop = size -> exists chosen r', select pop r = Ok (chosen, r') /\ Nat.even (length chosen) = true /\ size - e - s <= length chosen /\ Forall (fun i => i < size) chosen).
Definition good (pop : list jind) : Prop := length pop = size /\ Forall rated pop.
Lemma rated_reach pop : Forall rated pop -> Forall reach pop.
Proof. intros H. eapply Forall_impl; [exact H|]. intros x [R _]. exact R. Qed.

Lemma generation_spec pop best r : good pop -> rated best -> exists k pop' best' r',
  (forall fuel, k <= fuel -> jssp_generation fuel p dc er sr size select pop best r = Ok (pop', best', r')) /\ good pop' /\ rated best' /\
  (j_fitness best' <= j_fitness best)%N /\ (forall x, x ∈ pop' -> (j_fitness best' <= j_fitness x)%N) /\ (best' = best \/ best' ∈ pop') /\
  (0 < e -> exists x, x ∈ pop' /\ forall y, y ∈ pop -> (j_fitness x <= j_fitness y)%N).
Proof.
  intros [Lpop Gpop] Rb. destruct (eval_pop_spec pop (rated_reach _ Gpop)) as (k1 & pop1 & E1 & F1). apply (evaluated_same _ _ Gpop) in F1 as ->.
  destruct (Sel pop r Lpop) as (chosen & r1 & Es & Ev & Lc & Fc).
  assert (Pool : exists pool, omapM (index pop) chosen = Ok pool /\ length pool = length chosen /\ Forall (fun x => x ∈ pop) pool).
  { clear Es Ev Lc. induction Fc as [|i chosen Hi Fc (pool & Ep & Ll & Fp)]; [exists []; repeat split; constructor|]. destruct (lookup_lt_is_Some_2 pop i ltac:(lia)) as [x Hx]. exists (x :: pool). cbn [omapM]. rewrite (index_eq _ _ _ Hx). cbn [mbind outcome_bind]. rewrite Ep. cbn.
    split; [reflexivity|]. split; [lia|]. constructor; [eapply elem_of_list_lookup_2; exact Hx|exact Fp]. }
  destruct Pool as (pool & Ep & Ll & Fp). assert (Gp : Forall reach pool). { eapply Forall_impl; [exact Fp|]. intros x Hx. rewrite Forall_forall in Gpop. apply Gpop, Hx. }
  destruct (crossover_spec jobs pool r1) as (kids & r2 & Ek & Lk & Fk); [rewrite Ll; exact Ev|eapply Forall_impl; [exact Gp|]; exact reach_genes|].
  pose proof (replace_spec nm jobs p er sr pop kids r2 V Lp) as Rep. cbv zeta in Rep. rewrite Lpop in Rep. destruct (Rep He Hs ltac:(lia)) as (b & rest & new & r3 & Er & Pp & Lb & Hb & Ln & Fn).
  set (pop2 := b ++ take (size - e - s) kids ++ new) in *.
  assert (L2 : length pop2 = size) by (unfold pop2; rewrite !app_length, take_length; lia).
  assert (Rb' : Forall rated b). { apply Forall_forall. intros x Hx. rewrite Forall_forall in Gpop. apply Gpop. rewrite Pp. apply elem_of_app. left. exact Hx. }
  assert (R2 : Forall reach pop2).
  { unfold pop2. apply Forall_app. split; [apply rated_reach, Rb'|]. apply Forall_app. split.
    - apply Forall_take. eapply Forall_impl; [exact Fk|]. intros x (q & c & Hq & Gc & ->). apply reach_child; [|exact Gc]. rewrite Forall_forall in Gp. apply Gp, Hq.
    - eapply Forall_impl; [exact Fn|]. intros x (c & Gc & ->). apply reach_fresh, Gc. }
  destruct (eval_pop_spec pop2 R2) as (k2 & pop3 & E2 & F2). destruct (evaluated_rated _ _ F2) as [L3 R3].
  destruct (best_spec pop3) as (b3 & Eb3 & Hb3 & Mb3). { destruct pop3; [cbn in L3; lia|discriminate]. }
  exists (k1 + k2), pop3, (if (j_fitness b3 <? j_fitness best)%N then b3 else best), r3. split; [|split; [|split; [|split; [|split; [|split]]]]].
  - intros fuel Hf. unfold jssp_generation. rewrite (E1 fuel) by lia. cbn [mbind outcome_bind]. rewrite Es. cbn [mbind outcome_bind]. rewrite Ep. cbn [mbind outcome_bind]. rewrite Ek. cbn [mbind outcome_bind]. rewrite Er. cbn [mbind outcome_bind].
    rewrite bool_decide_eq_true_2 by exact L2. cbn [rassert mbind outcome_bind]. rewrite (E2 fuel) by lia. cbn [mbind outcome_bind]. rewrite Eb3. reflexivity.
  - split; [lia|exact R3].
  - destruct (_ <? _)%N; [rewrite Forall_forall in R3; apply R3, Hb3|exact Rb].
  - destruct (N.ltb_spec (j_fitness b3) (j_fitness best)); lia.
  - intros x Hx. specialize (Mb3 x Hx). destruct (N.ltb_spec (j_fitness b3) (j_fitness best)); lia.
  - destruct (_ <? _)%N; auto.
  - intros Hpos. destruct b as [|x0 b']; [cbn in Lb; lia|]. destruct (best_spec (x0 :: b') ltac:(discriminate)) as (x & _ & Hx & Mx). exists x. split.
    + pose proof Hx as Hx'. apply elem_of_list_lookup in Hx' as [i Hi]. assert (Hi2 : pop2 !! i = Some x) by (unfold pop2; apply lookup_app_l_Some; exact Hi). destruct (Forall2_lookup_l _ _ _ _ _ F2 Hi2) as (x' & Hx' & _ & _ & Keep).
      rewrite Keep in Hx'. { eapply elem_of_list_lookup_2; exact Hx'. } rewrite Forall_forall in Rb'. apply Rb', Hx.
    + intros y Hy. rewrite Pp in Hy. apply elem_of_app in Hy as [Hy|Hy]; [apply Mx, Hy|]. exact (Hb x y Hx Hy).
Qed.
Lemma generations_spec : forall gens pop best r, good pop -> rated best -> (forall x, x ∈ pop -> (j_fitness best <= j_fitness x)%N) -> exists k pop' best' r',
  (forall fuel, k <= fuel -> jssp_generations fuel p dc er sr size select expired gens pop best r = Ok (pop', best', r')) /\ good pop' /\ rated best' /\
  (j_fitness best' <= j_fitness best)%N /\ (forall x, x ∈ pop' -> (j_fitness best' <= j_fitness x)%N).
Proof.
  induction gens as [|gens IH]; intros pop best r G Rb Hm.
  - exists 0, pop, best, r. split; [reflexivity|]. split; [exact G|]. split; [exact Rb|]. split; [lia|exact Hm].
  - destruct (generation_spec pop best r G Rb) as (k1 & pop1 & best1 & r1 & E1 & G1 & R1 & M1 & A1 & _). destruct (expired gens) eqn:Ex.
    + exists k1, pop1, best1, r1. split; [|auto]. intros fuel Hf. cbn [jssp_generations]. rewrite (E1 fuel Hf). cbn [mbind outcome_bind]. rewrite Ex. reflexivity.
    + destruct (IH pop1 best1 r1 G1 R1 A1) as (k2 & pop2 & best2 & r2 & E2 & G2 & R2 & M2 & A2). exists (k1 + k2), pop2, best2, r2. split; [|split; [exact G2|split; [exact R2|split; [lia|exact A2]]]].
      intros fuel Hf. cbn [jssp_generations]. rewrite (E1 fuel) by lia. cbn [mbind outcome_bind]. rewrite Ex. apply E2. lia.
Qed.
Lemma initial_spec r : exists k pop best r', good pop /\ rated best /\ (forall x, x ∈ pop -> (j_fitness best <= j_fitness x)%N) /\
  forall fuel gens, k <= fuel -> jssp_run fuel p dc er sr size select expired gens r = jssp_generations fuel p dc er sr size select expired gens pop best r'.
Proof.
  destruct (generate_fresh nm jobs p size r V Lp) as (pop0 & r0 & E0 & L0 & F0). assert (R0 : Forall reach pop0). { eapply Forall_impl; [exact F0|]. intros x (c & Gc & ->). apply reach_fresh, Gc. }
  destruct (eval_pop_spec pop0 R0) as (k & pop & E & F). destruct (evaluated_rated _ _ F) as [L G]. destruct (best_spec pop) as (b & Eb & Hb & Mb). { destruct pop; [cbn in L; lia|discriminate]. }
  exists k, pop, b, r0. split; [split; [lia|exact G]|]. split; [rewrite Forall_forall in G; apply G, Hb|]. split; [exact Mb|]. intros fuel gens Hf. unfold jssp_run. rewrite E0. cbn [mbind outcome_bind]. rewrite (E fuel Hf). cbn [mbind outcome_bind]. rewrite Eb. reflexivity.
Qed.
Theorem run_spec gens r : exists k pop best r', (forall fuel, k <= fuel -> jssp_run fuel p dc er sr size select expired gens r = Ok (pop, best, r')) /\ good pop /\ rated best /\ (forall x, x ∈ pop -> (j_fitness best <= j_fitness x)%N).
Proof.
  destruct (initial_spec r) as (k & pop & best & r0 & G & Rb & M & E). destruct (generations_spec gens pop best r0 G Rb M) as (k2 & pop' & best' & r' & E2 & G2 & R2 & _ & A2).
  exists (k + k2), pop', best', r'. split; [|auto]. intros fuel Hf. rewrite E by lia. apply E2. lia.
Qed.
End Solver.

Section History.
Context (nm : nat) (jobs : shop) (V : valid_shop nm jobs) (dc : f64) (Hdc : delay_ok dc) (Std : standard_shop jobs) (p : provider) (Lp : load nm jobs = Ok p).
Context (er sr : f64) (size : nat) (select : list jind -> rng -> outcome (list nat * rng)).
Notation e := (part er size).
Notation s := (part sr size).
Context (He : e + s <= size) (Hs : 0 < e + s).
Context (Sel : forall pop r, length pop = size -> exists chosen r', select pop r = Ok (chosen, r') /\ Nat.even (length chosen) = true /\ size - e - s <= length chosen /\ Forall (fun i => i < size) chosen).
Lemma generations_add fuel a : forall b pop best r pop1 best1 r1, jssp_generations fuel p dc er sr size select (fun _ => false) a pop best r = Ok (pop1, best1, r1) ->
  jssp_generations fuel p dc er sr size select (fun _ => false) (a + b) pop best r = jssp_generations fuel p dc er sr size select (fun _ => false) b pop1 best1 r1.
Proof.
  induction a as [|a IH]; intros b pop best r pop1 best1 r1 E; cbn [jssp_generations Nat.add] in *; [congruence|]. destruct (jssp_generation _ _ _ _ _ _ _ _ _ _) as [[[pop' best'] r']| |]; [|discriminate|discriminate]. cbn [mbind outcome_bind] in *. exact (IH b _ _ _ _ _ _ E).
Qed.
(** With more generations the result is at least as good as every individual of the earlier populations *)
Theorem run_history a b r : exists k pop1 best1 r1 pop2 best2 r2,
  (forall fuel, k <= fuel -> jssp_run fuel p dc er sr size select (fun _ => false) a r = Ok (pop1, best1, r1)) /\
  (forall fuel, k <= fuel -> jssp_run fuel p dc er sr size select (fun _ => false) (a + b) r = Ok (pop2, best2, r2)) /\
  forall x, x ∈ pop1 -> (j_fitness best2 <= j_fitness x)%N.
Proof.
  destruct (initial_spec nm jobs V dc Hdc Std p Lp er sr size select (fun _ => false) He Hs r) as (k & pop & best & r0 & G & Rb & M & E).
  destruct (generations_spec nm jobs V dc Hdc Std p Lp er sr size select (fun _ => false) He Hs Sel a pop best r0 G Rb M) as (k1 & pop1 & best1 & r1 & E1 & G1 & R1 & _ & A1).
  destruct (generations_spec nm jobs V dc Hdc Std p Lp er sr size select (fun _ => false) He Hs Sel b pop1 best1 r1 G1 R1 A1) as (k2 & pop2 & best2 & r2 & E2 & _ & _ & M2 & _).
  exists (k + k1 + k2), pop1, best1, r1, pop2, best2, r2. split; [|split].
  - intros fuel Hf. rewrite E by lia. apply E1. lia.
  - intros fuel Hf. rewrite E by lia. rewrite (generations_add fuel a b pop best r0 pop1 best1 r1) by (apply E1; lia). apply E2. lia.
  - intros x Hx. specialize (A1 x Hx). lia.
Qed.
End History.
