From Verif Require Import GaProofs GaAssembleModel GaAssembleSpec GaAssembleProofs CrossoverPermProofs CrossoverMultiProofs MutationProofs SelectionSpec SelectionProofs SusProofs SelectionRProofs ReplacementSpec ReplacementProofs PopulationSpec PopulationProofs WeakRunProofs PresetProofs F64R.
Open Scope nat_scope.

Section Single.
Context {G : Type} `{EqDecision G}.
Implicit Types a b c d : individual G.

Lemma lift_single_Ok (op : list G -> list G -> rng -> outcome ((list G * list G) * rng)) a b r c d r' : lift_single op a b r = Ok ((c, d), r') ->
  op (chromosome a) (chromosome b) r = Ok ((chromosome c, chromosome d), r') /\ fitness c = fmin /\ fitness d = fmin.
Proof using Type.
  unfold lift_single. intros E. apply obind_Ok in E as ([[c1 c2] r1] & E1 & E). injection E as <- <- <-. auto.
Qed.
Lemma fixed_single_Ok cut a b c d u u' : fixed_single cut a b u = Ok ((c, d), u') ->
  fixed_point cut (chromosome a) (chromosome b) = Ok (chromosome c, chromosome d) /\ fitness c = fitness a /\ fitness d = fitness b.
Proof using Type.
  unfold fixed_single. intros E. apply obind_Ok in E as ([c1 c2] & E1 & E). injection E as <- <- <-. auto.
Qed.
Lemma fixed_branch_Ok cut a b (r : rng) c d r' : ('(cd, _) ← fixed_single cut a b tt; Ok (cd, r)) = Ok ((c, d), r') ->
  fixed_point cut (chromosome a) (chromosome b) = Ok (chromosome c, chromosome d) /\ fitness c = fitness a /\ fitness d = fitness b.
Proof using Type.
  intros E. apply obind_Ok in E as ([cd u] & E1 & E). injection E as -> _. eapply fixed_single_Ok; eauto.
Qed.

Lemma xo_loci xo a b r c d r' : order_based xo = false -> crossover_single xo a b r = Ok ((c, d), r') ->
  loci_from (chromosome a) (chromosome b) (chromosome c, chromosome d).
Proof using Type.
  intros Ho E. destruct xo; try discriminate; cbn [crossover_single] in E;
    try (apply lift_single_Ok in E as (E & _ & _)); try (apply fixed_branch_Ok in E as (E & _ & _)).
  - eapply single_point_loci; eauto.
  - eapply two_point_loci; eauto.
  - eapply multi_point_loci; eauto.
  - eapply fixed_point_loci; eauto.
  - eapply uniform_loci; eauto.
  - eapply uniform_parameterized_loci; eauto.
  - eapply shuffle_xo_loci; eauto.
Qed.
Lemma xo_genes xo a b r c d r' : crossover_single xo a b r = Ok ((c, d), r') ->
  genes_from (chromosome a) (chromosome b) (chromosome c, chromosome d).
Proof using Type.
  intros E. destruct (order_based xo) eqn:Ho; [|apply loci_genes; eapply xo_loci; eauto].
  destruct xo; try discriminate; cbn [crossover_single] in E; apply lift_single_Ok in E as (E & _ & _).
  - eapply ordered_genes; eauto.
  - eapply pmx_genes; eauto.
  - eapply ppx_genes; eauto.
Qed.
Lemma xo_fitness xo a b r c d r' : crossover_single xo a b r = Ok ((c, d), r') ->
  is_nan (fitness a) = false -> is_nan (fitness b) = false -> is_nan (fitness c) = false /\ is_nan (fitness d) = false.
Proof using Type.
  intros E Ha Hb. destruct xo; cbn [crossover_single] in E;
    try (apply lift_single_Ok in E as (_ & -> & ->); split; reflexivity). apply fixed_branch_Ok in E as (_ & -> & ->). auto.
Qed.

(** Crossover of two permutations. *)
Lemma xo_perm_ok xo a b r (genes : list G) : order_based xo = true -> enough_fuel xo (length genes) -> NoDup genes -> 0 < length genes ->
  chromosome a ≡ₚ genes -> chromosome b ≡ₚ genes ->
  exists c d r', crossover_single xo a b r = Ok ((c, d), r') /\ chromosome c ≡ₚ genes /\ chromosome d ≡ₚ genes.
Proof using Type.
  intros Ho Hf Hnd Hlen Ha Hb. assert (Hab : chromosome a ≡ₚ chromosome b) by (rewrite Ha, Hb; reflexivity).
  assert (Hnda : NoDup (chromosome a)) by (rewrite Ha; exact Hnd). assert (Hla : length (chromosome a) = length genes) by (rewrite Ha; reflexivity).
  destruct xo; try discriminate; cbn [crossover_single enough_fuel] in *; unfold lift_single.
  - destruct (ordered_spec (chromosome a) (chromosome b) r Hnda Hab ltac:(lia)) as (b1 & e & r' & E & _ & _ & H1 & H2 & _). rewrite E. cbn [mbind outcome_bind].
    eexists _, _, _. split; [reflexivity|]. cbn [chromosome ind_from]. rewrite H1, H2. auto.
  - destruct (pmx_spec fuel (chromosome a) (chromosome b) r Hnda Hab ltac:(lia) ltac:(lia)) as (b1 & e & c1 & c2 & r' & E & _ & _ & H1 & H2 & _). rewrite E. cbn [mbind outcome_bind].
    eexists _, _, _. split; [reflexivity|]. cbn [chromosome ind_from]. rewrite H1, H2. auto.
  - destruct (ppx_spec (chromosome a) (chromosome b) r Hnda Hab) as (c1 & c2 & mask & r' & E & H1 & H2 & _). rewrite E. cbn [mbind outcome_bind].
    eexists _, _, _. split; [reflexivity|]. cbn [chromosome ind_from]. rewrite H1, H2. auto.
Qed.
Lemma xo_perm xo a b r c d r' (genes : list G) : order_based xo = true -> enough_fuel xo (length genes) -> NoDup genes ->
  chromosome a ≡ₚ genes -> chromosome b ≡ₚ genes -> crossover_single xo a b r = Ok ((c, d), r') -> chromosome c ≡ₚ genes /\ chromosome d ≡ₚ genes.
Proof using Type.
  intros Ho Hf Hnd Ha Hb E. destruct (decide (0 < length genes)) as [Hl|Hl].
  - destruct (xo_perm_ok xo a b r genes Ho Hf Hnd Hl Ha Hb) as (c' & d' & r2 & E2 & H). rewrite E in E2. injection E2 as -> -> _. exact H.
  - destruct genes as [|g genes]; [|cbn in Hl; lia]. apply Permutation_nil_r in Ha, Hb. pose proof (xo_genes _ _ _ _ _ _ _ E) as Hg.
    rewrite Ha, Hb in Hg. assert (Hn : forall g : G, ~ (g ∈ chromosome c \/ g ∈ chromosome d)) by (intros g Hx; apply Hg in Hx as [Hx|Hx]; inversion Hx).
    destruct (chromosome c) as [|x xs] eqn:E1; [|destruct (Hn x); left; left]. destruct (chromosome d) as [|y ys]; [|destruct (Hn y); right; left]. auto.
Qed.

(** Crossover of two chromosomes of equal length. *)
Lemma xo_length_ok xo a b r dim : order_based xo = false -> cuts_fit xo dim -> 0 < dim ->
  length (chromosome a) = dim -> length (chromosome b) = dim ->
  exists c d r', crossover_single xo a b r = Ok ((c, d), r') /\ length (chromosome c) = dim /\ length (chromosome d) = dim.
Proof using Type.
  intros Ho Hk Hd Ha Hb. assert (Hab : length (chromosome a) = length (chromosome b)) by congruence.
  destruct xo; try discriminate; cbn [crossover_single cuts_fit] in *; unfold lift_single.
  - destruct (single_point_recomb (chromosome a) (chromosome b) r Hab ltac:(lia)) as (c1 & c2 & r' & E & H1 & H2 & _). rewrite E. cbn [mbind outcome_bind].
    eexists _, _, _. split; [reflexivity|]. cbn [chromosome ind_from]. split; congruence.
  - destruct (two_point_recomb (chromosome a) (chromosome b) r Hab ltac:(lia)) as (c1 & c2 & r' & E & H1 & H2 & _). rewrite E. cbn [mbind outcome_bind].
    eexists _, _, _. split; [reflexivity|]. cbn [chromosome ind_from]. split; congruence.
  - destruct (multi_point_recomb k (chromosome a) (chromosome b) r Hab ltac:(lia)) as (c1 & c2 & r' & E & H1 & H2 & _). rewrite E. cbn [mbind outcome_bind].
    eexists _, _, _. split; [reflexivity|]. cbn [chromosome ind_from]. split; congruence.
  - unfold fixed_single. destruct (fixed_point_recomb cut (chromosome a) (chromosome b) Hab) as (c1 & c2 & E & H1 & H2 & _). rewrite E. cbn [mbind outcome_bind].
    eexists _, _, _. split; [reflexivity|]. cbn [chromosome]. split; congruence.
  - destruct (uniform_recomb kind (chromosome a) (chromosome b) r Hab) as (c1 & c2 & r' & E & H1 & H2 & _). rewrite E. cbn [mbind outcome_bind].
    eexists _, _, _. split; [reflexivity|]. cbn [chromosome ind_from]. split; congruence.
  - destruct (uniform_parameterized_recomb kind bias (chromosome a) (chromosome b) r Hab) as (c1 & c2 & r' & E & H1 & H2 & _). rewrite E. cbn [mbind outcome_bind].
    eexists _, _, _. split; [reflexivity|]. cbn [chromosome ind_from]. split; congruence.
  - destruct (shuffle_recomb (chromosome a) (chromosome b) r Hab ltac:(lia)) as (c1 & c2 & r' & E & H1 & H2 & _). rewrite E. cbn [mbind outcome_bind].
    eexists _, _, _. split; [reflexivity|]. cbn [chromosome ind_from]. split; congruence.
Qed.

(** The mutation operators rearrange. *)
Lemma mutation_ok mop (ch : list G) r t : 0 < length ch -> exists ch' r' t', mutation_fn mop ch r t = Ok (ch', r', t') /\ ch' ≡ₚ ch.
Proof using Type.
  intros Hl. destruct mop; cbn [mutation_fn].
  - unfold identity_mut. eauto.
  - apply interchange_perm. exact Hl.
  - destruct (reversing_perm rate ch r t) as (ch' & r' & E & P). eauto.
  - destruct (inversion_perm rate ch r t Hl) as (ch' & r' & E & P). eauto.
Qed.
Lemma mutation_perm mop (ch : list G) r t ch' r' t' : mutation_fn mop ch r t = Ok (ch', r', t') -> ch' ≡ₚ ch.
Proof using Type.
  intros E. destruct (decide (0 < length ch)) as [Hl|Hl].
  - destruct (mutation_ok mop ch r t Hl) as (ch2 & r2 & t2 & E2 & P). rewrite E in E2. injection E2 as -> _ _. exact P.
  - destruct ch; [|cbn in Hl; lia]. destruct mop; cbn [mutation_fn] in E.
    + injection E as <- _ _. reflexivity.
    + discriminate.
    + injection E as <- _ _. reflexivity.
    + unfold inversion in E. destruct (gen_f64 r) as [u r1]. destruct (fgt u rate); [injection E as <- _ _; reflexivity|].
      apply obind_Ok in E as ([from r2] & E1 & _). apply gen_range_Ok in E1. cbn in E1. lia.
Qed.
End Single.

(** ** Assembled solvers *)
Section Assembled.
Context {G : Type} `{EqDecision G}.
Variables (psize glimit : nat) (duration : N) (fit : list G -> f64) (generate : nat -> rng -> outcome (list (individual G) * rng)).
Variables (sel : selection_op) (size : metrics -> nat) (xo : crossover_op) (mut : list G -> rng -> rng -> outcome (list G * rng * rng)) (repl : replacement_op).
Notation cfg := (assemble psize glimit duration fit generate sel size xo mut repl).
Variable K : list G -> Prop.
Notation KP q := (Forall (fun x => K (chromosome x)) q).

Section Safe.
Hypothesis HX : forall a b r c d r', K (chromosome a) -> K (chromosome b) -> crossover_single xo a b r = Ok ((c, d), r') -> K (chromosome c) /\ K (chromosome d).
Hypothesis HM : forall ch r t ch' r' t', K ch -> mut ch r t = Ok (ch', r', t') -> K ch'.
Lemma assemble_xo m pool s ch s' : KP pool -> op_crossover cfg m pool s = Ok (ch, s') -> KP ch.
Proof using HX.
  intros HP E. cbn [op_crossover assemble] in E. apply obind_Ok in E as ([ch1 r] & E1 & E). injection E as <- _.
  exact (crossover_apply_post (crossover_single xo) (fun x => K (chromosome x)) (fun x => K (chromosome x)) pool (st_xo s) ch1 r HP HX E1).
Qed.
Lemma assemble_mut m x s x' s' : K (chromosome x) -> op_mutate cfg m x s = Ok (x', s') -> K (chromosome x').
Proof using HM.
  intros HK E. cbn [op_mutate assemble] in E. apply obind_Ok in E as ([[x1 r] t] & E1 & E). injection E as <- _.
  unfold mutate_individual in E1. apply obind_Ok in E1 as ([[ch r1] t1] & E2 & E1). injection E1 as <- _ _. cbn [chromosome]. eapply HM; eauto.
Qed.
Lemma replacement_members (P : individual G -> Prop) pop ch pop' : Forall P pop -> Forall P ch -> replacement_fn repl pop ch = Ok pop' -> Forall P pop'.
Proof using Type.
  intros H1 H2 E. destruct repl; cbn [replacement_fn] in E.
  - injection E as <-. exact H2.
  - injection E as <-. exact H1.
  - apply weak_parent_members in E. eapply Forall_impl; [exact E|]. intros x [Hx|Hx]; [rewrite Forall_forall in H1|rewrite Forall_forall in H2]; auto.
Qed.
Lemma assemble_repl m pop ch s pop' s' : KP pop -> KP ch -> op_replace cfg m pop ch s = Ok (pop', s') -> KP pop'.
Proof using Type.
  intros H1 H2 E. cbn [op_replace assemble] in E. apply obind_Ok in E as (pop1 & E1 & E). injection E as <- _. eapply replacement_members; [exact H1|exact H2|exact E1].
Qed.
Lemma assemble_from ck m0 s evs b m s' : run cfg ck m0 s = Ok (evs, b, m, s') ->
  forall i q, populations evs !! i = Some q -> KP q -> forall j q', i <= j -> populations evs !! j = Some q' -> KP q'.
Proof using HX HM. apply run_K_from; [exact assemble_xo|exact assemble_mut|exact assemble_repl]. Qed.
Lemma assemble_safe ck m0 s evs b m s' : run cfg ck m0 s = Ok (evs, b, m, s') ->
  (forall r raw r', generate psize r = Ok (raw, r') -> KP raw) ->
  (forall e x, e ∈ evs -> mentions e x -> K (chromosome x)) /\ K (chromosome b).
Proof using HX HM.
  intros H Hg. refine (run_K cfg K assemble_xo assemble_mut assemble_repl _ _ _ _ _ _ _ H _).
  intros raw s1 E. cbn [op_generate assemble population_size] in E. apply obind_Ok in E as ([pop r] & E1 & E). injection E as <- _. eauto.
Qed.
End Safe.

Section Live.
Hypothesis HX : forall a b r, K (chromosome a) -> K (chromosome b) ->
  exists c d r', crossover_single xo a b r = Ok ((c, d), r') /\ K (chromosome c) /\ K (chromosome d).
Hypothesis HM : forall ch r t, K ch -> exists ch' r' t', mut ch r t = Ok (ch', r', t') /\ K ch'.
Hypothesis HG : forall r, exists raw r', generate psize r = Ok (raw, r') /\ length raw = psize /\ KP raw.
Hypothesis Hfit : forall ch, K ch -> is_nan (fit ch) = false.
Hypothesis Hpos : 0 < psize.
Hypothesis Heven : Nat.even psize = true.
Hypothesis Hsel : fills_pool sel size psize fit K.

Let Kid (x : individual G) := K (chromosome x) /\ is_nan (fitness x) = false.
Let Inv (q : list (individual G)) := length q = psize /\ Forall Kid q.

Lemma assemble_well_behaved : well_behaved cfg Inv Inv Kid psize.
Proof using All.
  split.
  - intros q [_ HF]. eapply Forall_impl; [exact HF|]. intros x [_ Hx]. exact Hx.
  - exact Hpos.
  - intros s. destruct (HG (st_gen s)) as (raw & r' & E & Hl & HF). cbn [op_generate assemble population_size]. rewrite E. cbn [mbind outcome_bind].
    eexists _, _. split; [reflexivity|]. split; [intros ->; cbn in Hl; lia|]. split; [unfold eval_pop; rewrite fmap_length; exact Hl|].
    apply Forall_fmap. eapply Forall_impl; [exact HF|]. intros x Hx. split; [exact Hx|apply Hfit; exact Hx].
  - intros m pop s HI Hev. destruct (Hsel m pop (st_sel s)) as (idx & r' & E & Hl & Hb); [exact (proj1 HI)| |].
    { destruct HI as [_ HF]. rewrite Forall_forall in HF, Hev. apply Forall_forall. intros x Hx. split; [exact (proj1 (HF x Hx))|exact (Hev x Hx)]. }
    cbn [op_select assemble]. rewrite E. cbn [mbind outcome_bind].
    eexists _, _. split; [reflexivity|]. destruct (omapM_index_ok pop idx Hb) as [pool Hp]. exists pool. split; [exact Hp|]. apply omapM_index_Forall2_inv in Hp.
    destruct HI as [_ HF]. split; [apply Forall2_length in Hp; congruence|].
    clear -Hp HF. induction Hp as [|i x sel pool Hi Hp IH]; constructor; [|exact IH]. rewrite Forall_forall in HF. apply HF. eapply elem_of_list_lookup_2; eauto.
  - intros m pool s [Hl HF]. cbn [op_crossover assemble].
    destruct (crossover_apply_ok (crossover_single xo) Kid pool (st_xo s)) as (out & r' & E); [exact HF|rewrite Hl; exact Heven| |].
    { intros a b r [Ha _] [Hb _]. destruct (HX a b r Ha Hb) as (c & d & r' & E & _). eauto. }
    rewrite E. cbn [mbind outcome_bind]. eexists _, _. split; [reflexivity|]. split.
    + destruct (crossover_apply_pairs _ _ _ _ _ E) as [Hlen _]. congruence.
    + eapply crossover_apply_post; [exact HF| |exact E]. intros a b r c d r1 [Ha Ha2] [Hb Hb2] E1.
      destruct (HX a b r Ha Hb) as (c' & d' & r2 & E2 & Hc & Hd). destruct (xo_fitness _ _ _ _ _ _ _ E1 Ha2 Hb2) as [F1 F2].
      rewrite E1 in E2. injection E2 as -> -> ->. unfold Kid. auto.
  - intros m c s [Hc Hn]. cbn [op_mutate assemble]. unfold mutate_individual. destruct (HM (chromosome c) (st_mut s) (st_thread s) Hc) as (ch' & r' & t' & E & HK). rewrite E.
    cbn [mbind outcome_bind]. eexists _, _. split; [reflexivity|]. split; [exact HK|exact Hn].
  - intros c [Hc _]. split; [exact Hc|apply Hfit; exact Hc].
  - intros m pop ch s [Hl HF] Hlc HFc. cbn [op_replace assemble population_size].
    assert (Hr : exists pop', replacement_fn repl pop ch = Ok pop' /\ length pop' = psize).
    { destruct repl as [| |debug]; cbn [replacement_fn].
      - exists ch. split; [reflexivity|exact Hlc].
      - exists pop. split; [reflexivity|exact Hl].
      - destruct (weak_parent_spec debug pop ch) as (pop' & E & Hlp & _).
        + intros ->. cbn in Hl. lia.
        + congruence.
        + intros _. rewrite Hl. apply Nat.even_spec in Heven as [k ->]. rewrite Nat.mul_comm. apply Nat.mod_mul. lia.
        + eapply Forall_impl; [exact HF|]. intros x [_ Hx]. exact Hx.
        + eapply Forall_impl; [exact HFc|]. intros x [_ Hx]. exact Hx.
        + exists pop'. split; [exact E|congruence]. }
    destruct Hr as (pop' & E & Hlp). rewrite E. cbn [mbind outcome_bind]. eexists _, _. split; [reflexivity|]. split; [exact Hlp|].
    split; [unfold eval_pop; rewrite fmap_length; exact Hlp|]. apply Forall_fmap. pose proof (replacement_members Kid _ _ _ HF HFc E) as Hk.
    eapply Forall_impl; [exact Hk|]. intros x [Hx _]. split; [exact Hx|apply Hfit; exact Hx].
Qed.
Lemma assemble_live ck m0 s : exists evs b m s', run cfg ck m0 s = Ok (evs, b, m, s').
Proof using All. eapply run_ok. exact assemble_well_behaved. Qed.
End Live.
End Assembled.

(** Random, UniqueRandom, Rank, RankR and Tournament fill the pool whatever the fitness values, as long as they can be compared. *)
Section LiveK.
Context {G : Type} `{EqDecision G}.
Lemma dependable_fills sel size psize (fit : list G -> f64) (K : list G -> Prop) : 0 < psize -> (forall m, size m = psize) -> dependable sel psize ->
  (forall ch, K ch -> is_nan (fit ch) = false) -> fills_pool sel size psize fit K.
Proof using Type.
  intros Hpos Hsize Hsel Hfit m pop r Hl HF. assert (Hne : pop <> []) by (intros ->; cbn in Hl; lia).
  assert (Hc : comparable pop) by (eapply Forall_impl; [exact HF|]; intros x [Hk Hx]; cbn beta; rewrite Hx; apply Hfit, Hk).
  unfold select_fn. rewrite Hsize. destruct (selection_counts pop psize r) as (S1 & S2 & S3 & S4 & S5 & _).
  destruct sel; cbn [dependable] in Hsel; try contradiction.
  - destruct (S1 kind) as [_ (i & r' & E & H1 & H2)]; eauto.
  - destruct S2 as [_ (i & r' & E & H1 & H2)]; [lia|eauto].
  - destruct S3 as [_ (i & r' & E & H1 & H2)]; eauto.
  - destruct (S4 r0) as [_ (i & r' & E & H1 & H2)]; [tauto|tauto|exact Hne|eauto].
  - destruct (S5 factor) as (i & r' & E & H1 & H2); [tauto|split; tauto|exact Hne|rewrite Hl; tauto|exact Hc|eauto].
Qed.
Lemma live_K psize glimit duration (fit : list G -> f64) generate sel size xo mut repl (K : list G -> Prop) :
  (forall a b r, K (chromosome a) -> K (chromosome b) -> exists c d r', crossover_single xo a b r = Ok ((c, d), r') /\ K (chromosome c) /\ K (chromosome d)) ->
  (forall ch r t, K ch -> exists ch' r' t', mut ch r t = Ok (ch', r', t') /\ K ch') ->
  (forall r, exists raw r', generate psize r = Ok (raw, r') /\ length raw = psize /\ Forall (fun x => K (chromosome x)) raw) ->
  (forall ch, K ch -> is_nan (fit ch) = false) -> 0 < psize -> Nat.even psize = true -> (forall m, size m = psize) -> dependable sel psize ->
  forall ck m0 s, exists evs b m s', run (assemble psize glimit duration fit generate sel size xo mut repl) ck m0 s = Ok (evs, b, m, s').
Proof using Type. intros HX HM HG Hfit Hpos Heven Hsize Hsel. apply (assemble_live _ _ _ _ _ _ _ _ _ _ K); auto. apply dependable_fills; auto. Qed.
End LiveK.

(** ** Permutation solvers *)
Section Permutations.
Context {G : Type} `{EqDecision G}.
Lemma gen_permutations_spec (genes : list G) n r : exists raw r', gen_permutations genes n r = Ok (raw, r') /\ length raw = n /\ Forall (fun x => chromosome x ≡ₚ genes) raw.
Proof using Type.
  unfold gen_permutations. destruct (random_permutations_spec (RandomPermutations genes r) n) as (pop & g' & -> & Hl & _ & HF). cbn [mbind outcome_bind].
  eexists _, _. split; [reflexivity|]. split; [exact Hl|]. eapply Forall_impl; [exact HF|]. intros x [Hx _]. exact Hx.
Qed.
Lemma permutation_solver_safe psize glimit duration fit (genes : list G) sel size xo mop repl ck m0 s evs b m s' :
  NoDup genes -> order_based xo = true -> enough_fuel xo (length genes) ->
  run (assemble psize glimit duration fit (gen_permutations genes) sel size xo (mutation_fn mop) repl) ck m0 s = Ok (evs, b, m, s') ->
  (forall e x, e ∈ evs -> mentions e x -> chromosome x ≡ₚ genes) /\ chromosome b ≡ₚ genes.
Proof using Type.
  intros Hnd Ho Hf H. refine (assemble_safe _ _ _ _ _ _ _ _ _ _ (fun ch => ch ≡ₚ genes) _ _ _ _ _ _ _ _ _ H _).
  - intros a c r d e r' Ha Hb E. exact (xo_perm xo a c r d e r' genes Ho Hf Hnd Ha Hb E).
  - intros ch r t ch' r' t' Hch E. apply mutation_perm in E. rewrite E. exact Hch.
  - intros r raw r' E. destruct (gen_permutations_spec genes psize r) as (raw2 & r2 & E2 & _ & HF). rewrite E in E2. injection E2 as -> _. exact HF.
Qed.
Lemma permutation_solver_returns psize glimit duration fit (genes : list G) sel size xo mop repl ck m0 s :
  NoDup genes -> genes <> [] -> order_based xo = true -> enough_fuel xo (length genes) ->
  0 < psize -> Nat.even psize = true -> (forall m, size m = psize) -> dependable sel psize -> (forall ch, is_nan (fit ch) = false) ->
  exists evs b m s', run (assemble psize glimit duration fit (gen_permutations genes) sel size xo (mutation_fn mop) repl) ck m0 s = Ok (evs, b, m, s').
Proof using Type.
  intros Hnd Hne Ho Hf Hp He Hs Hd Hn. assert (Hl : 0 < length genes) by (destruct genes; [congruence|cbn; lia]).
  apply (live_K _ _ _ _ _ _ _ _ _ _ (fun ch => ch ≡ₚ genes)); auto.
  - intros a c r Ha Hb. apply xo_perm_ok; auto.
  - intros ch r t Hch. destruct (mutation_ok mop ch r t) as (ch' & r' & t' & E & P); [rewrite Hch; exact Hl|]. exists ch', r', t'. split; [exact E|]. rewrite P. exact Hch.
  - intros r. apply gen_permutations_spec.
Qed.

(** ** Where genes come from *)
Lemma solver_loci psize glimit duration fit generate sel size xo repl ck m0 s evs b m s' :
  order_based xo = false ->
  run (assemble psize glimit duration fit generate sel size xo (mutation_fn MutIdentity) repl) ck m0 s = Ok (evs, b, m, s') ->
  forall i q, populations evs !! i = Some q ->
  forall j q' x l (g : G), i <= j -> populations evs !! j = Some q' -> x ∈ q' -> carries x l g -> exists y, y ∈ q /\ carries y l g.
Proof using Type.
  intros Ho H i q Hq j q' x l g Hij Hq' Hx Hc.
  set (K := fun ch : list G => forall l g, ch !! l = Some g -> exists y, y ∈ q /\ carries y l g).
  assert (HF : Forall (fun x => K (chromosome x)) q').
  { refine (assemble_from _ _ _ _ _ _ _ _ _ _ K _ _ _ _ _ _ _ _ _ H i q Hq _ j q' Hij Hq').
    - intros a c r d e r' Ha Hb E. pose proof (xo_loci _ _ _ _ _ _ _ Ho E) as Hloc. split; intros l1 g1 H1; (destruct (Hloc l1 g1) as [Hx1|Hx1]; [cbn [fst snd]; auto|apply Ha; exact Hx1|apply Hb; exact Hx1]).
    - intros ch r t ch' r' t' HK E. injection E as <- _ _. exact HK.
    - apply Forall_forall. intros y Hy l1 g1 H1. exists y. auto. }
  rewrite Forall_forall in HF. apply (HF x Hx l g Hc).
Qed.
Lemma solver_genes psize glimit duration fit generate sel size xo mop repl ck m0 s evs b m s' :
  run (assemble psize glimit duration fit generate sel size xo (mutation_fn mop) repl) ck m0 s = Ok (evs, b, m, s') ->
  forall i q, populations evs !! i = Some q ->
  forall j q' x (g : G), i <= j -> populations evs !! j = Some q' -> x ∈ q' -> g ∈ chromosome x -> exists y, y ∈ q /\ g ∈ chromosome y.
Proof using Type.
  intros H i q Hq j q' x g Hij Hq' Hx Hg.
  set (K := fun ch : list G => forall g, g ∈ ch -> exists y, y ∈ q /\ g ∈ chromosome y).
  assert (HF : Forall (fun x => K (chromosome x)) q').
  { refine (assemble_from _ _ _ _ _ _ _ _ _ _ K _ _ _ _ _ _ _ _ _ H i q Hq _ j q' Hij Hq').
    - intros a c r d e r' Ha Hb E. pose proof (xo_genes _ _ _ _ _ _ _ E) as Hloc. split; intros g1 H1; (destruct (Hloc g1) as [Hx1|Hx1]; [cbn [fst snd]; auto|apply Ha; exact Hx1|apply Hb; exact Hx1]).
    - intros ch r t ch' r' t' HK E g1 H1. apply mutation_perm in E. apply HK. rewrite <- E. exact H1.
    - apply Forall_forall. intros y Hy g1 H1. exists y. auto. }
  rewrite Forall_forall in HF. apply (HF x Hx g Hg).
Qed.
(** Everything handed to the probe, and the result, is made of genes of the initial population. *)
Lemma solver_initial psize glimit duration fit generate sel size xo mop repl ck m0 s evs b m s' :
  run (assemble psize glimit duration fit generate sel size xo (mutation_fn mop) repl) ck m0 s = Ok (evs, b, m, s') ->
  exists q0, head (populations evs) = Some q0 /\
  forall x, (x = b \/ exists e, e ∈ evs /\ mentions e x) ->
  (forall g : G, g ∈ chromosome x -> exists y, y ∈ q0 /\ g ∈ chromosome y) /\
  (order_based xo = false -> mop = MutIdentity -> forall l (g : G), carries x l g -> exists y, y ∈ q0 /\ carries y l g).
Proof using Type.
  intros H. pose proof (run_flow _ _ _ _ _ _ _ _ H) as (raw & s0 & ss & _ & Hh & _). eexists. split; [exact Hh|].
  destruct (run_members _ _ _ _ _ _ _ _ H) as [H1 H2]. intros x Hx.
  assert (Hq : exists q, q ∈ populations evs /\ x ∈ q) by (destruct Hx as [->|(e & He & Hm)]; [exact H2|eapply H1; eauto]).
  destruct Hq as (q & Hq & Hxq). apply elem_of_list_lookup in Hq as [j Hj]. rewrite head_lookup in Hh. split.
  - intros g Hg. eapply (solver_genes _ _ _ _ _ _ _ _ _ _ _ _ _ _ _ _ _ H 0 _ Hh j q x g); [lia|exact Hj|exact Hxq|exact Hg].
  - intros Ho -> l g Hc. eapply (solver_loci _ _ _ _ _ _ _ _ _ _ _ _ _ _ _ _ Ho H 0 _ Hh j q x l g); [lia|exact Hj|exact Hxq|exact Hc].
Qed.

(** ** Equal parents *)
Lemma xo_same xo (a b : individual G) r c d r' ch : order_based xo = false -> chromosome a = ch -> chromosome b = ch ->
  crossover_single xo a b r = Ok ((c, d), r') -> chromosome c = ch /\ chromosome d = ch.
Proof using Type.
  intros Ho Ha Hb E. pose proof (xo_loci _ _ _ _ _ _ _ Ho E) as Hloc. rewrite Ha, Hb in Hloc.
  assert (Hlen : length (chromosome c) = length ch /\ length (chromosome d) = length ch).
  { destruct (decide (0 < length ch)) as [Hl|Hl].
    - assert (Hk : cuts_fit xo (length ch)).
      { destruct xo; cbn [cuts_fit]; auto. cbn [crossover_single] in E. apply lift_single_Ok in E as (E & _). unfold multi_point in E.
        apply obind_Ok in E as ([] & _ & E). apply obind_Ok in E as ([] & E2 & E). apply rassert_Ok, bool_decide_eq_true in E2.
        apply obind_Ok in E as ([] & E3 & E). apply rassert_Ok, bool_decide_eq_true in E3. rewrite Ha in E2. auto. }
      destruct (xo_length_ok xo a b r (length ch) Ho Hk Hl) as (c2 & d2 & r2 & E2 & H1 & H2); [congruence|congruence|].
      rewrite E in E2. injection E2 as -> -> _. auto.
    - destruct ch as [|x xs]; [|cbn in Hl; lia]. split.
      + destruct (chromosome c) as [|y ys] eqn:Ec; [reflexivity|]. destruct (Hloc 0 y) as [Hx|Hx]; [left; reflexivity|discriminate|discriminate].
      + destruct (chromosome d) as [|y ys] eqn:Ed; [reflexivity|]. destruct (Hloc 0 y) as [Hx|Hx]; [right; reflexivity|discriminate|discriminate]. }
  assert (Hpre : forall c' : list G, length c' = length ch -> (forall l g, c' !! l = Some g -> ch !! l = Some g) -> c' = ch).
  { intros c' Hl Hp. apply list_eq. intros l. destruct (c' !! l) as [g|] eqn:El; [symmetry; auto|]. apply lookup_ge_None in El. symmetry. apply lookup_ge_None. lia. }
  split; apply Hpre; try tauto; intros l g Hg; destruct (Hloc l g); cbn [fst snd]; auto.
Qed.
Lemma solver_converged psize glimit duration fit generate sel size xo repl ck m0 s evs b m s' :
  order_based xo = false ->
  run (assemble psize glimit duration fit generate sel size xo (mutation_fn MutIdentity) repl) ck m0 s = Ok (evs, b, m, s') ->
  forall i q (ch : list G), populations evs !! i = Some q -> Forall (fun x => chromosome x = ch) q ->
  forall j q', i <= j -> populations evs !! j = Some q' -> Forall (fun x => chromosome x = ch) q'.
Proof using Type.
  intros Ho H i q ch Hq HF j q' Hij Hq'.
  refine (assemble_from _ _ _ _ _ _ _ _ _ _ (fun x => x = ch) _ _ _ _ _ _ _ _ _ H i q Hq HF j q' Hij Hq').
  - intros a c r d e r' Ha Hb E. exact (xo_same xo a c r d e r' ch Ho Ha Hb E).
  - intros c r t ch' r' t' HK E. injection E as <- _ _. exact HK.
Qed.

(** ** Solvers over chromosomes of one length *)
Lemma fixed_length_safe psize glimit duration fit generate sel size xo (mut : list G -> rng -> rng -> outcome (list G * rng * rng)) repl dim ck m0 s evs b m s' :
  (forall r raw r', generate psize r = Ok (raw, r') -> Forall (fun x => length (chromosome x) = dim) raw) ->
  (forall ch r t ch' r' t', mut ch r t = Ok (ch', r', t') -> length ch' = length ch) ->
  order_based xo = false -> 0 < dim ->
  run (assemble psize glimit duration fit generate sel size xo mut repl) ck m0 s = Ok (evs, b, m, s') ->
  (forall e x, e ∈ evs -> mentions e x -> length (chromosome x) = dim) /\ length (chromosome b) = dim.
Proof using Type.
  intros Hg Hm Ho Hd H. refine (assemble_safe _ _ _ _ _ _ _ _ _ _ (fun ch => length ch = dim) _ _ _ _ _ _ _ _ _ H Hg).
  - intros a c r d e r' Ha Hb E.
    assert (Hk : cuts_fit xo dim).
    { destruct xo; cbn [cuts_fit]; auto. cbn [crossover_single] in E. apply lift_single_Ok in E as (E & _). unfold multi_point in E.
      apply obind_Ok in E as ([] & _ & E). apply obind_Ok in E as ([] & E2 & E). apply rassert_Ok, bool_decide_eq_true in E2.
      apply obind_Ok in E as ([] & E3 & E). apply rassert_Ok, bool_decide_eq_true in E3. rewrite Ha in E2. auto. }
    destruct (xo_length_ok xo a c r dim Ho Hk Hd Ha Hb) as (c2 & d2 & r2 & E2 & H1 & H2). rewrite E in E2. injection E2 as -> -> _. auto.
  - intros ch r t ch' r' t' HK E. apply Hm in E. congruence.
Qed.
Lemma fixed_length_returns psize glimit duration fit generate sel size xo (mut : list G -> rng -> rng -> outcome (list G * rng * rng)) repl dim ck m0 s :
  (forall r, exists raw r', generate psize r = Ok (raw, r') /\ length raw = psize /\ Forall (fun x => length (chromosome x) = dim) raw) ->
  (forall ch r t, length ch = dim -> exists ch' r' t', mut ch r t = Ok (ch', r', t') /\ length ch' = dim) ->
  order_based xo = false -> cuts_fit xo dim -> 0 < dim ->
  0 < psize -> Nat.even psize = true -> (forall m, size m = psize) -> dependable sel psize -> (forall ch, is_nan (fit ch) = false) ->
  exists evs b m s', run (assemble psize glimit duration fit generate sel size xo mut repl) ck m0 s = Ok (evs, b, m, s').
Proof using Type.
  intros Hg Hm Ho Hk Hd Hp He Hs Hde Hn. apply (live_K _ _ _ _ _ _ _ _ _ _ (fun ch => length ch = dim)); auto.
  intros a c r Ha Hb. apply xo_length_ok; auto.
Qed.
End Permutations.

(** ** The library's generators and mutations *)
Lemma gen_bits_spec dim n r : 0 < dim -> exists raw r', gen_bits dim n r = Ok (raw, r') /\ length raw = n /\ Forall (fun x => length (chromosome x) = dim) raw.
Proof.
  intros Hd. unfold gen_bits, bit_strings_with_rng. rewrite bool_decide_eq_true_2 by lia. cbn [rassert mbind outcome_bind].
  destruct (bit_strings_spec (BitStrings dim r) n) as (pop & g' & E & Hl & _ & HF). rewrite E. eexists _, _. split; [reflexivity|]. split; [exact Hl|].
  eapply Forall_impl; [exact HF|]. intros x [Hx _]. exact Hx.
Qed.
Lemma gen_points_spec kind cs n r : cs <> [] -> exists raw r', gen_points kind cs n r = Ok (raw, r') /\ length raw = n /\ Forall (fun x => length (chromosome x) = length cs) raw.
Proof.
  intros Hd. unfold gen_points, random_points_with_constraints. rewrite (bool_decide_eq_true_2 (0 < length cs)) by (destruct cs; [congruence|cbn; lia]).
  rewrite (bool_decide_eq_true_2 (length cs = length cs)) by reflexivity. cbn [rassert mbind outcome_bind].
  destruct (random_points_generate_spec kind (RandomPoints (length cs) cs r) n eq_refl) as (pop & g' & E & Hl & _ & _ & HF). rewrite E. cbn [mbind outcome_bind].
  eexists _, _. split; [reflexivity|]. split; [exact Hl|]. eapply Forall_impl; [exact HF|]. intros x [Hx _]. exact Hx.
Qed.
Lemma gen_bits_length dim n r raw r' : gen_bits dim n r = Ok (raw, r') -> Forall (fun x => length (chromosome x) = dim) raw.
Proof.
  intros E. destruct (decide (0 < dim)) as [Hd|Hd].
  - destruct (gen_bits_spec dim n r Hd) as (raw2 & r2 & E2 & _ & HF). rewrite E in E2. injection E2 as -> _. exact HF.
  - unfold gen_bits, bit_strings_with_rng in E. rewrite bool_decide_eq_false_2 in E by exact Hd. discriminate.
Qed.
Lemma gen_points_length kind cs n r raw r' : gen_points kind cs n r = Ok (raw, r') -> Forall (fun x => length (chromosome x) = length cs) raw.
Proof.
  intros E. destruct cs as [|c cs]; [discriminate|].
  destruct (gen_points_spec kind (c :: cs) n r ltac:(discriminate)) as (raw2 & r2 & E2 & _ & HF). rewrite E in E2. injection E2 as -> _. exact HF.
Qed.
Lemma mutation_length {G} mop (ch : list G) r t ch' r' t' : mutation_fn mop ch r t = Ok (ch', r', t') -> length ch' = length ch.
Proof. intros E. apply mutation_perm in E. rewrite E. reflexivity. Qed.
Lemma mutation_length_ok {G} mop (ch : list G) r t dim : 0 < dim -> length ch = dim -> exists ch' r' t', mutation_fn mop ch r t = Ok (ch', r', t') /\ length ch' = dim.
Proof.
  intros Hd Hl. destruct (mutation_ok mop ch r t) as (ch' & r' & t' & E & P); [lia|]. exists ch', r', t'. split; [exact E|]. rewrite P. exact Hl.
Qed.
Lemma flip_length rate ch r t ch' r' t' : flip_bit rate ch r t = Ok (ch', r', t') -> length ch' = length ch.
Proof. intros E. destruct (flip_bit_spec rate ch r t) as (c2 & r2 & E2 & Hl & _). rewrite E in E2. injection E2 as -> _ _. exact Hl. Qed.
Lemma flip_length_ok rate (ch : list bool) r t dim : length ch = dim -> exists ch' r' t', flip_bit rate ch r t = Ok (ch', r', t') /\ length ch' = dim.
Proof. intros Hl. destruct (flip_bit_spec rate ch r t) as (c2 & r2 & E2 & Hl2 & _). exists c2, r2, t. split; [exact E2|congruence]. Qed.

Lemma bit_solver psize glimit duration fit dim sel size xo (mut : list bool -> rng -> rng -> outcome (list bool * rng * rng)) repl ck m0 s :
  ((exists mop, mut = mutation_fn mop) \/ (exists rate, mut = flip_bit rate)) -> order_based xo = false -> 0 < dim ->
  (cuts_fit xo dim -> 0 < psize -> Nat.even psize = true -> (forall m, size m = psize) -> dependable sel psize -> (forall ch, is_nan (fit ch) = false) ->
    exists evs b m s', run (assemble psize glimit duration fit (gen_bits dim) sel size xo mut repl) ck m0 s = Ok (evs, b, m, s')) /\
  (forall evs b m s', run (assemble psize glimit duration fit (gen_bits dim) sel size xo mut repl) ck m0 s = Ok (evs, b, m, s') ->
    (forall e x, e ∈ evs -> mentions e x -> length (chromosome x) = dim) /\ length (chromosome b) = dim).
Proof.
  intros Hmut Ho Hd. split.
  - intros Hk Hp He Hs Hde Hn. eapply fixed_length_returns; eauto.
    + intros r. apply gen_bits_spec. exact Hd.
    + intros ch r t Hl. destruct Hmut as [[mop ->]|[rate ->]]; [apply mutation_length_ok; auto|apply flip_length_ok; auto].
  - intros evs b m s' H. eapply fixed_length_safe; [| |exact Ho|exact Hd|exact H].
    + intros r raw r' E. eapply gen_bits_length; eauto.
    + intros ch r t ch' r' t' E. destruct Hmut as [[mop ->]|[rate ->]]; [eapply mutation_length; eauto|eapply flip_length; eauto].
Qed.
Lemma point_solver `{EqDecision f64} psize glimit duration fit kind cs sel size xo mop repl ck m0 s :
  order_based xo = false -> cs <> [] ->
  (cuts_fit xo (length cs) -> 0 < psize -> Nat.even psize = true -> (forall m, size m = psize) -> dependable sel psize -> (forall ch, is_nan (fit ch) = false) ->
    exists evs b m s', run (assemble psize glimit duration fit (gen_points kind cs) sel size xo (mutation_fn mop) repl) ck m0 s = Ok (evs, b, m, s')) /\
  (forall evs b m s', run (assemble psize glimit duration fit (gen_points kind cs) sel size xo (mutation_fn mop) repl) ck m0 s = Ok (evs, b, m, s') ->
    (forall e x, e ∈ evs -> mentions e x -> length (chromosome x) = length cs) /\ length (chromosome b) = length cs).
Proof.
  intros Ho Hc. assert (Hd : 0 < length cs) by (destruct cs; [congruence|cbn; lia]). split.
  - intros Hk Hp He Hs Hde Hn. eapply fixed_length_returns; eauto.
    + intros r. apply gen_points_spec. exact Hc.
    + intros ch r t Hl. apply mutation_length_ok; auto.
  - intros evs b m s' H. eapply fixed_length_safe; [| |exact Ho|exact Hd|exact H].
    + intros r raw r' E. eapply gen_points_length; eauto.
    + intros ch r t ch' r' t' E. eapply mutation_length; eauto.
Qed.
