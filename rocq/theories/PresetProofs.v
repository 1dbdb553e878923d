(** * The solvers returned by the preset builders, run end to end *)
From Verif Require Import BuilderModel BuilderSpec BuilderProofs GaSpec GaProofs CrossoverSpec CrossoverProofs MutationProofs
  SelectionSpec SelectionProofs SelectionRProofs F64R PopulationSpec PopulationProofs PresetSpec.
From Coq Require Import Reals Lra.
From Flocq Require Import Core BinarySingleNaN.
Open Scope nat_scope.

(** ** Invariants of everything shown to the probe *)
Section Invariant.
Context {G St : Type} (cfg : config G St).

Lemma shown_population ck m0 s evs b m s' e q : run cfg ck m0 s = Ok (evs, b, m, s') -> e ∈ evs -> shown e = Some q -> q ∈ populations evs.
Proof.
  intros H He Hq.
  pose proof (run_gens cfg _ _ _ _ _ _ _ H) as (m1 & m2 & pop0 & best0 & gens & Eev & _).
  assert (Hin : forall best r, r ∈ gens -> gr_pop r ∈ omap population_of (loop_trace best gens)).
  { clear. intros best r Hr. revert best. induction gens as [|r0 rest IH]; intros best; [inversion Hr|].
    rewrite loop_trace_cons, omap_app. apply elem_of_app. apply elem_of_cons in Hr as [->|Hr]; [left|right; apply IH; exact Hr].
    cbn [loop_trace omap list_omap population_of app]. left. }
  unfold populations. rewrite Eev in He |- *. rewrite !omap_app. cbn [omap list_omap population_of].
  apply elem_of_app in He as [He|He]; [|apply elem_of_app in He as [He|He]].
  - apply elem_of_app. left. repeat (apply elem_of_cons in He as [->|He]; [first [discriminate Hq|injection Hq as <-; left]|]). inversion He.
  - apply elem_of_app. right. apply elem_of_app. left. destruct (shown_trace _ _ _ _ He Hq) as (r & Hr & ->). apply Hin. exact Hr.
  - apply elem_of_list_singleton in He as ->. injection Hq as <-. destruct (final_pop_in pop0 gens) as [-> | (r & Hr & ->)].
    + apply elem_of_app. left. left.
    + apply elem_of_app. right. apply elem_of_app. left. apply Hin. exact Hr.
Qed.

Lemma run_invariant (K : list (individual G) -> Prop) ck m0 s evs b m s' : run cfg ck m0 s = Ok (evs, b, m, s') ->
  (forall raw s1, op_generate cfg (population_size cfg) s = Ok (raw, s1) -> K (evaluate (op_fitness cfg) raw)) ->
  (forall mm q s1 q' s1', K q -> next_population cfg mm q s1 q' s1' -> K q') ->
  forall e q, e ∈ evs -> shown e = Some q -> K q.
Proof.
  intros H H0 Hstep e q He Hq. pose proof (shown_population _ _ _ _ _ _ _ _ _ H He Hq) as Hin.
  apply elem_of_list_lookup in Hin as [i Hi].
  destruct (run_flow cfg _ _ _ _ _ _ _ H) as (raw & s0 & ss & Hg & Hh & _ & _ & Hls & _ & _ & Hi').
  clear Hq He. revert q Hi. induction i as [|i IH]; intros q Hi.
  - destruct (populations evs) as [|p ps]; [discriminate|]. cbn in Hh, Hi. injection Hh as ->. injection Hi as <-. eapply H0; eauto.
  - assert (i < length (populations evs)) as [p Hp]%lookup_lt_is_Some_2 by (apply lookup_lt_Some in Hi; lia).
    assert (i < length ss) as [s1 Hs1]%lookup_lt_is_Some_2 by (rewrite Hls; apply lookup_lt_Some in Hi; lia).
    assert (S i < length ss) as [s2 Hs2]%lookup_lt_is_Some_2 by (rewrite Hls; apply lookup_lt_Some in Hi; lia).
    destruct (Hi' i p s1 q s2 Hp Hs1 Hi Hs2) as (mm & _ & Hn). eapply Hstep; [apply IH; exact Hp|exact Hn].
Qed.
End Invariant.

Lemma lift_single_ok {G} dim (a b : individual G) r : 0 < dim -> length (chromosome a) = dim -> length (chromosome b) = dim ->
  exists c d r', lift_single single_point a b r = Ok ((c, d), r') /\ length (chromosome c) = dim /\ length (chromosome d) = dim.
Proof.
  intros Hd Ha Hb. destruct (single_point_built (chromosome a) (chromosome b) r) as (cut & [c d] & r' & E & _ & _ & Hbt); [congruence|lia|].
  unfold lift_single. rewrite E. cbn [mbind outcome_bind]. eexists _, _, _. split; [reflexivity|]. cbn [chromosome ind_from].
  destruct Hbt as (Hc & Hd' & _). cbn in Hc, Hd'. split; [etransitivity; [exact Hc|exact Ha]|etransitivity; [exact Hd'|exact Ha]].
Qed.

Lemma single_point_Forall {G} (P : G -> Prop) x y r c d r' : Forall P x -> Forall P y -> single_point x y r = Ok ((c, d), r') -> Forall P c /\ Forall P d.
Proof.
  intros Ha Hb E1. unfold single_point in E1. apply obind_Ok in E1 as ([cut r3] & _ & E1). apply obind_Ok in E1 as ([d1 d2] & C1 & E1). apply obind_Ok in E1 as ([e1 e2] & C2 & E1).
  injection E1 as <- <- <-.
  assert (Hcopy : forall x y lo hi c c', Forall P x -> Forall P y -> Forall P c.1 /\ Forall P c.2 -> copy_loci x y lo hi c = Ok c' -> Forall P c'.1 /\ Forall P c'.2).
  { clear. intros x y lo hi c c' Hx Hy Hc H. unfold copy_loci in H. revert H. apply (ofold_inv (push_locus x y) (fun c => Forall P c.1 /\ Forall P c.2)); [|exact Hc].
    intros u l u' [Hu1 Hu2] _ Hl. unfold push_locus in Hl. apply obind_Ok in Hl as (g1 & G1 & Hl). apply obind_Ok in Hl as (g2 & G2 & Hl). injection Hl as <-.
    apply index_Ok, elem_of_list_lookup_2 in G1. apply index_Ok, elem_of_list_lookup_2 in G2. rewrite Forall_forall in Hx, Hy.
    cbn. split; apply Forall_app; (split; [assumption|constructor; [auto|constructor]]). }
  assert (Forall P (d1, d2).1 /\ Forall P (d1, d2).2) as [D1 D2] by (eapply Hcopy; [exact Ha|exact Hb| |exact C1]; split; constructor).
  eapply Hcopy in C2; [exact C2|exact Hb|exact Ha|split; assumption].
Qed.

(** ** Preset solvers never panic for an even population *)
Section Preset.
Context {G : Type} (p : ga_params) (fit : list G -> f64) (factor : f64) (K : list G -> Prop).
Context (mut : list G -> rng -> rng -> outcome (list G * rng * rng)).
Context (gen : nat -> rng -> outcome (list (individual G) * rng)).
Notation n := (N.to_nat (gp_size p)).
Notation cfg := (preset_run_config p fit factor (gp_size p) mut gen).
Hypothesis Hfit : forall ch, K ch -> F64.is_nan (fit ch) = false.
Hypothesis Hxo : forall a b r, K (chromosome a) -> K (chromosome b) ->
  exists c d r', lift_single single_point a b r = Ok ((c, d), r') /\ K (chromosome c) /\ K (chromosome d).
Hypothesis Hsize : 0 < n /\ (Z.of_nat n <= 2 ^ 53)%Z.
Hypothesis Hfactor : fvalid factor /\ unit_factor factor.
Hypothesis Hmut : forall ch r t, K ch -> exists ch' r' t', mut ch r t = Ok (ch', r', t') /\ K ch'.
Hypothesis Hgen : forall r, exists pop r', gen n r = Ok (pop, r') /\ length pop = n /\ Forall (fun x => K (chromosome x)) pop.

Let Inv (q : list (individual G)) := length q = n /\ Forall (fun x => K (chromosome x)) q.
Let Kid (x : individual G) := K (chromosome x).

Lemma eval_Inv q : Inv q -> Inv (eval_pop cfg q).
Proof.
  intros [H1 H2]. split; [unfold eval_pop; rewrite fmap_length; exact H1|]. apply Forall_fmap. eapply Forall_impl; [exact H2|]. auto.
Qed.

Lemma select_ok pop s : Inv pop -> Forall (fun x => fitness x = fit (chromosome x)) pop ->
  exists sel s', op_select cfg (Metrics 0 0 None) pop s = Ok (sel, s') /\ exists pool, omapM (index pop) sel = Ok pool /\ Inv pool.
Proof.
  intros [H1 H2] Hev. cbn [op_select preset_run_config].
  destruct (tournament_spec factor n pop s.1 (proj1 Hfactor) (proj2 Hfactor)) as (sel & groups & r' & -> & Hl & HF).
  { intros ->. cbn in H1. lia. } { rewrite H1. tauto. }
  { rewrite Forall_forall in Hev, H2. apply Forall_forall. intros x Hx. cbn beta. rewrite (Hev x Hx). apply Hfit. apply H2. exact Hx. }
  cbn [mbind outcome_bind]. eexists _, _. split; [reflexivity|].
  assert (Hs : Forall (fun i => i < length pop) sel).
  { clear -HF. induction HF as [|grp i groups sel (_ & _ & Hg & Hw & _) HF IH]; constructor; [|exact IH]. rewrite Forall_forall in Hg. auto. }
  destruct (omapM_index_ok pop sel Hs) as [pool Hp]. exists pool. split; [exact Hp|]. apply omapM_index_Forall2_inv in Hp. split.
  - apply Forall2_length in Hp. congruence.
  - clear -Hp H2. induction Hp as [|i x sel pool Hi Hp IH]; constructor; [|exact IH]. rewrite Forall_forall in H2. apply H2. eapply elem_of_list_lookup_2; eauto.
Qed.

Lemma preset_well_behaved : Nat.even n = true -> well_behaved cfg Inv Inv Kid n.
Proof.
  intros Heven. split.
  - intros q [_ HF]. unfold eval_pop in HF |- *. rewrite Forall_fmap in HF. rewrite Forall_fmap. eapply Forall_impl; [exact HF|]. intros x Hx. apply Hfit. exact Hx.
  - cbn. tauto.
  - intros s. cbn [op_generate population_size preset_run_config]. destruct (Hgen s.1) as (pop & r' & -> & Hl & HF). cbn [mbind outcome_bind].
    eexists _, _. split; [reflexivity|]. split; [intros ->; cbn in Hl; lia|]. apply eval_Inv. split; auto.
  - intros m pop s HI Hev. exact (select_ok pop s HI Hev).
  - intros m pool s [Hl HF]. cbn [op_crossover preset_run_config].
    destruct (crossover_apply_ok (lift_single single_point) Kid pool s.1) as (out & r' & E); [exact HF|rewrite Hl; exact Heven| |].
    { intros a b r Ha Hb. destruct (Hxo a b r Ha Hb) as (c & d & r' & E & _). eauto. }
    rewrite E. cbn [mbind outcome_bind]. eexists _, _. split; [reflexivity|]. split.
    + destruct (crossover_apply_pairs _ _ _ _ _ E) as [Hlen _]. congruence.
    + eapply crossover_apply_post; [exact HF| |exact E]. intros a b r c d r1 Ha Hb E1.
      destruct (Hxo a b r Ha Hb) as (c' & d' & r2 & E2 & Hc & Hd). rewrite E1 in E2. injection E2 as -> -> ->. auto.
  - intros m c s Hc. cbn [op_mutate preset_run_config]. unfold mutate_individual. destruct (Hmut (chromosome c) s.1 s.2 Hc) as (ch' & r' & t' & -> & Hl).
    cbn [mbind outcome_bind]. eexists _, _. split; [reflexivity|exact Hl].
  - auto.
  - intros m pop ch s HI Hl HF. cbn [op_replace preset_run_config both_parents mbind outcome_bind]. eexists _, _. split; [reflexivity|].
    split; [exact Hl|]. apply eval_Inv. split; auto.
Qed.

(** An odd population makes the crossover of the first generation panic. *)
Lemma preset_odd_panics ck m0 s : Nat.odd n = true -> 0 < N.to_nat (gp_limit p) -> run cfg ck m0 s = Panic.
Proof.
  intros Hodd Hlim. unfold run. cbn [op_generate population_size preset_run_config].
  destruct (Hgen s.1) as (pop & r' & -> & Hl & HF). cbn [mbind outcome_bind].
  assert (HI : Inv (eval_pop cfg pop)) by (apply eval_Inv; split; auto).
  destruct (find_best_ok (eval_pop cfg pop)) as [best Hb].
  { destruct HI as [HI _]. intros E. rewrite E in HI. cbn in HI. lia. }
  { apply Forall_fmap. eapply Forall_impl; [exact HF|]. intros x Hx. apply Hfit. exact Hx. }
  rewrite Hb. cbn [mbind outcome_bind]. cbn [generation_limit preset_run_config].
  destruct (N.to_nat (gp_limit p)) as [|l]; [lia|]. cbn [main_loop]. unfold generation.
  rewrite (eval_pop_idem cfg (eval_pop cfg pop) (eval_pop_evaluated cfg pop)).
  destruct (select_ok (eval_pop cfg pop) (r', s.2) HI (eval_pop_evaluated cfg pop)) as (sel & s' & E & pool & Hp & [Hpl _]).
  change (op_select cfg (Metrics 1 (m_population_size (Metrics (m_generation m0) (length (eval_pop cfg pop)) (Some (c_init ck)))) (Some (c_start ck 1))) (eval_pop cfg pop) (r', s.2))
    with (op_select cfg (Metrics 0 0 None) (eval_pop cfg pop) (r', s.2)).
  rewrite E. cbn [mbind outcome_bind]. rewrite Hp. cbn [mbind outcome_bind].
  cbn [op_crossover preset_run_config]. rewrite crossover_apply_odd by (rewrite Hpl; exact Hodd). reflexivity.
Qed.
End Preset.

(** ** Genes are only moved around by the real-valued solver *)
Lemma next_population_genes {G} (p : ga_params) fit factor count mut gen (P : G -> Prop) mm q s q' s' :
  (forall ch r t ch' r' t', mut ch r t = Ok (ch', r', t') -> Forall P ch -> Forall P ch') ->
  next_population (preset_run_config p fit factor count mut gen) mm q s q' s' -> all_genes P q -> all_genes P q'.
Proof.
  intros Hmut (sel & s1 & pool & ch & s2 & ch' & s3 & raw & _ & Hpool & Hx & Hm & Hr & ->) Hq.
  cbn [op_crossover op_replace op_fitness op_requires_children_fitness preset_run_config both_parents both_parents_requires_fitness mbind outcome_bind] in *.
  injection Hr as <- <-.
  assert (Hpl : all_genes P pool).
  { unfold all_genes in *. clear -Hpool Hq. induction Hpool as [|i x sel pool Hi Hp IH]; constructor; [|exact IH].
    rewrite Forall_forall in Hq. apply Hq. eapply elem_of_list_lookup_2; eauto. }
  assert (Hch : all_genes P ch).
  { apply obind_Ok in Hx as ([out r1] & E & Hx). injection Hx as <- <-. unfold all_genes. eapply crossover_apply_post; [exact Hpl| |exact E].
    intros a b r c d r' Ha Hb E1. cbn beta in *. unfold lift_single in E1. apply obind_Ok in E1 as ([[c1 c2] r2] & E1 & E2). injection E2 as <- <- <-. cbn [chromosome ind_from].
    exact (single_point_Forall P _ _ _ _ _ _ Ha Hb E1). }
  assert (Hch' : all_genes P ch').
  { clear -Hm Hch Hmut. unfold all_genes in *. induction Hm as [|c c' cs cs' t t1 t2 Hc Hm IH]; [constructor|].
    apply Forall_cons in Hch as [Hc0 Hcs]. constructor; [|auto]. cbn [op_mutate preset_run_config] in Hc. unfold mutate_individual in Hc.
    apply obind_Ok in Hc as ([[x r] u] & E & Hc). apply obind_Ok in E as ([[y r1] u1] & E1 & E). injection E as <- <- <-. injection Hc as <- <-.
    cbn [chromosome]. eapply Hmut; eauto. }
  unfold all_genes, evaluate in *. apply Forall_fmap. eapply Forall_impl; [exact Hch'|]. auto.
Qed.

Lemma interchange_genes {G} (P : G -> Prop) rate ch r t ch' r' t' : interchange rate ch r t = Ok (ch', r', t') -> Forall P ch -> Forall P ch'.
Proof.
  intros H. destruct (decide (0 < length ch)) as [Hl|Hl].
  - destruct (interchange_perm rate ch r t Hl) as (c & r1 & t1 & E & Hp). rewrite H in E. injection E as <- <- <-. rewrite Hp. auto.
  - destruct ch; [|cbn in Hl; lia]. rewrite interchange_empty in H. discriminate.
Qed.

Lemma realvalued_genes p fit factor count rate dim ck m0 s evs b m s' :
  run (preset_run_config p fit factor count (interchange rate) (generate_random_points dim)) ck m0 s = Ok (evs, b, m, s') ->
  exists q0 rest, populations evs = q0 :: rest /\ all_genes (fun g => fle f0 g = true /\ flt g f1 = true) q0 /\
    forall e q x g, e ∈ evs -> shown e = Some q -> x ∈ q -> g ∈ chromosome x -> occurs_in g q0.
Proof.
  intros H. destruct (run_flow _ _ _ _ _ _ _ _ H) as (raw & s0 & ss & Hg & Hh & _).
  destruct (populations evs) as [|q0 rest] eqn:Ep; [discriminate|]. cbn in Hh. injection Hh as ->.
  eexists _, _. split; [reflexivity|]. cbn [op_generate population_size op_fitness preset_run_config] in *. split.
  - apply obind_Ok in Hg as ([pop r1] & Hg & E). injection E as <- <-. unfold generate_random_points in Hg.
    apply obind_Ok in Hg as (g & G1 & Hg). apply obind_Ok in Hg as ([pop1 g1] & G2 & Hg). injection Hg as <- <-.
    pose proof (random_points_default _ _ _ _ _ _ _ G1 G2) as HF. unfold all_genes, evaluate. apply Forall_fmap. eapply Forall_impl; [exact HF|]. auto.
  - intros e q x g He Hq Hx Hgx. set (q0 := evaluate fit raw).
    assert (K : all_genes (fun g => occurs_in g q0) q).
    { eapply (run_invariant _ (all_genes (fun g => occurs_in g q0))); [exact H| | |exact He|exact Hq].
      - intros raw' s1 Hg'. cbn [op_generate population_size op_fitness preset_run_config] in *. rewrite Hg in Hg'. injection Hg' as <- <-. fold q0.
        apply Forall_forall. intros y Hy. apply Forall_forall. intros h Hh. exists y. auto.
      - intros mm q1 s1 q2 s2 HK Hn. eapply next_population_genes; [|exact Hn|exact HK]. intros ch r t ch' r' t'. apply interchange_genes. }
    unfold all_genes in K. rewrite Forall_forall in K. specialize (K x Hx). rewrite Forall_forall in K. exact (K g Hgx).
Qed.

(** ** The default tournament never selects the best individual *)
Lemma tournament_size_default len : 10 <= len -> (Z.of_nat len <= 2 ^ 53)%Z -> 2 <= tournament_size f_0_2 len.
Proof.
  intros H10 Hb. destruct (tournament_size_bounds f_0_2 len eq_refl (conj eq_refl eq_refl) ltac:(lia) Hb) as [_ E].
  assert (Hf : (1 / 5 <= f2r f_0_2)%R).
  { unfold f2r, f_0_2. cbn [SF2R cond_Zopp]. unfold F2R. cbn [Fnum Fexp]. change (bpow radix2 (-55)) with (/ IZR (2 ^ 55))%R.
    replace (2 ^ 55)%Z with 36028797018963968%Z by reflexivity. lra. }
  assert (Hr : (2 <= rnd (INR len * f2r f_0_2))%R).
  { assert (E2 : rnd 2 = 2%R).
    { assert (V : fvalid (f_of_nat 2)) by reflexivity. pose proof (rnd_id _ V) as R. destruct (f_of_nat_exact 2) as (_ & _ & En); [lia|]. rewrite En in R. exact R. }
    rewrite <- E2. apply rnd_le. apply le_INR in H10. change (INR 10) with (INR (5 + 5)) in H10. rewrite plus_INR in H10. cbn [INR] in H10. nra. }
  assert (2 <= Zfloor (rnd (INR len * f2r f_0_2)))%Z by (apply Zfloor_lub; exact Hr). lia.
Qed.

Lemma default_tournament_drops_best {G} count (pop : list (individual G)) r sel r' k best :
  10 <= length pop -> (Z.of_nat (length pop) <= 2 ^ 53)%Z -> comparable pop ->
  pop !! k = Some best -> (forall j x, pop !! j = Some x -> j <> k -> flt (fitness best) (fitness x) = true) ->
  tournament f_0_2 count pop r = Ok (sel, r') -> k ∉ sel.
Proof.
  intros H10 Hb Hc Hk Hmin H Hin.
  destruct (tournament_gen f_0_2 count pop r (conj eq_refl eq_refl)) as (sel1 & groups & r1 & E & _ & HF).
  { destruct (tournament_size_bounds f_0_2 (length pop) eq_refl (conj eq_refl eq_refl) ltac:(lia) Hb) as [? _]. lia. } { exact Hc. }
  rewrite H in E. injection E as <- <-.
  apply elem_of_list_lookup in Hin as [i Hi]. destruct (Forall2_lookup_r _ _ _ _ _ HF Hi) as (grp & _ & Hl & Hnd & Hlt & Hw & Hwin).
  pose proof (tournament_size_default (length pop) H10 Hb) as H2. rewrite <- Hl in H2.
  assert (exists j, j ∈ grp /\ j <> k) as (j & Hj & Hjk).
  { destruct grp as [|a [|b' grp]]; cbn in H2; try lia. destruct (decide (a = k)) as [->|]; [|exists a; split; [left|auto]].
    exists b'. split; [right; left|]. apply NoDup_cons in Hnd as [Hnd _]. intros ->. apply Hnd. left. }
  assert (j < length pop) as [x Hx]%lookup_lt_is_Some_2 by (rewrite Forall_forall in Hlt; auto).
  pose proof (Hwin j x best Hj Hx Hk) as Hle. pose proof (Hmin j x Hx Hjk) as Hlt'.
  pose proof (flt_le_trans _ _ _ Hlt' Hle) as F. rewrite flt_irrefl in F. discriminate.
Qed.

(** ** From the builders to the solvers *)
Lemma preset_built {F} checked mut gen (calls : list (preset_call F)) c :
  (b ← ofold (preset_set checked) preset_new calls; preset_build mut gen b) = Ok (inl c) ->
  exists f dim, last_set p_fitnesses calls = Some f /\ last_set p_dims calls = Some dim /\ (0 < dim)%N /\
  c = GAConfig (GAParams (default 100%N (last_set p_sizes calls)) (default (2 ^ 64 - 1)%N (last_set p_limits calls))
                  (default ((2 ^ 64 - 1) * 10 ^ 9 + 999999999)%N (last_set p_durations calls)))
                f mut SinglePointNew (TournamentNew f_0_2 (default 100%N (last_set p_sizes calls))) BothParentsNew (gen dim) StdoutProbeNew.
Proof.
  intros H. pose proof (preset_spec checked mut gen calls) as (P1 & P2 & P3).
  destruct (last_set p_fitnesses calls) as [f|] eqn:Ef; [|rewrite P2 in H by auto; discriminate].
  destruct (last_set p_dims calls) as [dim|] eqn:Ed; [|rewrite P2 in H by auto; discriminate].
  destruct (decide (Exists (p_bad checked) calls)) as [Hb|Hb]; [rewrite P1 in H by exact Hb; discriminate|].
  rewrite <- Forall_Exists_neg in Hb. rewrite (P3 Hb f dim eq_refl eq_refl) in H. injection H as <-.
  exists f, dim. split; [reflexivity|]. split; [reflexivity|]. split; [|reflexivity].
  destruct (preset_configure_ok checked calls Hb preset_new) as [b E]. apply preset_state in E as [_ E]. apply E. exact Ed.
Qed.

Lemma realvalued_end_to_end debug calls dim c cfg :
  realvalued_builder debug calls = Ok (inl c) -> realvalued_solver c = Some cfg -> last_set p_dims calls = Some dim ->
  (forall ch, length ch = N.to_nat dim -> Forall (fun g => finite_f64 g /\ fle f0 g = true /\ flt g f1 = true) ch -> F64.is_nan (gc_fitness c ch) = false) -> (0 < gp_size (gc_params c) <= 2 ^ 53)%N ->
  (N.even (gp_size (gc_params c)) = true -> forall ck m0 s, exists evs b m s', run cfg ck m0 s = Ok (evs, b, m, s')) /\
  (N.odd (gp_size (gc_params c)) = true -> (0 < gp_limit (gc_params c))%N -> forall ck m0 s, run cfg ck m0 s = Panic).
Proof.
  intros Hb Hs Hdim Hf Hsz. destruct (preset_built _ _ _ _ _ Hb) as (f & dim' & _ & Hd' & Hd & ->).
  rewrite Hdim in Hd'. apply (inj Some) in Hd' as <-.
  cbn [realvalued_solver bitstring_solver gc_mutation gc_generator gc_selection gc_params gc_fitness] in Hs. apply (inj Some) in Hs as <-. cbn [gc_params gc_fitness gp_size gp_limit] in *.
  remember (GAParams (default 100%N (last_set p_sizes calls)) (default (2 ^ 64 - 1)%N (last_set p_limits calls)) (default ((2 ^ 64 - 1) * 10 ^ 9 + 999999999)%N (last_set p_durations calls))) as p eqn:Ep.
  assert (Es : default 100%N (last_set p_sizes calls) = gp_size p) by (rewrite Ep; reflexivity).
  assert (El : default (2 ^ 64 - 1)%N (last_set p_limits calls) = gp_limit p) by (rewrite Ep; reflexivity).
  rewrite Es in Hsz |- *. rewrite El. clear Hb Hdim Ep Es El.
  set (K := (fun ch => length ch = N.to_nat dim /\ Forall (fun g => finite_f64 g /\ fle f0 g = true /\ flt g f1 = true) ch)).
  assert (Hf' : forall ch, K ch -> F64.is_nan (f ch) = false) by (intros ch [H1 H2]; auto).
  assert (Hxo : forall (a b : individual f64) r, K (chromosome a) -> K (chromosome b) ->
    exists c d r', lift_single single_point a b r = Ok ((c, d), r') /\ K (chromosome c) /\ K (chromosome d)).
  { intros a b r [Ha1 Ha2] [Hb1 Hb2]. destruct (lift_single_ok (N.to_nat dim) a b r) as (c & d & r' & E & Hc & Hd1); [lia|exact Ha1|exact Hb1|].
    exists c, d, r'. split; [exact E|]. unfold lift_single in E. apply obind_Ok in E as ([[c1 d1] r1] & E1 & E). injection E as <- <- <-. cbn [chromosome ind_from] in *.
    destruct (single_point_Forall _ _ _ _ _ _ _ Ha2 Hb2 E1) as [F1 F2]. split; split; assumption. }
  assert (Hm : forall (ch : list f64) r t, K ch -> exists ch' r' t', interchange f_0_05 ch r t = Ok (ch', r', t') /\ K ch').
  { intros ch r t [Hl HF]. destruct (interchange_perm f_0_05 ch r t) as (ch' & r' & t' & E & Hp); [lia|]. exists ch', r', t'. split; [exact E|]. unfold K. rewrite Hp. auto. }
  assert (Hg : forall r, exists pop r', generate_random_points dim (N.to_nat (gp_size p)) r = Ok (pop, r') /\ length pop = N.to_nat (gp_size p) /\
     Forall (fun x => K (chromosome x)) pop).
  { intros r. unfold generate_random_points. destruct (random_points_with_rng (N.to_nat dim) r) as [g| |] eqn:Eg.
    2, 3: unfold random_points_with_rng in Eg; rewrite bool_decide_eq_true_2 in Eg by lia; discriminate.
    cbn [mbind outcome_bind].
    assert (Eg' : g = RandomPoints (N.to_nat dim) (replicate (N.to_nat dim) (f0, f1)) r).
    { unfold random_points_with_rng in Eg. rewrite bool_decide_eq_true_2 in Eg by lia. cbn [rassert mbind outcome_bind] in Eg. injection Eg as <-. reflexivity. }
    destruct (random_points_generate_spec SharedRng g (N.to_nat (gp_size p))) as (pop & g' & E & Hl & _ & _ & HF).
    { rewrite Eg'. cbn. rewrite replicate_length. reflexivity. }
    pose proof (random_points_default _ _ _ _ _ _ _ Eg E) as HF2.
    assert (HF3 : Forall (fun x => Forall finite_f64 (chromosome x)) pop).
    { apply (random_points_finite _ _ _ _ _ E). rewrite Eg'. cbn [rp_constraints]. apply Forall_forall. intros c Hc. apply elem_of_replicate in Hc as [-> _]. exact proper_unit. }
    rewrite E. cbn [mbind outcome_bind]. eexists _, _. split; [reflexivity|]. split; [exact Hl|].
    rewrite Forall_forall in HF, HF2, HF3 |- *. intros x Hx'. split; [|apply Forall_and; split; [exact (HF3 x Hx')|exact (HF2 x Hx')]]. destruct (HF x Hx') as [Hlx _]. rewrite Hlx, Eg'. reflexivity. }
  assert (S1 : 0 < N.to_nat (gp_size p) /\ (Z.of_nat (N.to_nat (gp_size p)) <= 2 ^ 53)%Z) by lia.
  split.
  - intros He ck m0 s. eapply run_ok. apply (preset_well_behaved p f f_0_2 K); auto.
    + split; [reflexivity|split; reflexivity].
    + apply N.even_spec in He as [k Hk]. apply Nat.even_spec. exists (N.to_nat k). lia.
  - intros Ho Hl ck m0 s. apply (preset_odd_panics p f f_0_2 K); auto.
    + split; [reflexivity|split; reflexivity].
    + apply N.odd_spec in Ho as [k Hk]. apply Nat.odd_spec. exists (N.to_nat k). lia.
    + lia.
Qed.

Lemma bitstring_end_to_end calls dim c cfg :
  bitstring_builder calls = Ok (inl c) -> bitstring_solver c = Some cfg -> last_set p_dims calls = Some dim ->
  (forall ch, length ch = N.to_nat dim -> F64.is_nan (gc_fitness c ch) = false) -> (0 < gp_size (gc_params c) <= 2 ^ 53)%N ->
  (N.even (gp_size (gc_params c)) = true -> forall ck m0 s, exists evs b m s', run cfg ck m0 s = Ok (evs, b, m, s')) /\
  (N.odd (gp_size (gc_params c)) = true -> (0 < gp_limit (gc_params c))%N -> forall ck m0 s, run cfg ck m0 s = Panic).
Proof.
  intros Hb Hs Hdim Hf Hsz. destruct (preset_built _ _ _ _ _ Hb) as (f & dim' & _ & Hd' & Hd & ->).
  rewrite Hdim in Hd'. apply (inj Some) in Hd' as <-.
  cbn [realvalued_solver bitstring_solver gc_mutation gc_generator gc_selection gc_params gc_fitness] in Hs. apply (inj Some) in Hs as <-. cbn [gc_params gc_fitness gp_size gp_limit] in *.
  remember (GAParams (default 100%N (last_set p_sizes calls)) (default (2 ^ 64 - 1)%N (last_set p_limits calls)) (default ((2 ^ 64 - 1) * 10 ^ 9 + 999999999)%N (last_set p_durations calls))) as p eqn:Ep.
  assert (Es : default 100%N (last_set p_sizes calls) = gp_size p) by (rewrite Ep; reflexivity).
  assert (El : default (2 ^ 64 - 1)%N (last_set p_limits calls) = gp_limit p) by (rewrite Ep; reflexivity).
  rewrite Es in Hsz |- *. rewrite El. clear Hb Hdim Ep Es El.
  set (K := (fun ch : list bool => length ch = N.to_nat dim)).
  assert (Hxo : forall (a b : individual bool) r, K (chromosome a) -> K (chromosome b) ->
    exists c d r', lift_single single_point a b r = Ok ((c, d), r') /\ K (chromosome c) /\ K (chromosome d)).
  { intros a b r Ha Hb. apply (lift_single_ok (N.to_nat dim)); [lia|exact Ha|exact Hb]. }
  assert (Hm : forall (ch : list bool) r t, length ch = N.to_nat dim -> exists ch' r' t', flip_bit f_0_05 ch r t = Ok (ch', r', t') /\ length ch' = N.to_nat dim).
  { intros ch r t Hl. destruct (flip_bit_spec f_0_05 ch r t) as (ch' & r' & E & Hp & _). exists ch', r', t. split; [exact E|]. congruence. }
  assert (Hg : forall r, exists pop r', generate_bit_strings dim (N.to_nat (gp_size p)) r = Ok (pop, r') /\ length pop = N.to_nat (gp_size p) /\
     Forall (fun x => length (chromosome x) = N.to_nat dim) pop).
  { intros r. unfold generate_bit_strings, bit_strings_with_rng. rewrite bool_decide_eq_true_2 by lia. cbn [rassert mbind outcome_bind].
    unfold bit_strings_generate. cbn [bs_dim bs_rng]. destruct (repeatM (N.to_nat (gp_size p)) (repeatM (N.to_nat dim) gen_bool) r) as [rows r1] eqn:E.
    eexists _, _. split; [reflexivity|]. rewrite individuals_length. split; [eapply repeatM_length; exact E|].
    assert (HF : Forall (fun row => length row = N.to_nat dim) rows).
    { eapply (proj2 (repeatM_Forall _ (fun row => length row = N.to_nat dim) _ _ _ _ _ E)).
      Unshelve. intros r0. destruct (repeatM (N.to_nat dim) gen_bool r0) as [l r2] eqn:E0. cbn. eapply repeatM_length; exact E0. }
    apply (individuals_props (fun ch => length ch = N.to_nat dim)) in HF. eapply Forall_impl; [exact HF|]. intros x [Hx _]. exact Hx. }
  assert (S1 : 0 < N.to_nat (gp_size p) /\ (Z.of_nat (N.to_nat (gp_size p)) <= 2 ^ 53)%Z) by lia.
  split.
  - intros He ck m0 s. eapply run_ok. apply (preset_well_behaved p f f_0_2 K); auto.
    + split; [reflexivity|split; reflexivity].
    + apply N.even_spec in He as [k Hk]. apply Nat.even_spec. exists (N.to_nat k). lia.
  - intros Ho Hl ck m0 s. apply (preset_odd_panics p f f_0_2 K); auto.
    + split; [reflexivity|split; reflexivity].
    + apply N.odd_spec in Ho as [k Hk]. apply Nat.odd_spec. exists (N.to_nat k). lia.
    + lia.
Qed.

Lemma realvalued_end_genes debug calls c cfg ck m0 s evs b m s' :
  realvalued_builder debug calls = Ok (inl c) -> realvalued_solver c = Some cfg -> run cfg ck m0 s = Ok (evs, b, m, s') ->
  exists q0 rest, populations evs = q0 :: rest /\ all_genes (fun g => fle f0 g = true /\ flt g f1 = true) q0 /\
    forall e q x g, e ∈ evs -> shown e = Some q -> x ∈ q -> g ∈ chromosome x -> occurs_in g q0.
Proof.
  intros Hb Hs H. destruct (preset_built _ _ _ _ _ Hb) as (f & dim & _ & _ & Hd & ->). cbn in Hs. injection Hs as <-.
  eapply realvalued_genes. exact H.
Qed.
