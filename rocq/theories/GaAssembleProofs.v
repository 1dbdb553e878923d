From Verif Require Import GaProofs GaAssembleSpec CrossoverPermProofs CrossoverMultiProofs MutationProofs SelectionRProofs PopulationProofs WeakRunProofs PresetProofs.
Open Scope nat_scope.

(** ** Everything handed to the probe belongs to a population *)
Section Members.
Context {G St : Type} (cfg : config G St).
Lemma final_best_in gens : forall (best : individual G), (forall r, r ∈ gens -> gr_best r ∈ gr_pop r) ->
  final_best best gens = best \/ exists r, r ∈ gens /\ final_best best gens ∈ gr_pop r.
Proof.
  induction gens as [|r rest IH]; intros best Hr; [left; reflexivity|]. cbn [final_best].
  destruct (IH (if flt (fitness (gr_best r)) (fitness best) then gr_best r else best)) as [E|(r' & Hr' & E)].
  { intros r' Hr'. apply Hr. right. exact Hr'. }
  - rewrite E. destruct (flt _ _); [right|left; reflexivity]. exists r. split; [left|]. apply Hr. left.
  - right. exists r'. split; [right; exact Hr'|exact E].
Qed.
Lemma trace_mentions gens : forall (best : individual G) e x, (forall r, r ∈ gens -> gr_best r ∈ gr_pop r) ->
  e ∈ loop_trace best gens -> mentions e x -> exists r, r ∈ gens /\ x ∈ gr_pop r.
Proof.
  induction gens as [|r rest IH]; intros best e x Hr He Hm; [inversion He|]. rewrite loop_trace_cons in He. apply elem_of_app in He as [He|He].
  - exists r. split; [left|]. assert (Hb : gr_best r ∈ gr_pop r) by (apply Hr; left). cbn [loop_trace] in He. rewrite app_nil_r in He.
    destruct (flt (fitness (gr_best r)) (fitness best)); cbn [app] in He;
      repeat (apply elem_of_cons in He as [->|He]; [cbn in Hm; try contradiction; try (subst x); assumption|]); inversion He.
  - destruct (IH _ _ _ ltac:(intros r' Hr'; apply Hr; right; exact Hr') He Hm) as (r' & Hr' & Hx). exists r'. split; [right; exact Hr'|exact Hx].
Qed.
Lemma trace_populations gens : forall (best : individual G), populations (loop_trace best gens) = gr_pop <$> gens.
Proof.
  induction gens as [|r rest IH]; intros best; [reflexivity|]. rewrite loop_trace_cons. unfold populations in *. rewrite omap_app, IH. cbn [loop_trace]. rewrite app_nil_r.
  destruct (flt (fitness (gr_best r)) (fitness best)); reflexivity.
Qed.
Lemma run_members ck m0 s evs b m s' : run cfg ck m0 s = Ok (evs, b, m, s') ->
  (forall e x, e ∈ evs -> mentions e x -> exists q, q ∈ populations evs /\ x ∈ q) /\ (exists q, q ∈ populations evs /\ b ∈ q).
Proof.
  intros H. destruct (run_gens _ _ _ _ _ _ _ _ H) as (m1 & m2 & pop0 & best0 & gens & Ee & Eb & Hb0 & _ & _ & _ & _ & _ & Hg & _).
  assert (Hr : forall r, r ∈ gens -> gr_best r ∈ gr_pop r).
  { intros r Hr. apply elem_of_list_lookup in Hr as [i Hi]. destruct (Hg i r Hi) as (_ & _ & _ & _ & _ & Hf). apply find_best_in in Hf. exact Hf. }
  assert (Hp : populations evs = pop0 :: (gr_pop <$> gens)).
  { rewrite Ee. unfold populations. rewrite !omap_app. fold (populations (loop_trace best0 gens)). rewrite trace_populations. cbn. rewrite app_nil_r. reflexivity. }
  rewrite Hp. apply find_best_in in Hb0.
  assert (Hin : forall x, (x ∈ pop0 \/ exists r, r ∈ gens /\ x ∈ gr_pop r) -> exists q, q ∈ pop0 :: (gr_pop <$> gens) /\ x ∈ q).
  { intros x [Hx|(r & Hrg & Hx)]; [exists pop0; split; [left|exact Hx]|]. exists (gr_pop r). split; [right; apply elem_of_list_fmap; eauto|exact Hx]. }
  assert (Hb : exists q, q ∈ pop0 :: (gr_pop <$> gens) /\ b ∈ q).
  { apply Hin. rewrite Eb. destruct (final_best_in gens best0 Hr) as [->|Hx]; auto. }
  split; [|exact Hb]. intros e x He Hm. rewrite Ee in He. rewrite elem_of_app, !elem_of_cons, elem_of_nil, elem_of_app, elem_of_list_singleton in He.
  destruct He as [[->|[->|[->|[]]]]|[He| ->]]; cbn in Hm.
  - destruct Hm.
  - apply Hin. auto.
  - subst x. apply Hin. auto.
  - apply Hin. right. eapply trace_mentions; eauto.
  - destruct Hm as [Hm| ->]; [|exact Hb]. apply Hin. destruct (final_pop_in pop0 gens) as [E|(r & Hrg & E)]; rewrite E in Hm; eauto.
Qed.

(** ** A property of chromosomes that crossover, mutation and replacement preserve *)
Variable K : list G -> Prop.
Notation KP q := (Forall (fun x => K (chromosome x)) q).
Hypothesis Hxo : forall m pool s ch s', KP pool -> op_crossover cfg m pool s = Ok (ch, s') -> KP ch.
Hypothesis Hmut : forall m x s x' s', K (chromosome x) -> op_mutate cfg m x s = Ok (x', s') -> K (chromosome x').
Hypothesis Hrepl : forall m pop ch s pop' s', KP pop -> KP ch -> op_replace cfg m pop ch s = Ok (pop', s') -> KP pop'.

Lemma evaluate_K q : KP q -> KP (evaluate (op_fitness cfg) q).
Proof using Type. intros H. apply Forall_fmap. eapply Forall_impl; [exact H|]. auto. Qed.
Lemma mutated_K m ch s ch' s' : mutated cfg m ch s ch' s' -> KP ch -> KP ch'.
Proof using Hmut. induction 1 as [|c c' cs cs' s s1 s2 E _ IH]; intros HK; [constructor|]. apply Forall_cons in HK as [H1 H2]. constructor; [eapply Hmut; eauto|auto]. Qed.
Lemma next_K m q s q' s' : next_population cfg m q s q' s' -> KP q -> KP q'.
Proof using Hxo Hmut Hrepl.
  intros (sel & s1 & pool & ch & s2 & ch' & s3 & raw & _ & HF & Hx & Hm & Hr & ->) HK. apply evaluate_K.
  assert (Hp : KP pool).
  { clear -HF HK. induction HF as [|i x sel pool Hi _ IH]; constructor; [|exact IH]. rewrite Forall_forall in HK. apply HK. eapply elem_of_list_lookup_2; eauto. }
  assert (Hc : KP ch') by (eapply mutated_K; eauto).
  eapply Hrepl; [exact HK| |exact Hr]. destruct (op_requires_children_fitness cfg); [apply evaluate_K|]; exact Hc.
Qed.
Lemma run_K_from ck m0 s evs b m s' : run cfg ck m0 s = Ok (evs, b, m, s') ->
  forall i q, populations evs !! i = Some q -> KP q -> forall j q', i <= j -> populations evs !! j = Some q' -> KP q'.
Proof using Hxo Hmut Hrepl.
  intros H i q Hq HK j. destruct (run_flow _ _ _ _ _ _ _ _ H) as (raw & s0 & ss & _ & _ & _ & _ & Hls & _ & _ & Hn).
  induction j as [|j IH]; intros q' Hij Hq'; [assert (i = 0) by lia; congruence|].
  destruct (decide (i = S j)) as [->|Hne]; [congruence|].
  assert (Hl : S j < length (populations evs)) by (eapply lookup_lt_Some; eauto).
  destruct (lookup_lt_is_Some_2 (populations evs) j ltac:(lia)) as [qj Hqj].
  destruct (lookup_lt_is_Some_2 ss j ltac:(lia)) as [sj Hsj]. destruct (lookup_lt_is_Some_2 ss (S j) ltac:(lia)) as [sj' Hsj'].
  destruct (Hn j qj sj q' sj' Hqj Hsj Hq' Hsj') as (mm & _ & Hnext). eapply next_K; [exact Hnext|]. apply IH; [lia|exact Hqj].
Qed.
Lemma run_K ck m0 s evs b m s' : run cfg ck m0 s = Ok (evs, b, m, s') ->
  (forall raw s1, op_generate cfg (population_size cfg) s = Ok (raw, s1) -> KP raw) ->
  (forall e x, e ∈ evs -> mentions e x -> K (chromosome x)) /\ K (chromosome b).
Proof using Hxo Hmut Hrepl.
  intros H Hg. destruct (run_members _ _ _ _ _ _ _ H) as [H1 (qb & Hqb & Hb)].
  assert (Hall : forall q, q ∈ populations evs -> KP q).
  { intros q Hq. apply elem_of_list_lookup in Hq as [j Hj]. destruct (run_flow _ _ _ _ _ _ _ _ H) as (raw & s0 & ss & E & Hh & _).
    eapply (run_K_from _ _ _ _ _ _ _ H 0 (evaluate (op_fitness cfg) raw)); [rewrite <- head_lookup; exact Hh|apply evaluate_K; eauto|lia|exact Hj]. }
  split.
  - intros e x He Hm. destruct (H1 e x He Hm) as (q & Hq & Hx). specialize (Hall q Hq). rewrite Forall_forall in Hall. auto.
  - specialize (Hall qb Hqb). rewrite Forall_forall in Hall. auto.
Qed.
End Members.

(** ** The crossover operators, as functions on chromosomes *)
Section Xo.
Context {G : Type}.
Implicit Types p : list G.

(** Both children under construction have [n] genes, each taken from one of the parents at its own locus. *)
Definition partial_loci p1 p2 (n : nat) (c : list G * list G) : Prop :=
  length c.1 = n /\ length c.2 = n /\
  forall l g, (c.1 !! l = Some g \/ c.2 !! l = Some g) -> p1 !! l = Some g \/ p2 !! l = Some g.
Definition loci_from p1 p2 (c : list G * list G) : Prop :=
  forall l g, (c.1 !! l = Some g \/ c.2 !! l = Some g) -> p1 !! l = Some g \/ p2 !! l = Some g.
Lemma lookup_snoc_Some (l : list G) x i y : (l ++ [x]) !! i = Some y -> l !! i = Some y \/ (i = length l /\ y = x).
Proof. intros H. apply lookup_app_Some in H as [H|[H1 H2]]; [auto|]. apply list_lookup_singleton_Some in H2 as [H2 ->]. right. split; [lia|reflexivity]. Qed.
Lemma push_partial p1 p2 x y n c c' : (x = p1 /\ y = p2 \/ x = p2 /\ y = p1) -> partial_loci p1 p2 n c -> push_locus x y c n = Ok c' -> partial_loci p1 p2 (S n) c'.
Proof.
  intros Hxy (H1 & H2 & H) E. unfold push_locus in E. apply obind_Ok in E as (g1 & E1 & E). apply obind_Ok in E as (g2 & E2 & E). injection E as <-.
  apply index_Ok in E1. apply index_Ok in E2. split; [cbn; rewrite app_length; cbn; lia|]. split; [cbn; rewrite app_length; cbn; lia|].
  cbn [fst snd]. intros l g [Hl|Hl]; apply lookup_snoc_Some in Hl as [Hl|[-> ->]]; eauto; rewrite ?H1, ?H2; destruct Hxy as [[-> ->]|[-> ->]]; auto.
Qed.
Lemma copy_partial p1 p2 x y lo hi c c' : (x = p1 /\ y = p2 \/ x = p2 /\ y = p1) -> lo <= hi -> partial_loci p1 p2 lo c -> copy_loci x y lo hi c = Ok c' -> partial_loci p1 p2 hi c'.
Proof.
  intros Hxy Hle. unfold copy_loci. remember (hi - lo) as n eqn:En. revert lo c Hle En. induction n as [|n IH]; intros lo c Hle En Hp E; cbn [seq ofold] in E.
  - injection E as <-. replace hi with lo by lia. exact Hp.
  - apply obind_Ok in E as (c1 & E1 & E). apply (IH (S lo) c1); [lia|lia| |exact E]. eapply push_partial; eauto.
Qed.
Lemma mask_partial p1 p2 mask : forall n c c', partial_loci p1 p2 n c -> ofold (mask_step p1 p2) c (imap (fun i b => (n + i, b)) mask) = Ok c' -> partial_loci p1 p2 (n + length mask) c'.
Proof.
  induction mask as [|b mask IH]; intros n c c' Hp E; cbn [imap ofold] in E.
  - injection E as <-. cbn. rewrite Nat.add_0_r. exact Hp.
  - apply obind_Ok in E as (c1 & E1 & E). cbn [length]. replace (n + S (length mask)) with (S n + length mask) by lia. apply (IH (S n) c1).
    + unfold mask_step in E1. cbn [fst snd] in E1. rewrite Nat.add_0_r in E1. destruct b; (eapply push_partial; [|exact Hp|exact E1]); auto.
    + rewrite <- E. f_equal. apply imap_ext. intros i x _. cbn. f_equal. lia.
Qed.
Lemma apply_mask_loci mask p1 p2 c : apply_mask mask p1 p2 = Ok c -> loci_from p1 p2 c.
Proof.
  intros E. destruct (mask_partial p1 p2 mask 0 ([], []) c) as (_ & _ & H); [split; [reflexivity|split; [reflexivity|]]; intros l g [Hl|Hl]; discriminate|exact E|exact H].
Qed.
Lemma nil_partial p1 p2 : partial_loci p1 p2 0 ([], []).
Proof. split; [reflexivity|split; [reflexivity|]]; intros l g [Hl|Hl]; discriminate. Qed.
Lemma recombination_loci p1 p2 c1 c2 : length p1 = length p2 -> recombination p1 p2 c1 c2 -> loci_from p1 p2 (c1, c2).
Proof.
  intros Hl (H1 & H2 & H) l g Hg. cbn [fst snd] in Hg. assert (Hlt : l < length p1) by (destruct Hg as [Hg|Hg]; apply lookup_lt_Some in Hg; lia).
  destruct (lookup_lt_is_Some_2 p1 l Hlt) as [a Ha]. destruct (lookup_lt_is_Some_2 p2 l ltac:(lia)) as [b Hb].
  destruct (H l a b Ha Hb) as [[E1 E2]|[E1 E2]]; rewrite E1, E2 in Hg; rewrite Ha, Hb; tauto.
Qed.
Lemma single_point_loci p1 p2 r c r' : single_point p1 p2 r = Ok (c, r') -> loci_from p1 p2 c.
Proof.
  unfold single_point. intros E. apply obind_Ok in E as ([cut r1] & E1 & E). apply obind_Ok in E as (c1 & E2 & E). apply obind_Ok in E as (c2 & E3 & E).
  injection E as <- <-. apply gen_range_Ok in E1. eapply copy_partial in E2; [|left; split; reflexivity|lia|apply nil_partial].
  eapply copy_partial in E3; [|right; split; reflexivity| |exact E2]; [exact (proj2 (proj2 E3))|lia].
Qed.
Lemma shuffle_xo_loci p1 p2 r c r' : shuffle_xo p1 p2 r = Ok (c, r') -> loci_from p1 p2 c.
Proof.
  unfold shuffle_xo. intros E. apply obind_Ok in E as ([cut r1] & E1 & E). apply obind_Ok in E as ([sh r2] & E2 & E). apply obind_Ok in E as (c1 & E3 & E).
  injection E as <- <-. eapply apply_mask_loci; eauto.
Qed.
Lemma two_point_loci p1 p2 r c r' : two_point p1 p2 r = Ok (c, r') -> loci_from p1 p2 c.
Proof.
  intros E. pose proof E as E0. unfold two_point in E0. apply obind_Ok in E0 as ([] & E1 & E0). apply rassert_Ok, bool_decide_eq_true in E1.
  apply obind_Ok in E0 as ([a r1] & E2 & _). apply gen_range_Ok in E2.
  destruct (two_point_recomb p1 p2 r E1 ltac:(lia)) as (c1 & c2 & r2 & E3 & Hr). rewrite E in E3. injection E3 as -> _. apply recombination_loci; auto.
Qed.
Lemma multi_point_loci k p1 p2 r c r' : multi_point k p1 p2 r = Ok (c, r') -> loci_from p1 p2 c.
Proof.
  intros E. pose proof E as E0. unfold multi_point in E0. apply obind_Ok in E0 as ([] & E1 & E0). apply rassert_Ok, bool_decide_eq_true in E1.
  apply obind_Ok in E0 as ([] & E2 & E0). apply rassert_Ok, bool_decide_eq_true in E2. apply obind_Ok in E0 as ([] & E3 & E0). apply rassert_Ok, bool_decide_eq_true in E3.
  destruct (multi_point_recomb k p1 p2 r E1 (conj E3 E2)) as (c1 & c2 & r2 & E4 & Hr). rewrite E in E4. injection E4 as -> _. apply recombination_loci; auto.
Qed.
Lemma uniform_loci kind p1 p2 r c r' : uniform kind p1 p2 r = Ok (c, r') -> loci_from p1 p2 c.
Proof.
  intros E. pose proof E as E0. unfold uniform in E0. apply obind_Ok in E0 as ([] & E1 & E0). apply rassert_Ok, bool_decide_eq_true in E1.
  destruct (uniform_recomb kind p1 p2 r E1) as (c1 & c2 & r2 & E4 & Hr). rewrite E in E4. injection E4 as -> _. apply recombination_loci; auto.
Qed.
Lemma uniform_parameterized_loci kind bias p1 p2 r c r' : uniform_parameterized kind bias p1 p2 r = Ok (c, r') -> loci_from p1 p2 c.
Proof.
  intros E. pose proof E as E0. unfold uniform_parameterized in E0. apply obind_Ok in E0 as ([] & E1 & E0). apply rassert_Ok, bool_decide_eq_true in E1.
  destruct (uniform_parameterized_recomb kind bias p1 p2 r E1) as (c1 & c2 & r2 & E4 & Hr). rewrite E in E4. injection E4 as -> _. apply recombination_loci; auto.
Qed.
Lemma fixed_point_loci cut p1 p2 c : fixed_point cut p1 p2 = Ok c -> loci_from p1 p2 c.
Proof.
  unfold fixed_point. generalize (seq cut (length p1 - cut)) as is. intros is E.
  refine (ofold_inv (fixed_step p1 p2) (loci_from p1 p2) (p1, p2) is c _ _ E); cycle 1.
  - intros l g Hg. exact Hg.
  - intros s i s' Hs _ E1. unfold fixed_step in E1. apply obind_Ok in E1 as (g2 & E2 & E1). apply obind_Ok in E1 as (c1 & E3 & E1).
    apply obind_Ok in E1 as (g1 & E4 & E1). apply obind_Ok in E1 as (c2 & E5 & E1). injection E1 as <-.
    apply index_Ok in E2. apply index_Ok in E4. apply assign_Ok in E3 as [_ ->]. apply assign_Ok in E5 as [_ ->].
    intros l g [Hg|Hg]; cbn [fst snd] in Hg; apply list_lookup_insert_Some in Hg as [(-> & -> & _)|[_ Hg]]; auto; apply Hs; auto.
Qed.

Context `{EqDecision G}.
(** Every gene of the children is a gene of a parent. *)
Definition genes_from p1 p2 (c : list G * list G) : Prop := forall g, g ∈ c.1 \/ g ∈ c.2 -> g ∈ p1 \/ g ∈ p2.
Lemma loci_genes p1 p2 c : loci_from p1 p2 c -> genes_from p1 p2 c.
Proof using Type.
  intros H g [Hg|Hg]; apply elem_of_list_lookup in Hg as [l Hl]; destruct (H l g) as [Hx|Hx]; auto; [left|right|left|right]; eapply elem_of_list_lookup_2; eauto.
Qed.
Lemma read_range_genes p lo hi sub : read_range p lo hi = Ok sub -> forall g, g ∈ sub -> g ∈ p.
Proof using Type.
  unfold read_range. generalize (seq lo (hi - lo)) as is. intros is. revert sub. induction is as [|i is IH]; intros sub E g Hg; cbn [omapM] in E; [injection E as <-; inversion Hg|].
  apply obind_Ok in E as (x & Ex & E). apply obind_Ok in E as (xs & Exs & E). injection E as <-. apply index_Ok in Ex.
  apply elem_of_cons in Hg as [->|Hg]; [eapply elem_of_list_lookup_2; eauto|eauto].
Qed.
Lemma ordered_fill_genes begin (sub rest : list G) : forall child child' rest', ordered_fill begin sub child rest = Ok (child', rest') ->
  (forall g, g ∈ child' -> g ∈ child \/ g ∈ rest) /\ (forall g, g ∈ rest' -> g ∈ rest).
Proof using Type.
  induction rest as [|x rest IH]; intros child child' rest' E; cbn [ordered_fill] in E; destruct (decide (length child < begin)).
  - discriminate.
  - injection E as <- <-. split; auto.
  - apply IH in E as [H1 H2]. split.
    + intros g Hg. apply H1 in Hg as [Hg|Hg]; [|right; right; exact Hg]. destruct (bool_decide (x ∈ sub)); [auto|].
      apply elem_of_app in Hg as [Hg|Hg]; [auto|]. apply elem_of_list_singleton in Hg as ->. right. left.
    + intros g Hg. right. auto.
  - injection E as <- <-. split; auto.
Qed.
Lemma ordered_rest_genes (sub rest : list G) : forall child g, g ∈ ordered_rest sub child rest -> g ∈ child \/ g ∈ rest.
Proof using Type.
  induction rest as [|x rest IH]; intros child g Hg; cbn [ordered_rest] in Hg; [auto|]. apply IH in Hg as [Hg|Hg]; [|right; right; exact Hg].
  destruct (bool_decide (x ∈ sub)); [auto|]. apply elem_of_app in Hg as [Hg|Hg]; [auto|]. apply elem_of_list_singleton in Hg as ->. right. left.
Qed.
Lemma ordered_child_genes p1 p2 b e c : ordered_child p1 p2 b e = Ok c -> forall g, g ∈ c -> g ∈ p1 \/ g ∈ p2.
Proof using Type.
  unfold ordered_child. intros E g Hg. apply obind_Ok in E as (sub & E1 & E). apply obind_Ok in E as ([child rest] & E2 & E). injection E as <-.
  destruct (ordered_fill_genes _ _ _ _ _ _ E2) as [H1 H2]. apply ordered_rest_genes in Hg as [Hg|Hg]; [|auto]. apply elem_of_app in Hg as [Hg|Hg].
  - apply H1 in Hg as [Hg|Hg]; [inversion Hg|auto].
  - left. eapply read_range_genes; eauto.
Qed.
Lemma ordered_genes p1 p2 r c r' : ordered p1 p2 r = Ok (c, r') -> genes_from p1 p2 c.
Proof using Type.
  unfold ordered. intros E. apply obind_Ok in E as ([] & _ & E). apply obind_Ok in E as ([b r1] & _ & E). apply obind_Ok in E as ([e r2] & _ & E).
  apply obind_Ok in E as (c1 & E1 & E). apply obind_Ok in E as (c2 & E2 & E). injection E as <- <-. intros g [Hg|Hg]; cbn [fst snd] in Hg.
  - eapply ordered_child_genes; eauto.
  - apply or_comm. eapply ordered_child_genes; eauto.
Qed.
Lemma pmx_child_genes fuel p1 p2 b e c : pmx_child fuel p1 p2 b e = Ok c -> forall g, g ∈ c -> g ∈ p1 \/ g ∈ p2.
Proof using Type.
  unfold pmx_child. intros E. apply obind_Ok in E as (sub & _ & E). apply obind_Ok in E as (nc1 & E1 & E). apply obind_Ok in E as (nc2 & E2 & E).
  set (fine := fun nc : list (option G) => forall i g, nc !! i = Some (Some g) -> g ∈ p1 \/ g ∈ p2).
  assert (F1 : fine nc1).
  { refine (ofold_inv _ fine _ _ _ _ _ E1).
    - intros nc i nc' Hn _ Ei. apply obind_Ok in Ei as (x & Ex & Ei). apply index_Ok in Ex. apply assign_Ok in Ei as [_ ->].
      intros j g Hj. apply list_lookup_insert_Some in Hj as [(_ & Hx & _)|[_ Hj]]; [injection Hx as <-; left; eapply elem_of_list_lookup_2; eauto|eapply Hn; eauto].
    - intros i g Hi. apply lookup_replicate in Hi as [Hi _]. discriminate. }
  assert (F2 : fine nc2).
  { refine (ofold_inv _ fine _ _ _ _ F1 E2).
    intros nc i nc' Hn _ Ei. unfold pmx_step in Ei. apply obind_Ok in Ei as (x & Ex & Ei). apply index_Ok in Ex.
    destruct (bool_decide (x ∈ sub)); [injection Ei as <-; exact Hn|]. apply obind_Ok in Ei as (pl & _ & Ei). apply assign_Ok in Ei as [_ ->].
    intros j g Hj. apply list_lookup_insert_Some in Hj as [(_ & Hx & _)|[_ Hj]]; [injection Hx as <-; right; eapply elem_of_list_lookup_2; eauto|eapply Hn; eauto]. }
  unfold pmx_finish in E. clear E1 E2 F1. intros g Hg.
  assert (Hgen : forall (l : list (nat * option G)) c, omapM (fun io : nat * option G => match io.2 with Some g => Ok g | None => index p2 io.1 end) l = Ok c ->
    (forall i g, (i, Some g) ∈ l -> g ∈ p1 \/ g ∈ p2) -> forall g, g ∈ c -> g ∈ p1 \/ g ∈ p2).
  { clear. induction l as [|[i o] l IH]; intros c Ec Hl g Hg; cbn [omapM] in Ec; [injection Ec as <-; inversion Hg|].
    apply obind_Ok in Ec as (x & Ex & Ec). apply obind_Ok in Ec as (xs & Exs & Ec). injection Ec as <-. cbn [fst snd] in Ex.
    apply elem_of_cons in Hg as [->|Hg].
    - destruct o as [y|]; [injection Ex as ->; eapply Hl; left|]. apply index_Ok in Ex. right. eapply elem_of_list_lookup_2; eauto.
    - eapply IH; [exact Exs| |exact Hg]. intros j h Hj. eapply Hl. right. exact Hj. }
  eapply Hgen; [exact E| |exact Hg]. intros i h Hi. apply elem_of_lookup_imap in Hi as (j & o & Ho & Hj). injection Ho as -> <-. eapply F2; eauto.
Qed.
Lemma pmx_genes fuel p1 p2 r c r' : pmx fuel p1 p2 r = Ok (c, r') -> genes_from p1 p2 c.
Proof using Type.
  unfold pmx. intros E. apply obind_Ok in E as ([] & _ & E). apply obind_Ok in E as ([b r1] & _ & E). apply obind_Ok in E as ([e r2] & _ & E).
  apply obind_Ok in E as (c1 & E1 & E). apply obind_Ok in E as (c2 & E2 & E). injection E as <- <-. intros g [Hg|Hg]; cbn [fst snd] in Hg.
  - eapply pmx_child_genes; eauto.
  - apply or_comm. eapply pmx_child_genes; eauto.
Qed.
Lemma ppx_next_genes (taken rest : list G) : forall g rest', ppx_next taken rest = Ok (g, rest') -> g ∈ rest /\ (forall h, h ∈ rest' -> h ∈ rest).
Proof using Type.
  induction rest as [|x rest IH]; intros g rest' E; cbn [ppx_next] in E; [discriminate|]. destruct (bool_decide (x ∈ taken)).
  - apply IH in E as [H1 H2]. split; [right; exact H1|intros h Hh; right; auto].
  - injection E as <- <-. split; [left|intros h Hh; right; exact Hh].
Qed.
Lemma ppx_loop_genes mask : forall (child r1 r2 c : list G), ppx_loop mask child r1 r2 = Ok c -> forall g, g ∈ c -> g ∈ child \/ g ∈ r1 \/ g ∈ r2.
Proof using Type.
  induction mask as [|b mask IH]; intros child r1 r2 c E g Hg; cbn [ppx_loop] in E; [injection E as <-; auto|].
  destruct b; apply obind_Ok in E as ([x r] & E1 & E); apply ppx_next_genes in E1 as [H1 H2]; destruct (IH _ _ _ _ E g Hg) as [Hx|[Hx|Hx]]; auto;
    apply elem_of_app in Hx as [Hx|Hx]; auto; apply elem_of_list_singleton in Hx as ->; auto.
Qed.
Lemma ppx_genes p1 p2 r c r' : ppx p1 p2 r = Ok (c, r') -> genes_from p1 p2 c.
Proof using Type.
  unfold ppx. intros E. apply obind_Ok in E as ([] & _ & E). destruct (repeatM (length p1) gen_bool r) as [mask r1].
  apply obind_Ok in E as (c1 & E1 & E). apply obind_Ok in E as (c2 & E2 & E). injection E as <- <-. unfold ppx_child in *. intros g [Hg|Hg]; cbn [fst snd] in Hg.
  - destruct (ppx_loop_genes _ _ _ _ _ E1 g Hg) as [Hx|Hx]; [inversion Hx|exact Hx].
  - destruct (ppx_loop_genes _ _ _ _ _ E2 g Hg) as [Hx|Hx]; [inversion Hx|tauto].
Qed.
End Xo.
