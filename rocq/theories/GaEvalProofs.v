(** * Proofs: the solver with stateful fitness *)
From Verif Require Export GaEvalSpec.
Open Scope nat_scope.

(** ** The solver of GaModel.v is an instance *)
Section Pure.
Context {G St : Type} (cfg : config G St).
Notation gc := (pure cfg).
Lemma pure_eval pop s : g_eval_pop gc pop s = Ok (eval_pop cfg pop, s).
Proof. induction pop as [|x xs IH]; cbn -[eval_pop]; [reflexivity|]. rewrite IH. reflexivity. Qed.
Lemma pure_mutate m : forall ch s, g_mutate_all gc m ch s = mutate_all cfg m ch s.
Proof.
  induction ch as [|c cs IH]; intros s; cbn; [reflexivity|]. destruct (op_mutate cfg m c s) as [[c' s']| |]; cbn; [rewrite IH|..]; reflexivity.
Qed.
Lemma pure_min_from : forall l acc, g_min_from gc acc l = iter_min_from fitness acc l.
Proof. induction l as [|x xs IH]; intros acc; cbn; [reflexivity|]. unfold ind_cmp. destruct (key_cmp (fitness acc) (fitness x)); cbn; try reflexivity. apply IH. Qed.
Lemma pure_best pop : g_find_best gc pop = find_best pop.
Proof. unfold find_best. destruct pop as [|x xs]; cbn; [reflexivity|]. rewrite pure_min_from. destruct (iter_min_from fitness x xs); reflexivity. Qed.
Definition as_result (o : outcome (list (event G) * (metrics * list (individual G) * individual G * St))) :=
  '(evs, st) ← o; Ok (map as_gevent evs, st).
Lemma pure_generation ck g m pop best s : g_generation gc ck g m pop best s = as_result (generation cfg ck g m pop best s).
Proof.
  unfold g_generation, generation, as_result. rewrite pure_eval. cbn [mbind outcome_bind]. set (m' := Metrics _ _ _).
  change (g_select gc) with (op_select cfg). destruct (op_select cfg m' (eval_pop cfg pop) s) as [[sel s1]| |]; cbn [mbind outcome_bind]; try reflexivity.
  destruct (omapM (index (eval_pop cfg pop)) sel) as [pool| |]; cbn [mbind outcome_bind]; try reflexivity.
  change (g_crossover gc) with (op_crossover cfg). destruct (op_crossover cfg m' pool s1) as [[ch s2]| |]; cbn [mbind outcome_bind]; try reflexivity.
  rewrite pure_mutate. destruct (mutate_all cfg m' ch s2) as [[ch' s3]| |]; cbn [mbind outcome_bind]; try reflexivity.
  change (g_requires_children_fitness gc) with (op_requires_children_fitness cfg).
  assert ((if op_requires_children_fitness cfg then g_eval_pop gc ch' s3 else Ok (ch', s3)) = Ok (if op_requires_children_fitness cfg then eval_pop cfg ch' else ch', s3)) as ->
    by (destruct (op_requires_children_fitness cfg); [apply pure_eval|reflexivity]).
  cbn [mbind outcome_bind]. set (kids := if op_requires_children_fitness cfg then _ else _). change (g_replace gc) with (op_replace cfg).
  destruct (op_replace cfg m' (eval_pop cfg pop) kids s3) as [[pop' s4]| |]; cbn [mbind outcome_bind]; try reflexivity.
  change (g_population_size gc) with (population_size cfg). destruct (rassert _); cbn [mbind outcome_bind]; try reflexivity.
  rewrite pure_eval. cbn [mbind outcome_bind]. rewrite pure_best. destruct (find_best (eval_pop cfg pop')) as [b| |]; cbn [mbind outcome_bind]; try reflexivity.
  change (g_less gc b best) with (flt (fitness b) (fitness best)). destruct (flt (fitness b) (fitness best)); reflexivity.
Qed.
Lemma pure_loop ck : forall n g m pop best s, g_main_loop gc ck n g m pop best s = as_result (main_loop cfg ck n g m pop best s).
Proof.
  induction n as [|n IH]; intros g m pop best s; cbn [g_main_loop main_loop]; [reflexivity|]. rewrite pure_generation. unfold as_result.
  destruct (generation cfg ck g m pop best s) as [[evs [[[m1 pop1] b1] s1]]| |]; cbn [mbind outcome_bind]; try reflexivity.
  change (g_max_duration gc) with (max_duration cfg). destruct (_ <=? _)%N; [reflexivity|]. rewrite IH. unfold as_result.
  destruct (main_loop cfg ck n (g + 1) m1 pop1 b1 s1) as [[evs2 st]| |]; cbn [mbind outcome_bind]; try reflexivity. rewrite map_app. reflexivity.
Qed.
Lemma pure_run ck m0 s : g_run gc ck m0 s = ('(evs, b, m, s') ← run cfg ck m0 s; Ok (map as_gevent evs, b, m, s')).
Proof.
  unfold g_run, run. change (g_generate gc) with (op_generate cfg). change (g_population_size gc) with (population_size cfg).
  destruct (op_generate cfg (population_size cfg) s) as [[pop s1]| |]; cbn [mbind outcome_bind]; try reflexivity.
  rewrite pure_eval. cbn [mbind outcome_bind]. rewrite pure_best. destruct (find_best (eval_pop cfg pop)) as [b| |]; cbn [mbind outcome_bind]; try reflexivity.
  rewrite pure_loop. unfold as_result. change (g_generation_limit gc) with (generation_limit cfg).
  destruct (main_loop cfg ck (generation_limit cfg) 1 _ _ b s1) as [[evs [[[m1 pop1] b1] s2]]| |]; cbn [mbind outcome_bind]; try reflexivity.
  rewrite map_app. cbn [map app]. rewrite map_app. reflexivity.
Qed.
End Pure.

Section Solver.
Context {I V St : Type} (cfg : gconfig I V St).

Lemma eval_length pop : forall s pop' s', g_eval_pop cfg pop s = Ok (pop', s') -> length pop' = length pop.
Proof.
  induction pop as [|x xs IH]; intros s pop' s' H; cbn in H; [injection H as <- <-; reflexivity|].
  apply obind_Ok in H as ([y s1] & H1 & H). apply obind_Ok in H as ([ys s2] & H2 & H). injection H as <- <-. cbn. f_equal. eauto.
Qed.
Lemma mutate_length m ch : forall s ch' s', g_mutate_all cfg m ch s = Ok (ch', s') -> length ch' = length ch.
Proof.
  induction ch as [|x xs IH]; intros s pop' s' H; cbn in H; [injection H as <- <-; reflexivity|].
  apply obind_Ok in H as ([y s1] & H1 & H). apply obind_Ok in H as ([ys s2] & H2 & H). injection H as <- <-. cbn. f_equal. eauto.
Qed.
Lemma omapM_length {A B} (f : A -> outcome B) l : forall l', omapM f l = Ok l' -> length l' = length l.
Proof.
  induction l as [|x xs IH]; intros l' H; cbn in H; [injection H as <-; reflexivity|].
  apply obind_Ok in H as (y & H1 & H). apply obind_Ok in H as (ys & H2 & H). injection H as <-. cbn. f_equal. eauto.
Qed.
Lemma omapM_index_in {A} (pop : list A) sel : forall pool, omapM (index pop) sel = Ok pool -> Forall (fun x => x ∈ pop) pool.
Proof.
  induction sel as [|i sel IH]; intros pool H; cbn in H; [injection H as <-; constructor|].
  apply obind_Ok in H as (y & H1 & H). apply obind_Ok in H as (ys & H2 & H). injection H as <-. constructor; [|apply IH, H2].
  unfold index in H1. apply unwrap_Ok in H1. apply elem_of_list_lookup. eauto.
Qed.

(** ** The best ever *)
Lemma min_from_in : forall l acc b, g_min_from cfg acc l = Ok b -> b ∈ acc :: l.
Proof.
  induction l as [|x xs IH]; intros acc b H; cbn in H; [injection H as <-; left|].
  apply obind_Ok in H as (c & _ & H). apply IH in H. rewrite !elem_of_cons in *. destruct c; tauto.
Qed.
Lemma find_in pop b : g_find_best cfg pop = Ok b -> b ∈ pop.
Proof. destruct pop as [|x xs]; [discriminate|]. apply min_from_in. Qed.
Section Best.
Context (D : I -> Prop) (le : I -> I -> Prop) (O : orders cfg D le).
Lemma min_from_least : forall l acc b, D acc -> Forall D l -> g_min_from cfg acc l = Ok b -> le b acc /\ Forall (le b) l.
Proof.
  induction l as [|x xs IH]; intros acc b Ha Hl H; cbn in H; [injection H as <-; split; [apply (ord_refl _ _ _ O), Ha|constructor]|].
  apply Forall_cons in Hl as [Hx Hl]. apply obind_Ok in H as (c & Hc & H). pose proof (ord_cmp _ _ _ O acc x c Ha Hx Hc) as C.
  assert (Hacc : D (match c with Gt => x | _ => acc end)) by (destruct c; assumption).
  destruct (IH _ _ Hacc Hl H) as [H1 H2]. assert (Db : D b).
  { apply min_from_in in H. rewrite elem_of_cons in H. destruct H as [->|H]; [exact Hacc|]. rewrite Forall_forall in Hl. apply Hl, H. }
  destruct c; (split; [|constructor; [|exact H2]]); try exact H1; eapply (ord_trans _ _ _ O); try exact H1; assumption.
Qed.
Lemma find_least pop b : Forall D pop -> g_find_best cfg pop = Ok b -> Forall (le b) pop.
Proof. destruct pop as [|x xs]; [discriminate|]. intros HF H. apply Forall_cons in HF as [Hx HF]. destruct (min_from_least _ _ _ Hx HF H). constructor; assumption. Qed.

Definition g_seen (evs : list (gevent I)) (x : I) : Prop := exists e q, e ∈ evs /\ g_shown e = Some q /\ x ∈ q.
Lemma seen_app evs evs' x : g_seen (evs ++ evs') x <-> g_seen evs x \/ g_seen evs' x.
Proof.
  unfold g_seen. split.
  - intros (e & q & He & Hq & Hx). apply elem_of_app in He as [He|He]; [left|right]; eauto.
  - intros [(e & q & He & Hq & Hx)|(e & q & He & Hq & Hx)]; exists e, q; split_and!; auto; apply elem_of_app; auto.
Qed.
Lemma seen_cons e evs x : g_seen (e :: evs) x <-> (exists q, g_shown e = Some q /\ x ∈ q) \/ g_seen evs x.
Proof.
  unfold g_seen. split.
  - intros (e' & q & He & Hq & Hx). apply elem_of_cons in He as [->|He]; [left|right]; eauto.
  - intros [(q & Hq & Hx)|(e' & q & He & Hq & Hx)]; [exists e, q; split; [left|auto]|exists e', q; split; [right; exact He|auto]].
Qed.
Lemma seen_nil x : g_seen [] x <-> False.
Proof. split; [intros (e & q & He & _); inversion He|tauto]. Qed.
Lemma seen_none (e : gevent I) x : g_shown e = None -> (exists q, g_shown e = Some q /\ x ∈ q) <-> False.
Proof. intros H. split; [intros (q & Hq & _); congruence|tauto]. Qed.
Lemma seen_some (e : gevent I) (p : list I) x : g_shown e = Some p -> (exists q, g_shown e = Some q /\ x ∈ q) <-> x ∈ p.
Proof. intros H. split; [intros (q & Hq & Hx); congruence|eauto]. Qed.
Lemma generation_best ck g m pop best s evs m' pop' best' s' :
  g_generation cfg ck g m pop best s = Ok (evs, (m', pop', best', s')) ->
  (forall x, g_seen evs x <-> x ∈ pop') /\ (best' = best \/ best' ∈ pop') /\
  (Forall D pop' -> D best -> le best' best /\ Forall (le best') pop').
Proof.
  intros H. unfold g_generation in H.
  apply obind_Ok in H as ([p1 s1] & _ & H). apply obind_Ok in H as ([sel s2] & _ & H). apply obind_Ok in H as (pool & _ & H).
  apply obind_Ok in H as ([ch s3] & _ & H). apply obind_Ok in H as ([ch2 s4] & _ & H). apply obind_Ok in H as ([ch3 s5] & _ & H).
  apply obind_Ok in H as ([p2 s6] & _ & H). apply obind_Ok in H as ([] & _ & H). apply obind_Ok in H as ([p3 s7] & _ & H).
  apply obind_Ok in H as (b & Hb & H). injection H as <- <- <- <- <-. split; [|split].
  - intros x. destruct (g_less cfg b best); cbn [app]; rewrite !seen_cons, seen_nil, !(seen_none (GIterationStart _)), !(seen_none (GIterationEnd _)), !(seen_none (GBestFit _ _)), ?(seen_none (GNewBest _ _)), (seen_some (GNewGeneration _ p3) p3) by reflexivity; tauto.
  - destruct (g_less cfg b best); [right; apply find_in, Hb|left; reflexivity].
  - intros HD Dbest. pose proof (find_least _ _ HD Hb) as L. assert (Db : D b) by (rewrite Forall_forall in HD; apply HD, find_in, Hb).
    pose proof (ord_less _ _ _ O b best Db Dbest) as C. destruct (g_less cfg b best); [auto|]. split; [apply (ord_refl _ _ _ O), Dbest|].
    apply Forall_forall. intros x Hx. rewrite Forall_forall in L, HD. eapply (ord_trans _ _ _ O best b x); auto.
Qed.
Lemma loop_best ck : forall n g m pop best s evs m' pop' best' s',
  g_main_loop cfg ck n g m pop best s = Ok (evs, (m', pop', best', s')) ->
  (best' = best \/ g_seen evs best') /\ (pop' = pop \/ forall x, x ∈ pop' -> g_seen evs x) /\
  (D best -> (forall x, g_seen evs x -> D x) -> le best' best /\ forall x, g_seen evs x -> le best' x).
Proof.
  induction n as [|n IH]; intros g m pop best s evs m' pop' best' s' H; cbn [g_main_loop] in H.
  - injection H as <- <- <- <- <-. split; [auto|]. split; [auto|]. intros Db _. split; [apply (ord_refl _ _ _ O), Db|]. intros x (e & q & He & _). inversion He.
  - apply obind_Ok in H as ([evs1 [[[m1 p1] b1] s1]] & H1 & H). destruct (generation_best _ _ _ _ _ _ _ _ _ _ _ H1) as (G1 & G2 & G3).
    destruct (_ <=? _)%N.
    + injection H as <- <- <- <- <-. split; [destruct G2 as [->|G2]; [auto|right; apply G1, G2]|]. split; [right; intros x Hx; apply G1, Hx|].
      intros Db HD. destruct G3 as [G3 G4]; [apply Forall_forall; intros x Hx; apply HD, G1, Hx|exact Db|]. split; [exact G3|]. intros x Hx. rewrite Forall_forall in G4. apply G4, G1, Hx.
    + apply obind_Ok in H as ([evs2 [[[m2 p2] b2] s2]] & H2 & H). injection H as <- <- <- <- <-. destruct (IH _ _ _ _ _ _ _ _ _ _ H2) as (L1 & L2 & L3).
      split; [|split].
      * destruct L1 as [->|L1]; [destruct G2 as [->|G2]; [auto|right; apply seen_app; left; apply G1, G2]|right; apply seen_app; auto].
      * right. intros x Hx. apply seen_app. destruct L2 as [->|L2]; [left; apply G1, Hx|right; apply L2, Hx].
      * intros Db HD. destruct G3 as [G3 G4]; [apply Forall_forall; intros x Hx; apply HD, seen_app; left; apply G1, Hx|exact Db|].
        assert (Db1 : D b1) by (destruct G2 as [->|G2]; [exact Db|apply HD, seen_app; left; apply G1, G2]).
        destruct L3 as [L3 L4]; [exact Db1|intros x Hx; apply HD, seen_app; auto|].
        assert (Db2 : D b2) by (destruct L1 as [->|L1]; [exact Db1|apply HD, seen_app; auto]).
        rewrite Forall_forall in G4. split; [eapply (ord_trans _ _ _ O b2 b1 best); assumption|]. intros x Hx. apply seen_app in Hx as [Hx|Hx]; [|apply L4, Hx].
        eapply (ord_trans _ _ _ O b2 b1 x); try assumption; [apply HD, seen_app; auto|]. apply G4, G1, Hx.
Qed.
Lemma g_run_best ck m0 s evs b m s' : g_run cfg ck m0 s = Ok (evs, b, m, s') -> g_seen evs b /\ (g_all_shown evs D -> g_all_shown evs (le b)).
Proof.
  intros H. unfold g_run in H. apply obind_Ok in H as ([p0 s0] & _ & H). apply obind_Ok in H as ([p1 s1] & _ & H). apply obind_Ok in H as (b0 & Hb & H).
  apply obind_Ok in H as ([evs1 [[[m1 p2] b1] s2]] & HL & H). injection H as <- <- <- <-. destruct (loop_best _ _ _ _ _ _ _ _ _ _ _ _ HL) as (L1 & L2 & L3).
  pose proof (find_in _ _ Hb) as Hb0.
  assert (HS : forall x, x ∈ p1 \/ g_seen evs1 x <-> g_seen ([GStart m0; GInitialPopulation (Metrics (m_generation m0) (length p0) (m_total_dur m0)) p1; GNewBest (Metrics (m_generation m0) (length p1) (Some (c_init ck))) b0] ++ evs1 ++ [GEnd (Metrics (m_generation m1) (m_population_size m1) (Some (c_final ck))) p2 b1]) x).
  { intros x. cbn [app]. rewrite !seen_cons, seen_app, seen_cons, seen_nil. rewrite (seen_none (GStart m0)), (seen_none (GNewBest _ b0)), (seen_some (GInitialPopulation _ p1) p1), (seen_some (GEnd _ p2 b1) p2) by reflexivity.
    destruct L2 as [->|L2]; [tauto|]. pose proof (L2 x). tauto. }
  split.
  - apply HS. destruct L1 as [->|L1]; auto.
  - intros HD. assert (HD' : forall x, x ∈ p1 \/ g_seen evs1 x -> D x) by (intros x Hx; apply HS in Hx as (e & q & He & Hq & Hx); exact (HD e q x He Hq Hx)).
    assert (Hall : Forall D p1) by (apply Forall_forall; auto). pose proof (find_least _ _ Hall Hb) as HF. rewrite Forall_forall in HF.
    destruct L3 as [L3 L4]; [auto|auto|]. intros e q x He Hq Hx. assert (Sx : x ∈ p1 \/ g_seen evs1 x) by (apply HS; exists e, q; auto).
    assert (Db1 : D b1) by (destruct L1 as [->|L1]; auto). destruct Sx as [Sx|Sx]; [|apply L4, Sx]. eapply (ord_trans _ _ _ O b1 b0 x); auto.
Qed.
End Best.

(** ** Counting evaluations *)
Section Count.
(** [J n s]: n evaluations have been made; [P]: what the operators keep. *)
Context (J : nat -> St -> Prop) (P : I -> Prop) (kids : nat).
Context (HG : forall n s pop s', J n s -> g_generate cfg (g_population_size cfg) s = Ok (pop, s') -> J n s' /\ Forall P pop /\ length pop = g_population_size cfg).
Context (HE : forall n s x v x' s', J n s -> P x -> g_requires cfg x = true -> g_fitness cfg x s = Ok (v, x', s') -> J (n + 1) s' /\ P (g_set cfg x' v)).
Context (HR : forall x, P x -> g_requires cfg x = true).
Context (HS : forall n m pop s sel s', J n s -> Forall P pop -> g_select cfg m pop s = Ok (sel, s') -> J n s' /\ length sel = kids).
Context (HX : forall n m pool s ch s', J n s -> Forall P pool -> length pool = kids -> g_crossover cfg m pool s = Ok (ch, s') -> J n s' /\ Forall P ch /\ length ch = kids).
Context (HM : forall n m c s c' s', J n s -> P c -> g_mutate cfg m c s = Ok (c', s') -> J n s' /\ P c').
Context (HP : forall n m pop ch s pop' s', J n s -> Forall P pop -> Forall P ch -> g_replace cfg m pop ch s = Ok (pop', s') -> J n s' /\ Forall P pop').
Notation N0 := (g_population_size cfg).
Definition per_generation : nat := 2 * N0 + (if g_requires_children_fitness cfg then kids else 0).

Lemma count_eval pop : forall n s pop' s', J n s -> Forall P pop -> g_eval_pop cfg pop s = Ok (pop', s') -> J (n + length pop) s' /\ Forall P pop'.
Proof.
  induction pop as [|x xs IH]; intros n s pop' s' Hn HF H; cbn in H; [injection H as <- <-; split; [rewrite Nat.add_0_r; exact Hn|constructor]|].
  apply Forall_cons in HF as [Hx HF]. apply obind_Ok in H as ([y s1] & H1 & H). apply obind_Ok in H as ([ys s2] & H2 & H). injection H as <- <-.
  unfold g_eval_ind in H1. rewrite (HR x Hx) in H1. apply obind_Ok in H1 as ([[v x'] s1'] & H1 & E). injection E as <- <-.
  destruct (HE _ _ _ _ _ _ Hn Hx (HR x Hx) H1) as [J1 P1]. destruct (IH _ _ _ _ J1 HF H2) as [J2 P2]. split; [|constructor; assumption].
  cbn [length]. replace (n + S (length xs)) with (n + 1 + length xs) by lia. exact J2.
Qed.
Lemma count_mutate m ch : forall n s ch' s', J n s -> Forall P ch -> g_mutate_all cfg m ch s = Ok (ch', s') -> J n s' /\ Forall P ch'.
Proof.
  induction ch as [|x xs IH]; intros n s pop' s' Hn HF H; cbn in H; [injection H as <- <-; split; [exact Hn|constructor]|].
  apply Forall_cons in HF as [Hx HF]. apply obind_Ok in H as ([y s1] & H1 & H). apply obind_Ok in H as ([ys s2] & H2 & H). injection H as <- <-.
  destruct (HM _ _ _ _ _ _ Hn Hx H1) as [J1 P1]. destruct (IH _ _ _ _ J1 HF H2) as [J2 P2]. split; [exact J2|constructor; assumption].
Qed.
Lemma count_generation ck g m pop best s evs m' pop' best' s' n : J n s -> Forall P pop -> length pop = N0 ->
  g_generation cfg ck g m pop best s = Ok (evs, (m', pop', best', s')) ->
  J (n + per_generation) s' /\ Forall P pop' /\ length pop' = N0 /\ finished_iterations evs = 1.
Proof.
  intros Jn HF HL H. unfold g_generation in H.
  apply obind_Ok in H as ([p1 s1] & H1 & H). destruct (count_eval _ _ _ _ _ Jn HF H1) as [J1 P1]. pose proof (eval_length _ _ _ _ H1) as L1.
  apply obind_Ok in H as ([sel s2] & H2 & H). destruct (HS _ _ _ _ _ _ J1 P1 H2) as [J2 L2].
  apply obind_Ok in H as (pool & H3 & H). pose proof (omapM_length _ _ _ H3) as L3.
  assert (P3 : Forall P pool). { apply omapM_index_in in H3. apply Forall_forall. intros x Hx. rewrite Forall_forall in H3, P1. apply P1, H3, Hx. }
  apply obind_Ok in H as ([ch s3] & H4 & H). destruct (HX _ _ _ _ _ _ J2 P3 ltac:(lia) H4) as (J4 & P4 & L4).
  apply obind_Ok in H as ([ch2 s4] & H5 & H). destruct (count_mutate _ _ _ _ _ _ J4 P4 H5) as [J5 P5]. pose proof (mutate_length _ _ _ _ _ H5) as L5.
  apply obind_Ok in H as ([ch3 s5] & H6 & H).
  assert (J (n + length pop + (if g_requires_children_fitness cfg then kids else 0)) s5 /\ Forall P ch3) as [J6 P6].
  { destruct (g_requires_children_fitness cfg). { destruct (count_eval _ _ _ _ _ J5 P5 H6) as [A B]. rewrite L5, L4 in A. auto. } injection H6 as <- <-. rewrite Nat.add_0_r. auto. }
  apply obind_Ok in H as ([p2 s6] & H7 & H). destruct (HP _ _ _ _ _ _ _ J6 P1 P6 H7) as [J7 P7].
  apply obind_Ok in H as ([] & H8 & H). apply rassert_Ok in H8. apply bool_decide_eq_true in H8.
  apply obind_Ok in H as ([p3 s7] & H9 & H). destruct (count_eval _ _ _ _ _ J7 P7 H9) as [J9 P9]. pose proof (eval_length _ _ _ _ H9) as L9.
  apply obind_Ok in H as (b & Hb & H). injection H as <- <- <- <- <-. split.
  - unfold per_generation. match type of J9 with J ?a _ => match goal with |- J ?b _ => replace b with a by (rewrite HL, H8; lia) end end. exact J9.
  - split; [exact P9|]. split; [lia|]. destruct (g_less cfg b best); reflexivity.
Qed.
Lemma finished_app {A} (l l' : list (gevent A)) : finished_iterations (l ++ l') = finished_iterations l + finished_iterations l'.
Proof. unfold finished_iterations. rewrite List.filter_app, app_length. reflexivity. Qed.
Lemma count_loop ck : forall k g m pop best s evs m' pop' best' s' n, J n s -> Forall P pop -> length pop = N0 ->
  g_main_loop cfg ck k g m pop best s = Ok (evs, (m', pop', best', s')) ->
  J (n + finished_iterations evs * per_generation) s' /\ finished_iterations evs <= k /\ (0 < k -> 0 < finished_iterations evs).
Proof.
  induction k as [|k IH]; intros g m pop best s evs m' pop' best' s' n Jn HF HL H; cbn [g_main_loop] in H.
  - injection H as <- <- <- <- <-. cbn. rewrite Nat.add_0_r. split; [exact Jn|]. lia.
  - apply obind_Ok in H as ([evs1 [[[m1 p1] b1] s1]] & H1 & H). destruct (count_generation _ _ _ _ _ _ _ _ _ _ _ _ Jn HF HL H1) as (J1 & P1 & L1 & F1).
    destruct (_ <=? _)%N.
    + injection H as <- <- <- <- <-. rewrite F1. replace (1 * per_generation) with per_generation by lia. split; [exact J1|lia].
    + apply obind_Ok in H as ([evs2 [[[m2 p2] b2] s2]] & H2 & H). injection H as <- <- <- <- <-. destruct (IH _ _ _ _ _ _ _ _ _ _ _ J1 P1 L1 H2) as (J2 & L2 & _).
      rewrite finished_app, F1. split; [|lia]. replace (n + (1 + finished_iterations evs2) * per_generation) with (n + per_generation + finished_iterations evs2 * per_generation) by lia. exact J2.
Qed.
Lemma count_run ck m0 s evs b m s' n : J n s -> g_run cfg ck m0 s = Ok (evs, b, m, s') ->
  J (n + N0 + finished_iterations evs * per_generation) s' /\ finished_iterations evs <= g_generation_limit cfg /\ (0 < g_generation_limit cfg -> 0 < finished_iterations evs).
Proof.
  intros Jn H. unfold g_run in H. apply obind_Ok in H as ([p0 s0] & H0 & H). destruct (HG _ _ _ _ Jn H0) as (J0 & P0 & L0).
  apply obind_Ok in H as ([p1 s1] & H1 & H). destruct (count_eval _ _ _ _ _ J0 P0 H1) as [J1 P1]. pose proof (eval_length _ _ _ _ H1) as L1. rewrite L0 in J1.
  apply obind_Ok in H as (b0 & Hb & H). apply obind_Ok in H as ([evs1 [[[m1 p2] b1] s2]] & HL & H). injection H as <- <- <- <-.
  destruct (count_loop _ _ _ _ _ _ _ _ _ _ _ _ _ J1 P1 ltac:(lia) HL) as (J2 & L2 & L3).
  assert (E : finished_iterations ([GStart m0; GInitialPopulation (Metrics (m_generation m0) (length p0) (m_total_dur m0)) p1; GNewBest (Metrics (m_generation m0) (length p1) (Some (c_init ck))) b0] ++ evs1 ++ [GEnd (Metrics (m_generation m1) (m_population_size m1) (Some (c_final ck))) p2 b1]) = finished_iterations evs1).
  { rewrite !finished_app. change (finished_iterations [GStart _; _; _]) with 0. change (finished_iterations [GEnd _ _ _]) with 0. lia. }
  cbn [app] in E. cbn [app]. rewrite E. auto.
Qed.
End Count.

(** ** Runs that do not fail *)
Section Total.
Context (W : St -> Prop) (P D : I -> Prop) (kids : nat).
Notation N0 := (g_population_size cfg).
Context (H0 : 0 < N0).
Context (TG : forall s, W s -> exists pop s', g_generate cfg N0 s = Ok (pop, s') /\ W s' /\ Forall P pop /\ length pop = N0).
Context (TR : forall x, P x -> g_requires cfg x = true).
Context (TE : forall s x, W s -> P x -> exists v x' s', g_fitness cfg x s = Ok (v, x', s') /\ W s' /\ P (g_set cfg x' v) /\ D (g_set cfg x' v)).
Context (TC : forall a b, D a -> D b -> exists c, g_cmp cfg a b = Ok c).
Context (TS : forall m pop s, W s -> Forall P pop -> Forall D pop -> length pop = N0 -> exists sel s', g_select cfg m pop s = Ok (sel, s') /\ W s' /\ length sel = kids /\ Forall (fun i => i < N0) sel).
Context (TX : forall m pool s, W s -> Forall P pool -> length pool = kids -> exists ch s', g_crossover cfg m pool s = Ok (ch, s') /\ W s' /\ Forall P ch /\ length ch = kids).
Context (TM : forall m c s, W s -> P c -> exists c' s', g_mutate cfg m c s = Ok (c', s') /\ W s' /\ P c').
Context (TP : forall m pop ch s, W s -> Forall P pop -> Forall D pop -> length pop = N0 -> Forall P ch -> length ch = kids -> (g_requires_children_fitness cfg = true -> Forall D ch) ->
  exists pop' s', g_replace cfg m pop ch s = Ok (pop', s') /\ W s' /\ Forall P pop' /\ length pop' = N0).
Lemma total_eval pop : forall s, W s -> Forall P pop -> exists pop' s', g_eval_pop cfg pop s = Ok (pop', s') /\ W s' /\ Forall P pop' /\ Forall D pop' /\ length pop' = length pop.
Proof.
  induction pop as [|x xs IH]; intros s Ws HF; cbn; [exists [], s; split_and!; auto|]. apply Forall_cons in HF as [Hx HF].
  unfold g_eval_ind. rewrite (TR x Hx). destruct (TE s x Ws Hx) as (v & x' & s1 & -> & W1 & P1 & D1). cbn [mbind outcome_bind].
  destruct (IH s1 W1 HF) as (xs' & s2 & -> & W2 & P2 & D2 & L2). cbn [mbind outcome_bind]. eexists _, _. split; [reflexivity|]. split; [exact W2|]. split; [constructor; assumption|]. split; [constructor; assumption|]. cbn. congruence.
Qed.
Lemma total_mutate m ch : forall s, W s -> Forall P ch -> exists ch' s', g_mutate_all cfg m ch s = Ok (ch', s') /\ W s' /\ Forall P ch' /\ length ch' = length ch.
Proof.
  induction ch as [|x xs IH]; intros s Ws HF; cbn; [exists [], s; split_and!; auto|]. apply Forall_cons in HF as [Hx HF].
  destruct (TM m x s Ws Hx) as (x' & s1 & -> & W1 & P1). cbn [mbind outcome_bind]. destruct (IH s1 W1 HF) as (xs' & s2 & -> & W2 & P2 & L2). cbn [mbind outcome_bind].
  eexists _, _. split; [reflexivity|]. split; [exact W2|]. split; [constructor; assumption|]. cbn. congruence.
Qed.
Lemma total_min : forall l acc, D acc -> Forall D l -> exists b, g_min_from cfg acc l = Ok b.
Proof.
  induction l as [|x xs IH]; intros acc Ha Hl; cbn; [eauto|]. apply Forall_cons in Hl as [Hx Hl]. destruct (TC acc x Ha Hx) as [c ->]. cbn [mbind outcome_bind]. apply IH; [destruct c; assumption|exact Hl].
Qed.
Lemma total_find pop : Forall D pop -> 0 < length pop -> exists b, g_find_best cfg pop = Ok b.
Proof. destruct pop as [|x xs]; cbn; [lia|]. intros HF _. apply Forall_cons in HF as [Hx HF]. apply total_min; assumption. Qed.
Lemma omapM_index_total {A} (pop : list A) sel : Forall (fun i => i < length pop) sel -> exists pool, omapM (index pop) sel = Ok pool.
Proof.
  induction 1 as [|i sel Hi HF [pool IH]]; cbn [omapM]; [eauto|]. apply lookup_lt_is_Some in Hi as [x Hx]. assert (index pop i = Ok x) as -> by (unfold index; rewrite Hx; reflexivity). cbn [mbind outcome_bind]. rewrite IH. cbn [mbind outcome_bind]. eauto.
Qed.
Lemma total_generation ck g m pop best s : W s -> Forall P pop -> length pop = N0 ->
  exists evs m' pop' best' s', g_generation cfg ck g m pop best s = Ok (evs, (m', pop', best', s')) /\ W s' /\ Forall P pop' /\ length pop' = N0.
Proof.
  intros Ws HP HL. unfold g_generation. destruct (total_eval pop s Ws HP) as (p1 & s1 & -> & W1 & P1 & D1 & L1). cbn [mbind outcome_bind]. set (m' := Metrics _ _ _).
  destruct (TS m' p1 s1 W1 P1 D1 ltac:(lia)) as (sel & s2 & -> & W2 & L2 & F2). cbn [mbind outcome_bind].
  assert (F2' : Forall (fun i => i < length p1) sel) by (rewrite L1, HL; exact F2). destruct (omapM_index_total p1 sel F2') as [pool Hpool]. rewrite Hpool. cbn [mbind outcome_bind].
  pose proof (omapM_length _ _ _ Hpool) as L3. assert (P3 : Forall P pool). { apply omapM_index_in in Hpool. apply Forall_forall. intros x Hx. rewrite Forall_forall in Hpool, P1. apply P1, Hpool, Hx. }
  destruct (TX m' pool s2 W2 P3 ltac:(lia)) as (ch & s3 & -> & W3 & P4 & L4). cbn [mbind outcome_bind].
  destruct (total_mutate m' ch s3 W3 P4) as (ch2 & s4 & -> & W4 & P5 & L5). cbn [mbind outcome_bind].
  assert (exists ch3 s5, (if g_requires_children_fitness cfg then g_eval_pop cfg ch2 s4 else Ok (ch2, s4)) = Ok (ch3, s5) /\ W s5 /\ Forall P ch3 /\ length ch3 = length ch2 /\ (g_requires_children_fitness cfg = true -> Forall D ch3)) as (ch3 & s5 & -> & W5 & P6 & L6 & D6).
  { destruct (g_requires_children_fitness cfg); [|exists ch2, s4; split_and!; auto; discriminate]. destruct (total_eval ch2 s4 W4 P5) as (c & t & A & B & C & F & E). exists c, t. split_and!; auto. }
  cbn [mbind outcome_bind]. destruct (TP m' p1 ch3 s5 W5 P1 D1 ltac:(lia) P6 ltac:(lia) D6) as (p2 & s6 & -> & W6 & P7 & L7). cbn [mbind outcome_bind].
  rewrite bool_decide_eq_true_2 by exact L7. cbn [rassert mbind outcome_bind]. destruct (total_eval p2 s6 W6 P7) as (p3 & s7 & -> & W7 & P8 & D8 & L8). cbn [mbind outcome_bind].
  destruct (total_find p3 D8 ltac:(lia)) as [b ->]. cbn [mbind outcome_bind]. eexists _, _, _, _, _. split; [reflexivity|]. split; [exact W7|]. split; [exact P8|lia].
Qed.
Lemma total_loop ck : forall k g m pop best s, W s -> Forall P pop -> length pop = N0 ->
  exists evs m' pop' best' s', g_main_loop cfg ck k g m pop best s = Ok (evs, (m', pop', best', s')) /\ W s'.
Proof.
  induction k as [|k IH]; intros g m pop best s Ws HP HL; cbn [g_main_loop]; [eexists _, _, _, _, _; split; [reflexivity|exact Ws]|].
  destruct (total_generation ck g m pop best s Ws HP HL) as (evs & m1 & p1 & b1 & s1 & -> & W1 & P1 & L1). cbn [mbind outcome_bind].
  destruct (_ <=? _)%N; [eexists _, _, _, _, _; split; [reflexivity|exact W1]|]. destruct (IH (g + 1) m1 p1 b1 s1 W1 P1 L1) as (evs2 & m2 & p2 & b2 & s2 & -> & W2). cbn [mbind outcome_bind].
  eexists _, _, _, _, _; split; [reflexivity|exact W2].
Qed.
Lemma total_run ck m0 s : W s -> exists evs b m s', g_run cfg ck m0 s = Ok (evs, b, m, s') /\ W s'.
Proof.
  intros Ws. unfold g_run. destruct (TG s Ws) as (p0 & s0 & -> & W0 & P0 & L0). cbn [mbind outcome_bind].
  destruct (total_eval p0 s0 W0 P0) as (p1 & s1 & -> & W1 & P1 & D1 & L1). cbn [mbind outcome_bind]. destruct (total_find p1 D1 ltac:(lia)) as [b ->]. cbn [mbind outcome_bind].
  destruct (total_loop ck (g_generation_limit cfg) 1 (Metrics (m_generation m0) (length p1) (Some (c_init ck))) p1 b s1 W1 P1 ltac:(lia)) as (evs & m1 & p2 & b1 & s2 & -> & W2).
  cbn [mbind outcome_bind]. eexists _, _, _, _. split; [reflexivity|exact W2].
Qed.
End Total.

(** ** Individuals that need no evaluation *)
Section Asked.
(** [asked s]: the individuals that were given to the fitness function so far, latest first. *)
Context (asked : St -> list I).
Context (AG : forall k s pop s', g_generate cfg k s = Ok (pop, s') -> asked s' = asked s).
Context (AE : forall s x v x' s', g_fitness cfg x s = Ok (v, x', s') -> asked s' = x :: asked s).
Context (AS : forall m pop s sel s', g_select cfg m pop s = Ok (sel, s') -> asked s' = asked s).
Context (AX : forall m pool s ch s', g_crossover cfg m pool s = Ok (ch, s') -> asked s' = asked s).
Context (AM : forall m c s c' s', g_mutate cfg m c s = Ok (c', s') -> asked s' = asked s).
Context (AP : forall m pop ch s pop' s', g_replace cfg m pop ch s = Ok (pop', s') -> asked s' = asked s).
Definition grows (s s' : St) : Prop := exists l, asked s' = l ++ asked s /\ Forall (fun x => g_requires cfg x = true) l.
Lemma grows_refl s s' : asked s' = asked s -> grows s s'.
Proof. intros E. exists []. split; [exact E|constructor]. Qed.
Lemma grows_trans s1 s2 s3 : grows s1 s2 -> grows s2 s3 -> grows s1 s3.
Proof. intros (l & E & F) (l' & E' & F'). exists (l' ++ l). split; [rewrite E', E; apply app_assoc|apply Forall_app; auto]. Qed.
Lemma grows_eval pop : forall s pop' s', g_eval_pop cfg pop s = Ok (pop', s') -> grows s s'.
Proof.
  induction pop as [|x xs IH]; intros s pop' s' H; cbn in H; [injection H as <- <-; apply grows_refl; reflexivity|].
  apply obind_Ok in H as ([y s1] & H1 & H). apply obind_Ok in H as ([ys s2] & H2 & H). injection H as <- <-. apply (grows_trans s s1); [|eapply IH, H2].
  unfold g_eval_ind in H1. destruct (g_requires cfg x) eqn:R; [|injection H1 as <- <-; apply grows_refl; reflexivity].
  apply obind_Ok in H1 as ([[v x'] s1'] & H1 & E). injection E as <- <-. exists [x]. split; [apply (AE _ _ _ _ _ H1)|constructor; [exact R|constructor]].
Qed.
Lemma grows_mutate m ch : forall s ch' s', g_mutate_all cfg m ch s = Ok (ch', s') -> grows s s'.
Proof.
  induction ch as [|x xs IH]; intros s pop' s' H; cbn in H; [injection H as <- <-; apply grows_refl; reflexivity|].
  apply obind_Ok in H as ([y s1] & H1 & H). apply obind_Ok in H as ([ys s2] & H2 & H). injection H as <- <-. apply (grows_trans s s1); [apply grows_refl, (AM _ _ _ _ _ H1)|eapply IH, H2].
Qed.
Lemma grows_generation ck g m pop best s evs st s' : g_generation cfg ck g m pop best s = Ok (evs, (st, s')) -> grows s s'.
Proof.
  intros H. unfold g_generation in H.
  apply obind_Ok in H as ([p1 s1] & H1 & H). apply grows_eval in H1. apply obind_Ok in H as ([sel s2] & H2 & H). apply AS, grows_refl in H2.
  apply obind_Ok in H as (pool & _ & H). apply obind_Ok in H as ([ch s3] & H3 & H). apply AX, grows_refl in H3.
  apply obind_Ok in H as ([ch2 s4] & H4 & H). apply grows_mutate in H4. apply obind_Ok in H as ([ch3 s5] & H5 & H).
  assert (H5' : grows s4 s5) by (destruct (g_requires_children_fitness cfg); [eapply grows_eval, H5|injection H5 as <- <-; apply grows_refl; reflexivity]).
  apply obind_Ok in H as ([p2 s6] & H6 & H). apply AP, grows_refl in H6. apply obind_Ok in H as ([] & _ & H).
  apply obind_Ok in H as ([p3 s7] & H7 & H). apply grows_eval in H7. apply obind_Ok in H as (b & _ & H). injection H as _ _ <-.
  eauto 10 using grows_trans.
Qed.
Lemma grows_loop ck : forall k g m pop best s evs st s', g_main_loop cfg ck k g m pop best s = Ok (evs, (st, s')) -> grows s s'.
Proof.
  induction k as [|k IH]; intros g m pop best s evs st s' H; cbn [g_main_loop] in H; [injection H as _ _ <-; apply grows_refl; reflexivity|].
  apply obind_Ok in H as ([evs1 [[[m1 p1] b1] s1]] & H1 & H). apply grows_generation in H1. destruct (_ <=? _)%N; [injection H as _ _ <-; exact H1|].
  apply obind_Ok in H as ([evs2 [st2 s2]] & H2 & H). injection H as _ _ <-. apply IH in H2. eapply grows_trans; eassumption.
Qed.
Lemma grows_run ck m0 s evs b m s' : g_run cfg ck m0 s = Ok (evs, b, m, s') -> grows s s'.
Proof.
  intros H. unfold g_run in H. apply obind_Ok in H as ([p0 s0] & H0 & H). apply AG, grows_refl in H0. apply obind_Ok in H as ([p1 s1] & H1 & H). apply grows_eval in H1.
  apply obind_Ok in H as (b0 & _ & H). apply obind_Ok in H as ([evs1 [[[m1 p2] b1] s2]] & HL & H). injection H as _ _ _ <-. apply grows_loop in HL. eauto using grows_trans.
Qed.
End Asked.

(** ** Individuals that remember their fitness *)
Section Cached.
Context (calls : St -> nat) (kids : nat).
Notation N0 := (g_population_size cfg).
Context (KG : forall s pop s', g_generate cfg N0 s = Ok (pop, s') -> calls s' = calls s /\ length pop = N0).
Context (KE : forall s x v x' s', g_fitness cfg x s = Ok (v, x', s') -> calls s' = calls s + 1 /\ g_requires cfg (g_set cfg x' v) = false).
Context (KS : forall m pop s sel s', g_select cfg m pop s = Ok (sel, s') -> calls s' = calls s /\ length sel = kids).
Context (KX : forall m pool s ch s', length pool = kids -> g_crossover cfg m pool s = Ok (ch, s') -> calls s' = calls s /\ length ch = kids).
Context (KM : forall m c s c' s', g_mutate cfg m c s = Ok (c', s') -> calls s' = calls s).
Context (KP : forall m pop ch s pop' s', g_replace cfg m pop ch s = Ok (pop', s') -> calls s' = calls s /\ Forall (fun x => x ∈ pop \/ x ∈ ch) pop').
Context (KC : g_requires_children_fitness cfg = true).
Notation done := (Forall (fun x => g_requires cfg x = false)).
Lemma cached_eval pop : forall s pop' s', g_eval_pop cfg pop s = Ok (pop', s') -> calls s' <= calls s + length pop /\ (done pop -> calls s' = calls s) /\ done pop'.
Proof.
  induction pop as [|x xs IH]; intros s pop' s' H; cbn in H; [injection H as <- <-; split; [lia|auto]|].
  apply obind_Ok in H as ([y s1] & H1 & H). apply obind_Ok in H as ([ys s2] & H2 & H). injection H as <- <-. destruct (IH _ _ _ H2) as (A & B & C).
  unfold g_eval_ind in H1. cbn [length]. destruct (g_requires cfg x) eqn:R.
  - apply obind_Ok in H1 as ([[v x'] s1'] & H1 & E). injection E as <- <-. destruct (KE _ _ _ _ _ H1) as [E1 E2].
    split; [lia|]. split; [intros F; apply Forall_cons in F as [F _]; congruence|constructor; assumption].
  - injection H1 as <- <-. split; [lia|]. split; [intros F; apply Forall_cons in F as [_ F]; auto|constructor; assumption].
Qed.
Lemma cached_mutate m ch : forall s ch' s', g_mutate_all cfg m ch s = Ok (ch', s') -> calls s' = calls s.
Proof.
  induction ch as [|x xs IH]; intros s pop' s' H; cbn in H; [injection H as <- <-; reflexivity|].
  apply obind_Ok in H as ([y s1] & H1 & H). apply obind_Ok in H as ([ys s2] & H2 & H). injection H as <- <-. rewrite (IH _ _ _ H2). apply (KM _ _ _ _ _ H1).
Qed.
Lemma cached_generation ck g m pop best s evs m' pop' best' s' : done pop -> g_generation cfg ck g m pop best s = Ok (evs, (m', pop', best', s')) ->
  calls s' <= calls s + kids /\ done pop' /\ finished_iterations evs = 1.
Proof.
  intros HF H. unfold g_generation in H.
  apply obind_Ok in H as ([p1 s1] & H1 & H). destruct (cached_eval _ _ _ _ H1) as (_ & E1 & D1). specialize (E1 HF).
  apply obind_Ok in H as ([sel s2] & H2 & H). destruct (KS _ _ _ _ _ H2) as [E2 L2].
  apply obind_Ok in H as (pool & H3 & H). pose proof (omapM_length _ _ _ H3) as L3.
  apply obind_Ok in H as ([ch s3] & H4 & H). assert (L3p : length pool = kids) by congruence. destruct (KX _ _ _ _ _ L3p H4) as [E4 L4].
  apply obind_Ok in H as ([ch2 s4] & H5 & H). pose proof (cached_mutate _ _ _ _ _ H5) as E5. pose proof (mutate_length _ _ _ _ _ H5) as L5.
  apply obind_Ok in H as ([ch3 s5] & H6 & H). rewrite KC in H6. destruct (cached_eval _ _ _ _ H6) as (E6 & _ & D6).
  apply obind_Ok in H as ([p2 s6] & H7 & H). destruct (KP _ _ _ _ _ _ H7) as [E7 F7].
  apply obind_Ok in H as ([] & _ & H). apply obind_Ok in H as ([p3 s7] & H9 & H). destruct (cached_eval _ _ _ _ H9) as (_ & E9 & D9).
  apply obind_Ok in H as (b & Hb & H). injection H as <- <- <- <- <-. split; [|split; [exact D9|destruct (g_less cfg b best); reflexivity]].
  rewrite E9; [lia|]. apply Forall_forall. intros x Hx. rewrite Forall_forall in F7, D1, D6. destruct (F7 x Hx); auto.
Qed.
Lemma cached_loop ck : forall k g m pop best s evs m' pop' best' s', done pop ->
  g_main_loop cfg ck k g m pop best s = Ok (evs, (m', pop', best', s')) -> calls s' <= calls s + finished_iterations evs * kids.
Proof.
  induction k as [|k IH]; intros g m pop best s evs m' pop' best' s' HF H; cbn [g_main_loop] in H.
  - injection H as <- <- <- <- <-. cbn. lia.
  - apply obind_Ok in H as ([evs1 [[[m1 p1] b1] s1]] & H1 & H). destruct (cached_generation _ _ _ _ _ _ _ _ _ _ _ HF H1) as (J1 & P1 & F1).
    destruct (_ <=? _)%N; [injection H as <- <- <- <- <-; lia|].
    apply obind_Ok in H as ([evs2 [[[m2 p2] b2] s2]] & H2 & H). injection H as <- <- <- <- <-. specialize (IH _ _ _ _ _ _ _ _ _ _ P1 H2). rewrite finished_app, F1. lia.
Qed.
Lemma cached_run ck m0 s evs b m s' : g_run cfg ck m0 s = Ok (evs, b, m, s') -> calls s' <= calls s + N0 + finished_iterations evs * kids.
Proof.
  intros H. unfold g_run in H. apply obind_Ok in H as ([p0 s0] & H0 & H). destruct (KG _ _ _ H0) as [E0 L0].
  apply obind_Ok in H as ([p1 s1] & H1 & H). destruct (cached_eval _ _ _ _ H1) as (E1 & _ & D1).
  apply obind_Ok in H as (b0 & Hb & H). apply obind_Ok in H as ([evs1 [[[m1 p2] b1] s2]] & HL & H). injection H as <- <- <- <-.
  pose proof (cached_loop _ _ _ _ _ _ _ _ _ _ _ _ D1 HL) as L.
  assert (E : finished_iterations ([GStart m0; GInitialPopulation (Metrics (m_generation m0) (length p0) (m_total_dur m0)) p1; GNewBest (Metrics (m_generation m0) (length p1) (Some (c_init ck))) b0] ++ evs1 ++ [GEnd (Metrics (m_generation m1) (m_population_size m1) (Some (c_final ck))) p2 b1]) = finished_iterations evs1).
  { rewrite !finished_app. change (finished_iterations [GStart _; _; _]) with 0. change (finished_iterations [GEnd _ _ _]) with 0. lia. }
  cbn [app] in E. cbn [app]. rewrite E. lia.
Qed.
End Cached.
End Solver.
