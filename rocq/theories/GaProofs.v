(** * Proofs about the genetic solver *)
From Verif Require Export GaModel GaSpec.
Open Scope nat_scope.

Section Solver.
Context {G St : Type}.
Variable cfg : config G St.
Notation ind := (individual G).
Notation population := (list ind).
Notation ev := (event G).
Implicit Types pop : population.

(** ** find_best *)
Lemma find_best_min pop b : find_best pop = Ok b -> Forall (fun x => is_nan (fitness x) = false) pop ->
  b ∈ pop /\ Forall (fun x => fle (fitness b) (fitness x) = true) pop.
Proof.
  intros H Hn. unfold find_best in H. apply obind_Ok in H as (o & Ho & H). apply unwrap_Ok in H as ->.
  destruct pop as [|x xs]; [discriminate|]. cbn [iter_min] in Ho. apply obind_Ok in Ho as (m & Hm & Ho). injection Ho as ->.
  apply Forall_cons in Hn as [Hx Hn]. destruct (iter_min_from_spec _ _ _ _ Hm Hx) as (H1 & H2 & H3). split; auto.
Qed.
Lemma iter_min_from_in {A} (key : A -> f64) l : forall acc m, iter_min_from key acc l = Ok m -> m ∈ acc :: l.
Proof.
  induction l as [|x xs IH]; intros acc m H; cbn [iter_min_from] in H; [injection H as ->; left|].
  apply obind_Ok in H as (c & Hc & H). apply IH in H. rewrite !elem_of_cons in *. destruct c; tauto.
Qed.
Lemma iter_min_from_nan {A} (key : A -> f64) l : forall acc m, iter_min_from key acc l = Ok m -> l <> [] ->
  is_nan (key acc) = false /\ Forall (fun x => is_nan (key x) = false) l.
Proof.
  induction l as [|x xs IH]; intros acc m H Hne; [congruence|]. cbn [iter_min_from] in H.
  apply obind_Ok in H as (c & Hc & H). apply key_cmp_Ok in Hc. destruct (fcmp_not_nan _ _ _ Hc) as [Ha Hx].
  split; [exact Ha|]. constructor; [exact Hx|]. destruct xs as [|y ys]; [constructor|].
  apply IH in H as [_ H]; [exact H|discriminate].
Qed.
Lemma find_best_in pop b : find_best pop = Ok b -> b ∈ pop.
Proof.
  intros H. unfold find_best in H. apply obind_Ok in H as (o & Ho & H). apply unwrap_Ok in H as ->.
  destruct pop as [|x xs]; [discriminate|]. cbn [iter_min] in Ho. apply obind_Ok in Ho as (m & Hm & Ho). injection Ho as ->.
  apply iter_min_from_in in Hm. exact Hm.
Qed.
Lemma find_best_comparable pop b : find_best pop = Ok b -> 2 <= length pop -> Forall (fun x => is_nan (fitness x) = false) pop.
Proof.
  intros H Hl. unfold find_best in H. apply obind_Ok in H as (o & Ho & H). apply unwrap_Ok in H as ->.
  destruct pop as [|x xs]; [discriminate|]. cbn [iter_min] in Ho. apply obind_Ok in Ho as (m & Hm & Ho). injection Ho as ->.
  destruct xs as [|y ys]; [cbn in Hl; lia|]. apply iter_min_from_nan in Hm as [H1 H2]; [|discriminate]. constructor; auto.
Qed.
Lemma find_best_ok pop : pop <> [] -> Forall (fun x => is_nan (fitness x) = false) pop -> exists b, find_best pop = Ok b.
Proof.
  intros Hne Hn. destruct pop as [|x xs]; [congruence|]. apply Forall_cons in Hn as [Hx Hn].
  destruct (iter_min_from_ok fitness xs x Hx Hn) as [m Hm]. exists m. unfold find_best. cbn [iter_min]. rewrite Hm. reflexivity.
Qed.
Lemma find_best_empty : find_best ([] : population) = Panic.
Proof. reflexivity. Qed.

(** ** The main loop as a list of generations *)
Record gen_rec := GenRec { gr_m : metrics; gr_m' : metrics; gr_pop : population; gr_best : ind }.

Fixpoint loop_trace (best : ind) (gens : list gen_rec) : list ev :=
  match gens with
  | [] => []
  | r :: rest =>
      let improved := flt (fitness (gr_best r)) (fitness best) in
      let best' := if improved then gr_best r else best in
      ([OnIterationStart (gr_m r); OnNewGeneration (gr_m' r) (gr_pop r); OnBestFit (gr_m' r) (gr_best r)] ++
       (if improved then [OnNewBest (gr_m' r) best'] else []) ++ [OnIterationEnd (gr_m' r)]) ++ loop_trace best' rest
  end.
Fixpoint final_best (best : ind) (gens : list gen_rec) : ind :=
  match gens with
  | [] => best
  | r :: rest => final_best (if flt (fitness (gr_best r)) (fitness best) then gr_best r else best) rest
  end.
Fixpoint final_pop (pop : population) (gens : list gen_rec) : population :=
  match gens with [] => pop | r :: rest => final_pop (gr_pop r) rest end.

Definition evaluated pop : Prop := Forall (fun x => fitness x = op_fitness cfg (chromosome x)) pop.
Lemma eval_pop_evaluated pop : evaluated (eval_pop cfg pop).
Proof. apply Forall_fmap, Forall_true. intros x. reflexivity. Qed.

Definition good_gen (g : nat) (r : gen_rec) : Prop :=
  m_generation (gr_m r) = g /\ m_generation (gr_m' r) = g /\ evaluated (gr_pop r) /\
  length (gr_pop r) = population_size cfg /\ m_population_size (gr_m' r) = population_size cfg /\ find_best (gr_pop r) = Ok (gr_best r).

Lemma generation_Ok ck g m pop best s evs m' pop' best' s' :
  generation cfg ck g m pop best s = Ok (evs, (m', pop', best', s')) ->
  exists r, good_gen g r /\ evs = loop_trace best [r] /\ pop' = gr_pop r /\ m' = gr_m' r /\ best' = final_best best [r].
Proof.
  unfold generation. intros H.
  apply obind_Ok in H as ([sel s1] & H1 & H). apply obind_Ok in H as (pool & H2 & H).
  apply obind_Ok in H as ([ch s2] & H3 & H). apply obind_Ok in H as ([ch2 s3] & H4 & H).
  apply obind_Ok in H as ([pop2 s4] & H5 & H). apply obind_Ok in H as ([] & H6 & H). apply rassert_Ok, bool_decide_eq_true in H6.
  apply obind_Ok in H as (bg & H7 & H). injection H as <- <- <- <- <-.
  exists (GenRec (Metrics g (m_population_size m) (Some (c_start ck g))) (Metrics g (length pop2) (Some (c_start ck g))) (eval_pop cfg pop2) bg).
  split; [split_and!; cbn [gr_m gr_m' gr_pop gr_best m_generation m_population_size]|].
  - reflexivity.
  - reflexivity.
  - apply eval_pop_evaluated.
  - unfold eval_pop. rewrite fmap_length. exact H6.
  - exact H6.
  - exact H7.
  - cbn [loop_trace gr_m gr_m' gr_pop gr_best final_best]. rewrite app_nil_r. split_and!; try reflexivity.
Qed.

Lemma loop_trace_cons best r rest : loop_trace best (r :: rest) = loop_trace best [r] ++ loop_trace (final_best best [r]) rest.
Proof. cbn [loop_trace final_best]. rewrite app_nil_r. reflexivity. Qed.

Lemma main_loop_gens ck rem : forall g m pop best s evs m' pop' best' s',
  main_loop cfg ck rem g m pop best s = Ok (evs, (m', pop', best', s')) ->
  exists gens, evs = loop_trace best gens /\ pop' = final_pop pop gens /\ best' = final_best best gens /\
    (forall i r, gens !! i = Some r -> good_gen (g + i) r) /\
    m_generation m' = (match gens with [] => m_generation m | _ => g + length gens - 1 end) /\
    length gens <= rem /\ (0 < rem -> 0 < length gens) /\
    (forall i, S i < length gens -> (c_end ck (g + i) < max_duration cfg)%N) /\
    (length gens < rem -> (max_duration cfg <= c_end ck (g + length gens - 1))%N).
Proof.
  induction rem as [|rem IH]; intros g m pop best s evs m' pop' best' s' H; cbn [main_loop] in H.
  - injection H as <- <- <- <- <-. exists []. split_and!; auto; cbn; intros; try lia; try discriminate.
  - apply obind_Ok in H as ([evs1 [[[m1 pop1] best1] s1]] & H1 & H).
    destruct (generation_Ok _ _ _ _ _ _ _ _ _ _ _ H1) as (r & Hr & -> & -> & -> & ->).
    destruct (max_duration cfg <=? c_end ck g)%N eqn:E.
    + injection H as <- <- <- <- <-. exists [r]. split_and!; auto; cbn [length]; try lia.
      * intros [|i] r' Hi; [injection Hi as <-; rewrite Nat.add_0_r; exact Hr|discriminate].
      * destruct Hr as (_ & -> & _). lia.
      * intros _. replace (g + 1 - 1) with g by lia. apply N.leb_le. exact E.
    + apply obind_Ok in H as ([evs2 st] & H2 & H). injection H as <- ->. apply N.leb_gt in E.
      destruct (IH _ _ _ _ _ _ _ _ _ _ H2) as (gens & -> & -> & -> & Hg & Hm & Hle & Hpos & Hlt & Hge).
      exists (r :: gens). split_and!; auto.
      * rewrite loop_trace_cons. reflexivity.
      * intros [|i] r' Hi; [injection Hi as <-; rewrite Nat.add_0_r; exact Hr|].
        apply Hg in Hi. replace (g + Datatypes.S i) with (g + 1 + i) by lia. exact Hi.
      * cbn [length]. destruct gens; [|rewrite Hm; cbn [length]; lia]. destruct Hr as (_ & Hr & _). rewrite Hm. cbn. lia.
      * cbn; lia.
      * cbn; lia.
      * intros [|i] Hi; [rewrite Nat.add_0_r; exact E|]. cbn in Hi. replace (g + Datatypes.S i) with (g + 1 + i) by lia. apply Hlt. lia.
      * cbn [length]. intros Hi. specialize (Hge ltac:(lia)). replace (g + Datatypes.S (length gens) - 1) with (g + 1 + length gens - 1) by lia. exact Hge.
Qed.

Lemma run_gens ck m0 s evs b m s' : run cfg ck m0 s = Ok (evs, b, m, s') ->
  exists m1 m2 pop0 best0 gens,
    evs = [OnStart m0; OnInitialPopulation m1 pop0; OnNewBest m2 best0] ++ loop_trace best0 gens ++ [OnEnd m (final_pop pop0 gens) b] /\
    b = final_best best0 gens /\ find_best pop0 = Ok best0 /\ evaluated pop0 /\
    (exists raw s1, op_generate cfg (population_size cfg) s = Ok (raw, s1) /\ pop0 = eval_pop cfg raw) /\
    m_generation m1 = m_generation m0 /\ m_generation m2 = m_generation m0 /\ m_population_size m1 = length pop0 /\
    (forall i r, gens !! i = Some r -> good_gen (1 + i) r) /\
    m_generation m = (match gens with [] => m_generation m0 | _ => length gens end) /\
    length gens <= generation_limit cfg /\ (0 < generation_limit cfg -> 0 < length gens) /\
    (forall g, 0 < g < length gens -> (c_end ck g < max_duration cfg)%N) /\
    (length gens < generation_limit cfg -> (max_duration cfg <= c_end ck (length gens))%N).
Proof.
  unfold run. intros H. apply obind_Ok in H as ([raw s1] & H1 & H). apply obind_Ok in H as (best0 & H2 & H).
  apply obind_Ok in H as ([evs1 [[[m3 pop'] best'] s2]] & H3 & H). injection H as <- <- <- <-.
  destruct (main_loop_gens _ _ _ _ _ _ _ _ _ _ _ _ H3) as (gens & -> & -> & -> & Hg & Hm & Hle & Hpos & Hlt & Hge).
  eexists _, _, (eval_pop cfg raw), best0, gens. split; [reflexivity|]. split; [reflexivity|]. split; [exact H2|].
  split; [apply eval_pop_evaluated|]. split; [eauto|]. split_and!; auto.
  - cbn. unfold eval_pop. rewrite fmap_length. reflexivity.
  - cbn [m_generation]. rewrite Hm. destruct gens; [reflexivity|lia].
  - intros g Hgl. destruct g as [|g]; [lia|]. apply (Hlt g). lia.
  - intros Hl. specialize (Hge Hl). replace (1 + length gens - 1) with (length gens) in Hge by lia. exact Hge.
Qed.

(** ** Protocol *)
Lemma tagged_trace gens : forall g best, (forall i r, gens !! i = Some r -> good_gen (g + i) r) ->
  exists nbs, length nbs = length gens /\ tagged <$> loop_trace best gens = blocks g nbs.
Proof.
  induction gens as [|r rest IH]; intros g best Hg; [exists []; auto|].
  assert (Hr : good_gen g r) by (specialize (Hg 0 r eq_refl); rewrite Nat.add_0_r in Hg; exact Hg).
  destruct (IH (Datatypes.S g) (final_best best [r])) as (nbs & Hl & E).
  { intros i r' Hi. replace (Datatypes.S g + i) with (g + Datatypes.S i) by lia. apply Hg. exact Hi. }
  exists (flt (fitness (gr_best r)) (fitness best) :: nbs). split; [cbn; lia|].
  rewrite loop_trace_cons, fmap_app, E. cbn [blocks]. f_equal. cbn [loop_trace]. rewrite app_nil_r.
  destruct Hr as (Hm1 & Hm2 & _). unfold block, tagged.
  destruct (flt (fitness (gr_best r)) (fitness best)); cbn; rewrite Hm1, Hm2; reflexivity.
Qed.

Lemma run_protocol ck m0 s evs b m s' : run cfg ck m0 s = Ok (evs, b, m, s') -> m_generation m0 = 0 ->
  exists nbs, tagged <$> evs = [(KStart, 0); (KInitial, 0); (KNewBest, 0)] ++ blocks 1 nbs ++ [(KEnd, length nbs)] /\
    length nbs <= generation_limit cfg /\ (0 < generation_limit cfg -> 0 < length nbs) /\
    (forall g, 0 < g < length nbs -> (c_end ck g < max_duration cfg)%N) /\
    (length nbs < generation_limit cfg -> (max_duration cfg <= c_end ck (length nbs))%N).
Proof.
  intros H H0. destruct (run_gens _ _ _ _ _ _ _ H) as (m1 & m2 & pop0 & best0 & gens & -> & _ & _ & _ & _ & Hm1 & Hm2 & _ & Hg & Hm & Hle & Hpos & Hlt & Hge).
  destruct (tagged_trace gens 1 best0 Hg) as (nbs & Hl & E). exists nbs. rewrite Hl. split_and!; auto.
  rewrite !fmap_app, E. unfold tagged. cbn. rewrite Hm1, Hm2, H0. repeat f_equal. rewrite Hm, H0. destruct gens; reflexivity.
Qed.

(** ** Best individual *)
Lemma shown_trace best gens e q : e ∈ loop_trace best gens -> shown e = Some q -> exists r, r ∈ gens /\ q = gr_pop r.
Proof.
  revert best. induction gens as [|r rest IH]; intros best He Hq; [apply elem_of_nil in He; contradiction|].
  rewrite loop_trace_cons in He. apply elem_of_app in He as [He|He].
  - exists r. split; [left|]. cbn [loop_trace] in He. rewrite app_nil_r in He.
    destruct (flt (fitness (gr_best r)) (fitness best)); cbn [app] in He;
      repeat (apply elem_of_cons in He as [->|He]; [cbn in Hq; congruence|]); inversion He.
  - destruct (IH _ He Hq) as (r' & ? & ?). exists r'. split; [right|]; auto.
Qed.
Lemma trace_shown best gens r : r ∈ gens -> exists e, e ∈ loop_trace best gens /\ shown e = Some (gr_pop r).
Proof.
  revert best. induction gens as [|r0 rest IH]; intros best Hr; [inversion Hr|].
  rewrite loop_trace_cons. apply elem_of_cons in Hr as [->|Hr].
  - exists (OnNewGeneration (gr_m' r0) (gr_pop r0)). split; [|reflexivity]. apply elem_of_app. left. cbn [loop_trace]. right. left.
  - destruct (IH (final_best best [r0]) Hr) as (e & He & Hq). exists e. split; [|exact Hq]. apply elem_of_app. auto.
Qed.
Lemma final_pop_in pop gens : final_pop pop gens = pop \/ exists r, r ∈ gens /\ final_pop pop gens = gr_pop r.
Proof.
  revert pop. induction gens as [|r rest IH]; intros pop; [auto|]. cbn [final_pop].
  destruct (IH (gr_pop r)) as [E|(r' & Hr & E)]; right; [exists r; split; [left|auto]|exists r'; split; [right|]; auto].
Qed.

Lemma final_best_spec gens : forall best, is_nan (fitness best) = false ->
  (forall r, r ∈ gens -> gr_best r ∈ gr_pop r /\ is_nan (fitness (gr_best r)) = false /\
     Forall (fun x => fle (fitness (gr_best r)) (fitness x) = true) (gr_pop r)) ->
  fle (fitness (final_best best gens)) (fitness best) = true /\
  (final_best best gens = best \/ exists r, r ∈ gens /\ final_best best gens ∈ gr_pop r) /\
  forall r x, r ∈ gens -> x ∈ gr_pop r -> fle (fitness (final_best best gens)) (fitness x) = true.
Proof.
  induction gens as [|r rest IH]; intros best Hb Hr.
  - cbn. split_and!; auto using fle_refl. intros r x Hin. inversion Hin.
  - cbn [final_best]. destruct (Hr r ltac:(left)) as (Hin & Hn & Hmin).
    set (best' := if flt (fitness (gr_best r)) (fitness best) then gr_best r else best).
    assert (Hb' : is_nan (fitness best') = false) by (unfold best'; destruct (flt _ _); assumption).
    assert (H1 : fle (fitness best') (fitness best) = true).
    { unfold best'. destruct (flt _ _) eqn:E; [apply flt_le; exact E|apply fle_refl; exact Hb]. }
    assert (H2 : fle (fitness best') (fitness (gr_best r)) = true).
    { unfold best'. destruct (flt _ _) eqn:E; [apply fle_refl; exact Hn|].
      rewrite flt_fle_neg in E by assumption. apply negb_false_iff in E. exact E. }
    destruct (IH best' Hb') as (I1 & I2 & I3); [intros r' Hr'; apply Hr; right; exact Hr'|].
    split_and!.
    + eapply fle_trans; eauto.
    + destruct I2 as [E|(r' & Hr' & Hx)]; [|right; exists r'; split; [right|]; auto].
      rewrite E. unfold best'. destruct (flt _ _); [right; exists r; split; [left|exact Hin]|left; reflexivity].
    + intros r' x Hr' Hx. apply elem_of_cons in Hr' as [->|Hr']; [|eauto].
      rewrite Forall_forall in Hmin. eapply fle_trans; [exact I1|]. eapply fle_trans; [exact H2|]. auto.
Qed.

Lemma run_best ck m0 s evs b m s' : run cfg ck m0 s = Ok (evs, b, m, s') ->
  all_shown evs (fun x => is_nan (fitness x) = false) ->
  (exists e q, e ∈ evs /\ shown e = Some q /\ b ∈ q) /\ all_shown evs (fun x => fle (fitness b) (fitness x) = true).
Proof.
  intros H Hn. destruct (run_gens _ _ _ _ _ _ _ H) as (m1 & m2 & pop0 & best0 & gens & Ee & Eb & Hb0 & _ & _ & _ & _ & _ & Hg & _).
  assert (In0 : OnInitialPopulation m1 pop0 ∈ evs) by (rewrite Ee; right; left).
  assert (Inr : forall r, r ∈ gens -> exists e, e ∈ evs /\ shown e = Some (gr_pop r)).
  { intros r Hr. destruct (trace_shown best0 gens r Hr) as (e & He & Hq). exists e. split; [|exact Hq]. rewrite Ee.
    apply elem_of_app. right. apply elem_of_app. left. exact He. }
  assert (N0 : Forall (fun x => is_nan (fitness x) = false) pop0) by (apply Forall_forall; intros x Hx; apply (Hn _ pop0 x In0); auto).
  destruct (find_best_min pop0 best0 Hb0 N0) as [Hin0 Hmin0].
  assert (Hrs : forall r, r ∈ gens -> gr_best r ∈ gr_pop r /\ is_nan (fitness (gr_best r)) = false /\
     Forall (fun x => fle (fitness (gr_best r)) (fitness x) = true) (gr_pop r)).
  { intros r Hr. destruct (Inr r Hr) as (e & He & Hq). apply elem_of_list_lookup in Hr as [i Hi].
    destruct (Hg i r Hi) as (_ & _ & _ & _ & _ & Hfb).
    assert (Nr : Forall (fun x => is_nan (fitness x) = false) (gr_pop r)) by (apply Forall_forall; intros x Hx; apply (Hn e (gr_pop r) x); auto).
    destruct (find_best_min _ _ Hfb Nr) as [? ?]. split_and!; auto. rewrite Forall_forall in Nr. auto. }
  destruct (final_best_spec gens best0) as (F1 & F2 & F3); [rewrite Forall_forall in N0; auto|exact Hrs|]. rewrite <- Eb in *.
  split.
  - destruct F2 as [->|(r & Hr & Hx)]; [exists (OnInitialPopulation m1 pop0), pop0; auto|].
    destruct (Inr r Hr) as (e & He & Hq). eauto.
  - intros e q x He Hq Hx.
    assert (Hpop : q = pop0 \/ exists r, r ∈ gens /\ q = gr_pop r).
    { rewrite Ee in He. cbn [app] in He.
      apply elem_of_cons in He as [->|He]; [discriminate|]. apply elem_of_cons in He as [->|He]; [left; cbn in Hq; congruence|].
      apply elem_of_cons in He as [->|He]; [discriminate|]. apply elem_of_app in He as [He|He].
      - right. eapply shown_trace; eauto.
      - apply elem_of_list_singleton in He as ->. cbn in Hq. injection Hq as <-. apply final_pop_in. }
    destruct Hpop as [->|(r & Hr & ->)]; [|eauto].
    rewrite Forall_forall in Hmin0. eapply fle_trans; [exact F1|]. auto.
Qed.

(** No NaN in populations of at least two. *)
Lemma run_comparable ck m0 s evs b m s' e q : run cfg ck m0 s = Ok (evs, b, m, s') -> e ∈ evs -> shown e = Some q -> 2 <= length q ->
  Forall (fun x => is_nan (fitness x) = false) q.
Proof.
  intros H He Hq Hl. destruct (run_gens _ _ _ _ _ _ _ H) as (m1 & m2 & pop0 & best0 & gens & Ee & Eb & Hb0 & _ & _ & _ & _ & _ & Hg & _).
  assert (Hpop : q = pop0 \/ exists r, r ∈ gens /\ q = gr_pop r).
  { rewrite Ee in He. cbn [app] in He.
    apply elem_of_cons in He as [->|He]; [discriminate|]. apply elem_of_cons in He as [->|He]; [left; cbn in Hq; congruence|].
    apply elem_of_cons in He as [->|He]; [discriminate|]. apply elem_of_app in He as [He|He].
    - right. eapply shown_trace; eauto.
    - apply elem_of_list_singleton in He as ->. cbn in Hq. injection Hq as <-. apply final_pop_in. }
  destruct Hpop as [->|(r & Hr & ->)]; [eapply find_best_comparable; eauto|].
  apply elem_of_list_lookup in Hr as [i Hi]. destruct (Hg i r Hi) as (_ & _ & _ & _ & _ & Hfb). eapply find_best_comparable; eauto.
Qed.

(** ** Evaluation *)
Lemma run_evaluated ck m0 s evs b m s' : run cfg ck m0 s = Ok (evs, b, m, s') ->
  all_shown evs (fun x => fitness x = op_fitness cfg (chromosome x)) /\
  (forall mm q, OnNewGeneration mm q ∈ evs -> length q = population_size cfg /\ m_population_size mm = population_size cfg) /\
  (0 < generation_limit cfg -> forall mm q x, OnEnd mm q x ∈ evs -> length q = population_size cfg) /\
  fitness b = op_fitness cfg (chromosome b).
Proof.
  intros H. destruct (run_gens _ _ _ _ _ _ _ H) as (m1 & m2 & pop0 & best0 & gens & Ee & Eb & Hb0 & Hev & _ & _ & _ & _ & Hg & _ & _ & Hpos & _).
  assert (Hr : forall r, r ∈ gens -> evaluated (gr_pop r) /\ length (gr_pop r) = population_size cfg /\ m_population_size (gr_m' r) = population_size cfg /\ gr_best r ∈ gr_pop r).
  { intros r Hr. apply elem_of_list_lookup in Hr as [i Hi]. destruct (Hg i r Hi) as (_ & _ & H1 & H2 & H3 & H4).
    apply find_best_in in H4. auto. }
  assert (Hsplit : forall e, e ∈ evs -> e = OnStart m0 \/ e = OnInitialPopulation m1 pop0 \/ e = OnNewBest m2 best0 \/ e ∈ loop_trace best0 gens \/ e = OnEnd m (final_pop pop0 gens) b).
  { intros e He. rewrite Ee in He. rewrite elem_of_app, !elem_of_cons, elem_of_nil, elem_of_app, elem_of_list_singleton in He. tauto. }
  split_and!.
  - intros e q x He Hq Hx. destruct (Hsplit e He) as [->|[->|[->|[Ht| ->]]]]; try discriminate.
    + injection Hq as <-. unfold evaluated in Hev. rewrite Forall_forall in Hev. auto.
    + destruct (shown_trace _ _ _ _ Ht Hq) as (r & Hrin & ->). destruct (Hr r Hrin) as [He2 _]. unfold evaluated in He2. rewrite Forall_forall in He2. auto.
    + injection Hq as <-. destruct (final_pop_in pop0 gens) as [E|(r & Hrin & E)]; rewrite E in Hx.
      * unfold evaluated in Hev. rewrite Forall_forall in Hev. auto.
      * destruct (Hr r Hrin) as [He2 _]. unfold evaluated in He2. rewrite Forall_forall in He2. auto.
  - intros mm q He. destruct (Hsplit _ He) as [He'|[He'|[He'|[Ht|He']]]]; try discriminate.
    clear Hsplit He Ee Eb Hb0 Hev Hg Hpos H. revert best0 Ht. induction gens as [|r rest IH]; intros best0 Ht; [inversion Ht|].
    rewrite loop_trace_cons in Ht. apply elem_of_app in Ht as [Ht|Ht].
    + destruct (Hr r ltac:(left)) as (_ & H1 & H2 & _). cbn [loop_trace] in Ht. rewrite app_nil_r in Ht.
      destruct (flt (fitness (gr_best r)) (fitness best0)); cbn [app] in Ht;
      repeat (apply elem_of_cons in Ht as [E|Ht]; [try discriminate; injection E as -> ->; auto|]); inversion Ht.
    + eapply IH; eauto. intros r' Hr'. apply Hr. right. exact Hr'.
  - intros Hlim mm q x He. destruct (Hsplit _ He) as [He'|[He'|[He'|[Ht|He']]]]; try discriminate.
    + exfalso. clear -Ht. revert best0 Ht. induction gens as [|r rest IH]; intros best0 Ht; [inversion Ht|].
      rewrite loop_trace_cons in Ht. apply elem_of_app in Ht as [Ht|Ht]; [|eauto]. cbn [loop_trace] in Ht. rewrite app_nil_r in Ht.
      destruct (flt (fitness (gr_best r)) (fitness best0)); cbn [app] in Ht;
      repeat (apply elem_of_cons in Ht as [E|Ht]; [discriminate|]); inversion Ht.
    + injection He' as -> -> ->. specialize (Hpos Hlim). destruct gens as [|r rest]; [cbn in Hpos; lia|].
      cbn [final_pop]. destruct (final_pop_in (gr_pop r) rest) as [E|(r' & Hrin & E)]; rewrite E; apply Hr; [left|right; exact Hrin].
  - rewrite Eb. assert (H0 : fitness best0 = op_fitness cfg (chromosome best0)).
    { unfold evaluated in Hev. rewrite Forall_forall in Hev. apply Hev. eapply find_best_in; eauto. }
    clear Eb Ee Hb0 Hsplit Hg Hpos. revert best0 H0. induction gens as [|r rest IH]; intros best0 H0; [exact H0|].
    cbn [final_best]. apply IH; [intros r' Hr'; apply Hr; right; exact Hr'|].
    destruct (flt (fitness (gr_best r)) (fitness best0)); [|exact H0].
    destruct (Hr r ltac:(left)) as (He & _ & _ & Hin). unfold evaluated in He. rewrite Forall_forall in He. auto.
Qed.

(** ** on_new_best *)
Lemma new_bests_trace gens : forall best,
  StronglySorted (fun a b : ind => flt (fitness b) (fitness a) = true) (best :: omap new_best (loop_trace best gens)) /\
  last (best :: omap new_best (loop_trace best gens)) = Some (final_best best gens).
Proof.
  induction gens as [|r rest IH]; intros best; [cbn; split; [repeat constructor|reflexivity]|].
  rewrite loop_trace_cons, omap_app.
  assert (E : omap new_best (loop_trace best [r]) = if flt (fitness (gr_best r)) (fitness best) then [gr_best r] else []).
  { cbn [loop_trace]. rewrite app_nil_r. destruct (flt (fitness (gr_best r)) (fitness best)); reflexivity. }
  rewrite E. cbn [final_best]. destruct (flt (fitness (gr_best r)) (fitness best)) eqn:F; cbn [app].
  - destruct (IH (gr_best r)) as [I1 I2]. split; [|exact I2]. constructor; [exact I1|].
    constructor; [exact F|]. apply StronglySorted_inv in I1 as [_ I1]. eapply Forall_impl; [exact I1|].
    intros x Hx. cbn in *. eapply flt_trans; eauto.
  - apply IH.
Qed.

Lemma run_new_bests ck m0 s evs b m s' : run cfg ck m0 s = Ok (evs, b, m, s') ->
  StronglySorted (fun x y : ind => flt (fitness y) (fitness x) = true) (omap new_best evs) /\
  last (omap new_best evs) = Some b /\ (exists q, last evs = Some (OnEnd m q b)).
Proof.
  intros H. destruct (run_gens _ _ _ _ _ _ _ H) as (m1 & m2 & pop0 & best0 & gens & -> & -> & _).
  assert (E : omap new_best ([OnStart m0; OnInitialPopulation m1 pop0; OnNewBest m2 best0] ++ loop_trace best0 gens ++
     [OnEnd m (final_pop pop0 gens) (final_best best0 gens)]) = best0 :: omap new_best (loop_trace best0 gens)).
  { rewrite !omap_app. cbn. rewrite app_nil_r. reflexivity. }
  rewrite E. destruct (new_bests_trace gens best0) as [H1 H2]. split_and!; auto. eexists.
  rewrite app_assoc, last_snoc. reflexivity.
Qed.

Lemma trace_new_best_iff gens : forall best prefix tail,
  (forall e q x, e ∈ prefix ++ loop_trace best gens -> shown e = Some q -> x ∈ q -> is_nan (fitness x) = false) ->
  (exists e q, e ∈ prefix /\ shown e = Some q /\ best ∈ q) -> all_shown prefix (fun x => fle (fitness best) (fitness x) = true) ->
  (forall r, r ∈ gens -> find_best (gr_pop r) = Ok (gr_best r)) ->
  (forall e, e ∈ tail -> match e with OnEnd _ _ _ => True | _ => False end) ->
  forall pre mm q b e post, loop_trace best gens ++ tail = pre ++ OnNewGeneration mm q :: OnBestFit mm b :: e :: post ->
  (e = OnNewBest mm b <-> improves_on (prefix ++ pre) b).
Proof.
  induction gens as [|r rest IH]; intros best prefix tail Hn Hin Hmin Hfb Ht pre mm q b e post E.
  - cbn in E. exfalso. assert (Hx : OnNewGeneration mm q ∈ tail) by (rewrite E; apply elem_of_app; right; left).
    apply Ht in Hx. exact Hx.
  - assert (Nr : Forall (fun x => is_nan (fitness x) = false) (gr_pop r)).
    { apply Forall_forall. intros x Hx. apply (Hn (OnNewGeneration (gr_m' r) (gr_pop r)) (gr_pop r) x); auto.
      apply elem_of_app. right. rewrite loop_trace_cons. apply elem_of_app. left. cbn [loop_trace]. right. left. }
    destruct (find_best_min _ _ (Hfb r ltac:(left)) Nr) as [Hrin Hrmin].
    assert (Nb : is_nan (fitness best) = false).
    { destruct Hin as (e0 & q0 & He0 & Hq0 & Hb0). apply (Hn e0 q0 best); auto. apply elem_of_app. left. exact He0. }
    cbn [loop_trace app] in E. destruct pre as [|e1 pre]; [discriminate|]. cbn [app] in E. injection E as <- E.
    destruct pre as [|e2 pre].
    + (* this generation *)
      cbn [app] in E. injection E as Em Eq Em2 Eb E. subst mm q b. clear Em2.
      destruct (flt (fitness (gr_best r)) (fitness best)) eqn:F; cbn [app] in E; injection E as <- E.
      * split; [intros _|reflexivity]. intros e0 q0 x He0 Hq0 Hx. apply elem_of_app in He0 as [He0|He0].
        -- eapply flt_le_trans; [exact F|]. apply (Hmin e0 q0 x); auto.
        -- apply elem_of_list_singleton in He0 as ->. discriminate.
      * split; [discriminate|]. intros Hi. exfalso. destruct Hin as (e0 & q0 & He0 & Hq0 & Hb0).
        specialize (Hi e0 q0 best ltac:(apply elem_of_app; left; exact He0) Hq0 Hb0). congruence.
    + cbn [app] in E. injection E as <- E. destruct pre as [|e3 pre]; [discriminate|]. cbn [app] in E. injection E as <- E.
      set (best' := final_best best [r]).
      assert (Hlater : exists mid pre', pre = mid ++ pre' /\ mid = (if flt (fitness (gr_best r)) (fitness best) then [OnNewBest (gr_m' r) best'] else []) ++ [OnIterationEnd (gr_m' r)] /\
         loop_trace best' rest ++ tail = pre' ++ OnNewGeneration mm q :: OnBestFit mm b :: e :: post).
      { unfold best'. cbn [final_best]. destruct (flt (fitness (gr_best r)) (fitness best)); cbn [app] in E |- *.
        - destruct pre as [|e4 pre]; [discriminate|]. cbn [app] in E. injection E as <- E.
          destruct pre as [|e5 pre]; [discriminate|]. cbn [app] in E. injection E as <- E.
          eexists [_; _], pre. split; [reflexivity|]. split; [reflexivity|exact E].
        - destruct pre as [|e4 pre]; [discriminate|]. cbn [app] in E. injection E as <- E.
          eexists [_], pre. split; [reflexivity|]. split; [reflexivity|exact E]. }
      destruct Hlater as (mid & pre' & -> & Hmid & E').
      assert (Hmids : forall e0, e0 ∈ mid -> shown e0 = None).
      { rewrite Hmid. intros e0 He0. destruct (flt (fitness (gr_best r)) (fitness best)); cbn [app] in He0;
        repeat (apply elem_of_cons in He0 as [->|He0]; [reflexivity|]); inversion He0. }
      set (prefix' := prefix ++ [OnIterationStart (gr_m r); OnNewGeneration (gr_m' r) (gr_pop r); OnBestFit (gr_m' r) (gr_best r)] ++ mid).
      assert (Eall : forall P, all_shown (prefix' ++ pre') P <-> all_shown (prefix ++ OnIterationStart (gr_m r) :: OnNewGeneration (gr_m' r) (gr_pop r) :: OnBestFit (gr_m' r) (gr_best r) :: mid ++ pre') P).
      { intros P. unfold prefix'. rewrite <- app_assoc. cbn [app]. reflexivity. }
      unfold improves_on. rewrite <- Eall. refine (IH best' prefix' tail _ _ _ _ Ht pre' mm q b e post E').
      * intros e0 q0 x He0 Hq0 Hx. apply (Hn e0 q0 x); auto. rewrite loop_trace_cons. unfold prefix' in He0.
        rewrite !elem_of_app in He0. rewrite !elem_of_app. destruct He0 as [[He0|[He0|He0]]|He0]; auto.
        -- right. left. cbn [loop_trace]. rewrite app_nil_r. apply elem_of_app. left. exact He0.
        -- rewrite Hmids in Hq0 by exact He0. discriminate.
      * unfold best'. cbn [final_best]. destruct (flt (fitness (gr_best r)) (fitness best)).
        -- exists (OnNewGeneration (gr_m' r) (gr_pop r)), (gr_pop r). split; [|auto]. unfold prefix'. rewrite !elem_of_app. right. left. right. left.
        -- destruct Hin as (e0 & q0 & He0 & Hq0 & Hb0). exists e0, q0. split; [|auto]. unfold prefix'. apply elem_of_app. auto.
      * intros e0 q0 x He0 Hq0 Hx. unfold prefix' in He0. rewrite !elem_of_app in He0.
        assert (Hbb : fle (fitness best') (fitness best) = true /\ fle (fitness best') (fitness (gr_best r)) = true).
        { assert (Ng : is_nan (fitness (gr_best r)) = false) by (rewrite Forall_forall in Nr; auto).
          unfold best'. cbn [final_best]. destruct (flt (fitness (gr_best r)) (fitness best)) eqn:F.
          - split; [apply flt_le; exact F|apply fle_refl; exact Ng].
          - split; [apply fle_refl; exact Nb|]. rewrite flt_fle_neg in F by assumption. apply negb_false_iff in F. exact F. }
        destruct He0 as [He0|[He0|He0]].
        -- eapply fle_trans; [exact (proj1 Hbb)|]. apply (Hmin e0 q0 x); auto.
        -- repeat (apply elem_of_cons in He0 as [->|He0]; [try discriminate|]); [|inversion He0].
           injection Hq0 as <-. rewrite Forall_forall in Hrmin. eapply fle_trans; [exact (proj2 Hbb)|]. auto.
        -- rewrite Hmids in Hq0 by exact He0. discriminate.
      * intros r' Hr'. apply Hfb. right. exact Hr'.
Qed.

Lemma run_new_best_iff ck m0 s evs b m s' : run cfg ck m0 s = Ok (evs, b, m, s') ->
  all_shown evs (fun x => is_nan (fitness x) = false) ->
  forall pre mm q x e post, evs = pre ++ OnNewGeneration mm q :: OnBestFit mm x :: e :: post ->
  (e = OnNewBest mm x <-> improves_on pre x).
Proof.
  intros H Hn pre mm q x e post E.
  destruct (run_gens _ _ _ _ _ _ _ H) as (m1 & m2 & pop0 & best0 & gens & Ee & Eb & Hb0 & _ & _ & _ & _ & _ & Hg & _).
  rewrite E in Ee. cbn [app] in Ee.
  destruct pre as [|e1 pre]; [discriminate|]. cbn [app] in Ee. injection Ee as -> Ee.
  destruct pre as [|e2 pre]; [discriminate|]. cbn [app] in Ee. injection Ee as -> Ee.
  destruct pre as [|e3 pre]; [discriminate|]. cbn [app] in Ee. injection Ee as -> Ee. symmetry in Ee.
  change (OnStart m0 :: OnInitialPopulation m1 pop0 :: OnNewBest m2 best0 :: pre) with ([OnStart m0; OnInitialPopulation m1 pop0; OnNewBest m2 best0] ++ pre).
  assert (N0 : Forall (fun x => is_nan (fitness x) = false) pop0).
  { apply Forall_forall. intros y Hy. apply (Hn (OnInitialPopulation m1 pop0) pop0 y); auto. rewrite E. right. left. }
  destruct (find_best_min _ _ Hb0 N0) as [Hin0 Hmin0].
  refine (trace_new_best_iff gens best0 _ _ _ _ _ _ _ pre mm q x e post Ee).
  - intros e0 q0 y He0 Hq0 Hy. apply (Hn e0 q0 y); auto. rewrite E. cbn [app]. rewrite <- Ee. cbn [app] in He0.
    rewrite !elem_of_cons, elem_of_app in *. tauto.
  - exists (OnInitialPopulation m1 pop0), pop0. split; [right; left|auto].
  - intros e0 q0 y He0 Hq0 Hy. repeat (apply elem_of_cons in He0 as [->|He0]; [try discriminate|]); [|inversion He0].
    injection Hq0 as <-. rewrite Forall_forall in Hmin0. auto.
  - intros r Hr. apply elem_of_list_lookup in Hr as [i Hi]. apply (Hg i r Hi).
  - intros e0 He0. apply elem_of_list_singleton in He0 as ->. exact I.
Qed.

(** ** Absence of panics *)
Lemma eval_pop_idem pop : evaluated pop -> eval_pop cfg pop = pop.
Proof. intros H. induction H as [|x xs Hx Hxs IH]; [reflexivity|]. cbn. f_equal; [|exact IH]. unfold eval_ind. rewrite <- Hx. destruct x; reflexivity. Qed.

Lemma mutate_all_ok (Kid : ind -> Prop) m : (forall c s, Kid c -> exists c' s', op_mutate cfg m c s = Ok (c', s') /\ Kid c') ->
  forall ch s, Forall Kid ch -> exists ch' s', mutate_all cfg m ch s = Ok (ch', s') /\ length ch' = length ch /\ Forall Kid ch'.
Proof.
  intros Hm. induction ch as [|c cs IH]; intros s H; [exists [], s; auto|]. apply Forall_cons in H as [Hc Hcs].
  destruct (Hm c s Hc) as (c' & s1 & E1 & K1). destruct (IH s1 Hcs) as (cs' & s2 & E2 & L2 & K2).
  exists (c' :: cs'), s2. cbn [mutate_all]. rewrite E1. cbn [mbind outcome_bind]. rewrite E2. cbn. split_and!; auto.
Qed.

Lemma main_loop_ok Inv Pool Kid n ck : well_behaved cfg Inv Pool Kid n -> forall rem g m pop best s, Inv pop -> evaluated pop ->
  exists evs st, main_loop cfg ck rem g m pop best s = Ok (evs, st).
Proof.
  intros W. induction rem as [|rem IH]; intros g m pop best s Hi He; cbn [main_loop]; [eauto|].
  assert (Hgen : exists evs m' pop' best' s', generation cfg ck g m pop best s = Ok (evs, (m', pop', best', s')) /\ Inv pop' /\ evaluated pop').
  { unfold generation. rewrite (eval_pop_idem pop He).
    destruct (wb_select _ _ _ _ _ W (Metrics g (m_population_size m) (Some (c_start ck g))) pop s Hi He) as (sel & s1 & -> & pool & E2 & Hp).
    cbn [mbind outcome_bind]. rewrite E2. cbn [mbind outcome_bind].
    destruct (wb_crossover _ _ _ _ _ W (Metrics g (m_population_size m) (Some (c_start ck g))) pool s1 Hp) as (ch & s2 & -> & Hl & Hk).
    cbn [mbind outcome_bind].
    destruct (mutate_all_ok Kid _ (wb_mutate _ _ _ _ _ W (Metrics g (m_population_size m) (Some (c_start ck g)))) ch s2 Hk) as (ch' & s3 & -> & Hl' & Hk').
    cbn [mbind outcome_bind].
    set (ch2 := if op_requires_children_fitness cfg then eval_pop cfg ch' else ch').
    assert (H2 : length ch2 = n /\ Forall Kid ch2).
    { unfold ch2. destruct (op_requires_children_fitness cfg); [|split; [lia|assumption]].
      unfold eval_pop. rewrite fmap_length. split; [lia|]. apply Forall_fmap. eapply Forall_impl; [exact Hk'|]. intros x; apply (wb_eval _ _ _ _ _ W). }
    destruct H2 as [H2 H3].
    destruct (wb_replace _ _ _ _ _ W (Metrics g (m_population_size m) (Some (c_start ck g))) pop ch2 s3 Hi H2 H3) as (pop' & s4 & -> & Hlen & Hinv).
    cbn [mbind outcome_bind]. rewrite (bool_decide_eq_true_2 _ Hlen). cbn [rassert mbind outcome_bind].
    assert (Hne : eval_pop cfg pop' <> []).
    { pose proof (wb_size _ _ _ _ _ W) as Hs. apply length_pos_ne. unfold eval_pop. rewrite fmap_length. lia. }
    destruct (find_best_ok (eval_pop cfg pop') Hne) as [bg Hbg].
    { apply (wb_fitness _ _ _ _ _ W). assumption. }
    rewrite Hbg. cbn [mbind outcome_bind]. eexists _, _, _, _, _. split; [reflexivity|]. split; [exact Hinv|apply eval_pop_evaluated]. }
  destruct Hgen as (evs & m' & pop' & best' & s' & E & Hi' & He'). rewrite E. cbn [mbind outcome_bind].
  destruct (max_duration cfg <=? c_end ck g)%N; [eauto|].
  destruct (IH (g + 1) m' pop' best' s' Hi' He') as (evs2 & st & E2). rewrite E2. cbn [mbind outcome_bind]. eauto.
Qed.

Lemma run_ok Inv Pool Kid n ck m0 s : well_behaved cfg Inv Pool Kid n -> exists evs b m s', run cfg ck m0 s = Ok (evs, b, m, s').
Proof.
  intros W. unfold run. destruct (wb_generate _ _ _ _ _ W s) as (pop & s1 & -> & Hne & Hi). cbn [mbind outcome_bind].
  destruct (find_best_ok (eval_pop cfg pop)) as [b Hb].
  { destruct pop; [congruence|discriminate]. }
  { apply (wb_fitness _ _ _ _ _ W). assumption. }
  rewrite Hb. cbn [mbind outcome_bind].
  destruct (main_loop_ok Inv Pool Kid n ck W (generation_limit cfg) 1 (Metrics (m_generation m0) (length (eval_pop cfg pop)) (Some (c_init ck))) (eval_pop cfg pop) b s1 Hi (eval_pop_evaluated pop)) as (evs & [[[m' pop'] b'] s'] & E).
  rewrite E. cbn [mbind outcome_bind]. eauto.
Qed.

(** A replacement that changes the size makes the run panic in the very first generation. *)
Lemma generation_size_panic ck g m pop best s :
  (forall m pop ch s pop' s', op_replace cfg m pop ch s = Ok (pop', s') -> length pop' <> population_size cfg) ->
  forall x, generation cfg ck g m pop best s <> Ok x.
Proof.
  intros Hr x H. unfold generation in H.
  apply obind_Ok in H as ([sel s1] & H1 & H). apply obind_Ok in H as (pool & H2 & H).
  apply obind_Ok in H as ([ch s2] & H3 & H). apply obind_Ok in H as ([ch2 s3] & H4 & H).
  apply obind_Ok in H as ([pop2 s4] & H5 & H). apply obind_Ok in H as ([] & H6 & H). apply rassert_Ok, bool_decide_eq_true in H6.
  apply Hr in H5. congruence.
Qed.
Lemma run_size_panic ck m0 s :
  (forall m pop ch s pop' s', op_replace cfg m pop ch s = Ok (pop', s') -> length pop' <> population_size cfg) ->
  0 < generation_limit cfg -> forall x, run cfg ck m0 s <> Ok x.
Proof.
  intros Hr Hl x H. unfold run in H. apply obind_Ok in H as ([raw s1] & H1 & H). apply obind_Ok in H as (best0 & H2 & H).
  apply obind_Ok in H as ([evs1 st] & H3 & H). destruct (generation_limit cfg) as [|l]; [lia|]. cbn [main_loop] in H3.
  apply obind_Ok in H3 as (y & H4 & _). apply (generation_size_panic _ _ _ _ _ _ Hr) in H4. exact H4.
Qed.

Lemma omapM_index_Forall2 pop sel pool : Forall2 (fun i x => pop !! i = Some x) sel pool -> omapM (index pop) sel = Ok pool.
Proof.
  induction 1 as [|i x sel pool Hi Hr IH]; [reflexivity|]. cbn [omapM]. rewrite (proj2 (index_Ok pop i x) Hi). cbn [mbind outcome_bind].
  rewrite IH. reflexivity.
Qed.
Lemma generation_size ck g m pop best s sel s1 pool ch s2 ch2 s3 pop' s4 :
  let m' := Metrics g (m_population_size m) (Some (c_start ck g)) in
  let evaluate := fmap (fun x => Ind (chromosome x) (op_fitness cfg (chromosome x))) in
  op_select cfg m' (evaluate pop) s = Ok (sel, s1) ->
  Forall2 (fun i x => evaluate pop !! i = Some x) sel pool ->
  op_crossover cfg m' pool s1 = Ok (ch, s2) ->
  mutate_all cfg m' ch s2 = Ok (ch2, s3) ->
  op_replace cfg m' (evaluate pop) (if op_requires_children_fitness cfg then evaluate ch2 else ch2) s3 = Ok (pop', s4) ->
  (length pop' <> population_size cfg -> generation cfg ck g m pop best s = Panic) /\
  (length pop' = population_size cfg -> 0 < population_size cfg -> (forall c, is_nan (op_fitness cfg c) = false) ->
     exists r, generation cfg ck g m pop best s = Ok r).
Proof.
  cbv zeta. intros H1 H2 H3 H4 H5. apply omapM_index_Forall2 in H2.
  unfold generation. unfold eval_pop, eval_ind. rewrite H1. cbn [mbind outcome_bind]. rewrite H2. cbn [mbind outcome_bind].
  rewrite H3. cbn [mbind outcome_bind]. rewrite H4. cbn [mbind outcome_bind]. rewrite H5. cbn [mbind outcome_bind]. split.
  - intros Hl. rewrite (bool_decide_eq_false_2 _ Hl). reflexivity.
  - intros Hl Hp Hn. rewrite (bool_decide_eq_true_2 _ Hl). cbn [rassert mbind outcome_bind].
    destruct (find_best_ok ((fun x => Ind (chromosome x) (op_fitness cfg (chromosome x))) <$> pop')) as [b Hb].
    + apply length_pos_ne. rewrite fmap_length. lia.
    + apply Forall_fmap, Forall_true. intros x. apply Hn.
    + rewrite Hb. cbn [mbind outcome_bind]. eauto.
Qed.

(** ** Number of iterations *)
Lemma iterations_tagged (evs : list ev) : iterations evs = length (filter (fun t => t.1 = KIterStart) (tagged <$> evs)).
Proof.
  unfold iterations. induction evs as [|e evs IH]; [reflexivity|]. rewrite fmap_cons, !filter_cons. cbn [tagged fst].
  destruct (decide (kind e = KIterStart)); cbn [length]; rewrite IH; reflexivity.
Qed.
Lemma iterations_blocks nbs : forall g, length (filter (fun t : callback * nat => t.1 = KIterStart) (blocks g nbs)) = length nbs.
Proof.
  induction nbs as [|nb nbs IH]; intros g; [reflexivity|]. cbn [blocks]. rewrite filter_app, app_length, IH. destruct nb; reflexivity.
Qed.
Lemma run_iterations ck m0 s evs b m s' : run cfg ck m0 s = Ok (evs, b, m, s') ->
  iterations evs <= generation_limit cfg /\ (0 < generation_limit cfg -> 0 < iterations evs) /\
  (forall g, 0 < g < iterations evs -> (c_end ck g < max_duration cfg)%N) /\
  (iterations evs < generation_limit cfg -> (max_duration cfg <= c_end ck (iterations evs))%N).
Proof.
  intros H. destruct (run_gens _ _ _ _ _ _ _ H) as (m1 & m2 & pop0 & best0 & gens & -> & _ & _ & _ & _ & Hm1 & Hm2 & _ & Hg & Hm & Hle & Hpos & Hlt & Hge).
  destruct (tagged_trace gens 1 best0 Hg) as (nbs & Hl & E).
  set (evs := _ ++ _). assert (Ei : iterations evs = length gens).
  { rewrite iterations_tagged. unfold evs. rewrite !fmap_app, !filter_app, !app_length, E, iterations_blocks, Hl. cbn. rewrite Nat.add_0_r. reflexivity. }
  rewrite Ei. split_and!; auto.
Qed.

(** ** Data flow *)
Lemma mutate_all_mutated m ch : forall s ch' s', mutate_all cfg m ch s = Ok (ch', s') -> mutated cfg m ch s ch' s'.
Proof.
  induction ch as [|c cs IH]; intros s ch' s' H; cbn [mutate_all] in H; [injection H as <- <-; constructor|].
  apply obind_Ok in H as ([c' s1] & H1 & H). apply obind_Ok in H as ([cs' s2] & H2 & H). injection H as <- <-. econstructor; eauto.
Qed.
Lemma omapM_index_Forall2_inv pop sel : forall pool, omapM (index pop) sel = Ok pool -> Forall2 (fun i x => pop !! i = Some x) sel pool.
Proof.
  induction sel as [|i sel IH]; intros pool H; cbn [omapM] in H; [injection H as <-; constructor|].
  apply obind_Ok in H as (x & H1 & H). apply obind_Ok in H as (xs & H2 & H). injection H as <-. apply index_Ok in H1. constructor; auto.
Qed.
Lemma generation_step ck g m pop best s evs m' pop' best' s' : evaluated pop ->
  generation cfg ck g m pop best s = Ok (evs, (m', pop', best', s')) ->
  next_population cfg (Metrics g (m_population_size m) (Some (c_start ck g))) pop s pop' s' /\ populations evs = [pop'] /\ evaluated pop'.
Proof.
  intros He H. unfold generation in H. rewrite (eval_pop_idem pop He) in H.
  apply obind_Ok in H as ([sel s1] & H1 & H). apply obind_Ok in H as (pool & H2 & H).
  apply obind_Ok in H as ([ch s2] & H3 & H). apply obind_Ok in H as ([ch2 s3] & H4 & H).
  apply obind_Ok in H as ([pop2 s4] & H5 & H). apply obind_Ok in H as ([] & H6 & H). 
  apply obind_Ok in H as (bg & H7 & H). injection H as <- <- <- <- <-. split; [|split; [|apply eval_pop_evaluated]].
  - exists sel, s1, pool, ch, s2, ch2, s3, pop2. split_and!; auto using omapM_index_Forall2_inv, mutate_all_mutated.
  - unfold populations. destruct (flt (fitness bg) (fitness best)); reflexivity.
Qed.

Lemma main_loop_flow ck rem : forall g m pop best s evs m' pop' best' s', evaluated pop ->
  main_loop cfg ck rem g m pop best s = Ok (evs, (m', pop', best', s')) ->
  exists ss, length ss = length (populations evs) /\ last (s :: ss) = Some s' /\ last (pop :: populations evs) = Some pop' /\
    forall i q s1 q' s1', (pop :: populations evs) !! i = Some q -> (s :: ss) !! i = Some s1 ->
      populations evs !! i = Some q' -> ss !! i = Some s1' ->
      exists mm, m_generation mm = g + i /\ next_population cfg mm q s1 q' s1'.
Proof.
  induction rem as [|rem IH]; intros g m pop best s evs m' pop' best' s' He H; cbn [main_loop] in H.
  - injection H as <- <- <- <- <-. exists []. split_and!; auto. intros. discriminate.
  - apply obind_Ok in H as ([evs1 [[[m1 pop1] best1] s1]] & H1 & H).
    destruct (generation_step _ _ _ _ _ _ _ _ _ _ _ He H1) as (Hs & Hp & He1).
    destruct (max_duration cfg <=? c_end ck g)%N eqn:E.
    + injection H as <- <- <- <- <-. exists [s1]. rewrite Hp. split_and!; auto.
      intros [|i] q t q' t' Hq Ht Hq' Ht'; [|discriminate]. cbn in *. simplify_eq. eexists. split; [|exact Hs]. cbn. lia.
    + apply obind_Ok in H as ([evs2 st] & H2 & H). injection H as <- ->.
      destruct (IH _ _ _ _ _ _ _ _ _ _ He1 H2) as (ss & Hl & Hlast & Hlp & Hi).
      exists (s1 :: ss). assert (Ep : populations (evs1 ++ evs2) = pop1 :: populations evs2).
      { unfold populations in *. rewrite omap_app, Hp. reflexivity. }
      rewrite Ep. split_and!; auto.
      * cbn. lia.
      * intros [|i] q t q' t' Hq Ht Hq' Ht'.
        -- cbn in *. simplify_eq. eexists. split; [|exact Hs]. cbn. lia.
        -- destruct (Hi i q t q' t') as (mm & Hm & Hn); auto. exists mm. split; [lia|exact Hn].
Qed.

Lemma run_flow ck m0 s evs b m s' : run cfg ck m0 s = Ok (evs, b, m, s') ->
  exists raw s0 ss, op_generate cfg (population_size cfg) s = Ok (raw, s0) /\
    head (populations evs) = Some (evaluate (op_fitness cfg) raw) /\ head ss = Some s0 /\ last ss = Some s' /\
    length ss = length (populations evs) /\ length (populations evs) = S (iterations evs) /\
    (exists q, last evs = Some (OnEnd m q b) /\ last (populations evs) = Some q) /\
    forall i q s1 q' s1', populations evs !! i = Some q -> ss !! i = Some s1 ->
      populations evs !! S i = Some q' -> ss !! S i = Some s1' ->
      exists mm, m_generation mm = S i /\ next_population cfg mm q s1 q' s1'.
Proof.
  intros H. pose proof (run_gens _ _ _ _ _ _ _ H) as (m1g & m2g & pop0g & best0g & gens & Eev & _ & _ & _ & _ & _ & _ & _ & Hg & _).
  assert (Hlen : length (populations evs) = S (iterations evs)).
  { destruct (tagged_trace gens 1 best0g Hg) as (nbs & Hl & E). rewrite iterations_tagged, Eev.
    rewrite !fmap_app, !filter_app, !app_length, E, iterations_blocks, Hl. cbn -[populations].
    unfold populations. cbn. rewrite omap_app, app_length. cbn.
    assert (Eq : forall best, length (omap population_of (loop_trace best gens)) = length gens).
    { clear. induction gens as [|r rest IH]; intros best; [reflexivity|]. rewrite loop_trace_cons, omap_app, app_length, IH.
      cbn [loop_trace]. rewrite app_nil_r. destruct (flt (fitness (gr_best r)) (fitness best)); reflexivity. }
    rewrite Eq, ?Nat.add_0_r. rewrite ?Nat.add_1_r. reflexivity. }
  clear Eev Hg gens. unfold run in H. apply obind_Ok in H as ([raw s0] & H1 & H). apply obind_Ok in H as (best0 & H2 & H).
  apply obind_Ok in H as ([evs1 [[[m3 pop'] best'] s2]] & H3 & H). injection H as <- <- <- <-.
  destruct (main_loop_flow _ _ _ _ _ _ _ _ _ _ _ _ (eval_pop_evaluated raw) H3) as (ss & Hl & Hlast & Hlp & Hi).
  set (evs := _ :: _ :: _ :: _) in *. assert (Ep : populations evs = eval_pop cfg raw :: populations evs1).
  { unfold populations, evs. cbn. rewrite omap_app. cbn. rewrite app_nil_r. reflexivity. }
  rewrite Ep in Hlen. exists raw, s0, (s0 :: ss). rewrite Ep. cbn [head length]. split; [exact H1|]. split; [reflexivity|]. split; [reflexivity|].
  split; [exact Hlast|]. split; [rewrite Hl; reflexivity|]. split; [exact Hlen|]. split.
  - eexists. split; [|exact Hlp]. unfold evs. rewrite !app_comm_cons; apply last_snoc.
  - intros i q t q' t' Hq Ht Hq' Ht'. exact (Hi i q t q' t' Hq Ht Hq' Ht').
Qed.

Lemma trace_best_fit gens tail : (forall r, r ∈ gens -> find_best (gr_pop r) = Ok (gr_best r)) ->
  (forall e, e ∈ tail -> match e with OnEnd _ _ _ => True | _ => False end) ->
  forall best pre mm q e post, loop_trace best gens ++ tail = pre ++ OnNewGeneration mm q :: e :: post ->
  exists x, e = OnBestFit mm x /\ find_best q = Ok x.
Proof.
  intros Hfb Ht. induction gens as [|r rest IH]; intros best pre mm q e post E.
  - exfalso. cbn in E. assert (Hx : OnNewGeneration mm q ∈ tail) by (rewrite E; apply elem_of_app; right; left). apply Ht in Hx. exact Hx.
  - cbn [loop_trace app] in E. destruct pre as [|e1 pre]; [discriminate|]. cbn [app] in E. injection E as _ E.
    destruct pre as [|e2 pre]; cbn [app] in E.
    + exists (gr_best r). assert (Hr : find_best (gr_pop r) = Ok (gr_best r)) by (apply Hfb; left).
      injection E as E1 E2 E3. rewrite <- E1, <- E2, <- E3. auto.
    + injection E as _ E. destruct pre as [|e3 pre]; cbn [app] in E; [discriminate|]. injection E as _ E.
      destruct (flt (fitness (gr_best r)) (fitness best)); cbn [app] in E.
      * destruct pre as [|e4 pre]; cbn [app] in E; [discriminate|]. injection E as _ E.
        destruct pre as [|e5 pre]; cbn [app] in E; [discriminate|]. injection E as _ E.
        eapply IH; [intros r' Hr'; apply Hfb; right; exact Hr'|exact E].
      * destruct pre as [|e4 pre]; cbn [app] in E; [discriminate|]. injection E as _ E.
        eapply IH; [intros r' Hr'; apply Hfb; right; exact Hr'|exact E].
Qed.
Lemma run_best_fit ck m0 s evs b m s' : run cfg ck m0 s = Ok (evs, b, m, s') ->
  forall pre mm q e post, evs = pre ++ OnNewGeneration mm q :: e :: post ->
  exists x, e = OnBestFit mm x /\ x ∈ q /\
    (Forall (fun y => is_nan (fitness y) = false) q -> Forall (fun y => fle (fitness x) (fitness y) = true) q).
Proof.
  intros H pre mm q e post E.
  destruct (run_gens _ _ _ _ _ _ _ H) as (m1 & m2 & pop0 & best0 & gens & Ee & Eb & Hb0 & _ & _ & _ & _ & _ & Hg & _).
  rewrite E in Ee. cbn [app] in Ee.
  destruct pre as [|e1 pre]; [discriminate|]. cbn [app] in Ee. injection Ee as _ Ee.
  destruct pre as [|e2 pre]; [discriminate|]. cbn [app] in Ee. injection Ee as _ Ee.
  destruct pre as [|e3 pre]; [discriminate|]. cbn [app] in Ee. injection Ee as _ Ee. symmetry in Ee.
  edestruct (trace_best_fit gens) as (x & -> & Hx); [| |exact Ee|].
  - intros r Hr. apply elem_of_list_lookup in Hr as [i Hi]. apply (Hg i r Hi).
  - intros e0 He0. apply elem_of_list_singleton in He0 as ->. exact I.
  - exists x. split; [reflexivity|]. split; [apply find_best_in; exact Hx|]. intros Hn. apply find_best_min; auto.
Qed.
End Solver.
