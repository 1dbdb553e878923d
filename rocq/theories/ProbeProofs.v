(** * Proofs about probes *)
From Verif Require Export ProbeModel ProbeSpec GaProofs.
Open Scope nat_scope.

(** ** Aggregated probes *)
Lemma ofold_ext {A S} (f g : S -> A -> outcome S) s l : (forall s x, f s x = g s x) -> ofold f s l = ofold g s l.
Proof. intros H. revert s. induction l as [|x l IH]; intros s; cbn; [reflexivity|]. rewrite H. destruct (g s x); cbn; auto. Qed.

Lemma aggregated_recorders {E} names : forall (w : list (nat * E)) e,
  aggregated (recorder <$> names) w e = Ok (w ++ ((., e) <$> names)).
Proof.
  induction names as [|n names IH]; intros w e; [cbn; rewrite app_nil_r; reflexivity|].
  unfold aggregated in *. rewrite fmap_cons, ofold_cons. cbn [recorder mbind outcome_bind]. rewrite IH. rewrite <- app_assoc. reflexivity.
Qed.
Lemma feed_recorders {E} names (evs : list E) : forall w,
  feed (aggregated (recorder <$> names)) w evs = Ok (w ++ (e ← evs; (., e) <$> names)).
Proof.
  induction evs as [|e evs IH]; intros w; [cbn; rewrite app_nil_r; reflexivity|].
  unfold feed in *. rewrite ofold_cons, aggregated_recorders. cbn [mbind outcome_bind]. rewrite IH. cbn. rewrite <- app_assoc. reflexivity.
Qed.

Section Own.
Context {E V : Type}.
Lemma own_eq i (p : probe E V) ws e : own i p ws e = (w ← index ws i; w ← p w e; assign ws i w).
Proof. reflexivity. Qed.
Lemma ofold_own (ps : list (probe E V)) e : forall k ws done rest rest',
  ws = done ++ rest -> k = length done -> length rest = length ps ->
  Forall2 (fun pw w' => pw.1 pw.2 e = Ok w') (zip ps rest) rest' ->
  ofold (fun w p => p w e) ws (imap (fun i p => own (k + i) p) ps) = Ok (done ++ rest').
Proof.
  induction ps as [|p ps IH]; intros k ws done rest rest' -> -> Hl H; destruct rest as [|w rest]; try discriminate.
  - inversion H. reflexivity.
  - cbn in H. apply Forall2_cons_inv_l in H as (w' & r' & Hw & Hr & ->). cbn [imap].
    rewrite ofold_cons, own_eq. rewrite Nat.add_0_r, (proj2 (index_Ok _ _ w)).
    2: { rewrite lookup_app_r by lia. rewrite Nat.sub_diag. reflexivity. }
    cbn [mbind outcome_bind fst snd] in *. rewrite Hw. cbn [mbind outcome_bind].
    rewrite (proj2 (assign_Ok _ _ _ (done ++ w' :: rest))).
    2: { split; [rewrite app_length; cbn; lia|]. symmetry. apply insert_mid. reflexivity. }
    cbn [mbind outcome_bind].
    match goal with |- ofold _ _ ?L = _ => replace L with (imap (fun i p => own (length (done ++ [w']) + i) p) ps) end.
    2: { apply imap_ext. intros i x _. cbn. rewrite app_length. cbn. f_equal. lia. }
    rewrite (IH _ _ (done ++ [w']) rest r'); auto; rewrite <- ?app_assoc; try reflexivity.
Qed.
Lemma feed_own (ps : list (probe E V)) evs : forall ws ws', length ws = length ps ->
  Forall2 (fun pw w' => feed pw.1 pw.2 evs = Ok w') (zip ps ws) ws' ->
  feed (aggregated (imap own ps)) ws evs = Ok ws'.
Proof.
  induction evs as [|e evs IH]; intros ws ws' Hl H.
  - cbn. f_equal. revert ws ws' Hl H. induction ps as [|p ps IHp]; intros [|w ws] ws' Hl H; try discriminate; cbn in H; [inversion H; auto|].
    apply Forall2_cons_inv_l in H as (w' & r' & Hw & Hr & ->). cbn in Hw. injection Hw as <-. f_equal. apply IHp; auto.
  - assert (exists mid, length mid = length ps /\ Forall2 (fun pw w' => pw.1 pw.2 e = Ok w') (zip ps ws) mid /\
      Forall2 (fun pw w' => feed pw.1 pw.2 evs = Ok w') (zip ps mid) ws') as (mid & Hm & H1 & H2).
    { clear IH. revert ws ws' Hl H. induction ps as [|p ps IHp]; intros [|w ws] ws' Hl H; try discriminate; cbn in H.
      - inversion H. exists []. repeat constructor.
      - apply Forall2_cons_inv_l in H as (w' & r' & Hw & Hr & ->). cbn [fst snd] in Hw. unfold feed in Hw. cbn [ofold] in Hw.
        apply obind_Ok in Hw as (w1 & Hw1 & Hw). destruct (IHp ws r') as (mid & Hm & H1 & H2); [cbn in Hl; lia|auto|].
        exists (w1 :: mid). split; [cbn; lia|]. split; cbn; constructor; auto. }
    unfold feed. rewrite ofold_cons.
    assert (X : aggregated (imap own ps) ws e = Ok mid) by exact (ofold_own ps e 0 ws [] ws mid eq_refl eq_refl Hl H1).
    rewrite X. cbn [mbind outcome_bind app]. apply IH; auto.
Qed.
End Own.

(** ** Policy-driven probes *)
Section Driven.
Context {G P W : Type} (pol : policy (event G) P) (pr : probe (event G) W).

Lemma driven_eq p w e : policy_driven pol pr (p, w) e = ('(yes, p) ← pol p e; if yes : bool then w ← pr w e; Ok (p, w) else Ok (p, w)).
Proof. reflexivity. Qed.
Lemma driven_step p b p' w e evs : pol p e = Ok (b, p') ->
  feed (policy_driven pol pr) (p, w) (e :: evs) =
  (w1 ← feed pr w (if b then [e] else []); feed (policy_driven pol pr) (p', w1) evs).
Proof.
  intros H. unfold feed. rewrite ofold_cons, driven_eq, H. cbn [mbind outcome_bind].
  destruct b; [|reflexivity]. cbn. destruct (pr w e); reflexivity.
Qed.

Variable logged : nat -> bool.
Variable time : nat -> N.
Variable n : nat.
Variables ready busy : nat -> P -> Prop.
Hypothesis Hother : forall p e, per_iteration e = false -> pol p e = Ok (true, p).
Hypothesis Hstart : forall g p m, ready g p -> 0 < g <= n -> m_generation m = g -> m_total_dur m = Some (time g) ->
  exists p', pol p (OnIterationStart m) = Ok (logged g, p') /\ busy g p'.
Hypothesis Hgen : forall g p m q, busy g p -> m_generation m = g -> pol p (OnNewGeneration m q) = Ok (logged g, p).
Hypothesis Hbest : forall g p m q, busy g p -> m_generation m = g -> pol p (OnBestFit m q) = Ok (logged g, p).
Hypothesis Hend : forall g p m, busy g p -> m_generation m = g -> exists p', pol p (OnIterationEnd m) = Ok (logged g, p') /\ ready (S g) p'.

Notation only := (only_iterations logged).
Lemma only_app (l k : list (event G)) : only (l ++ k) = only l ++ only k.
Proof. apply filter_app. Qed.
Lemma only_per (e : event G) : per_iteration e = true -> only [e] = if logged (generation_of e) then [e] else [].
Proof.
  intros H. unfold only_iterations. rewrite filter_cons, filter_nil. destruct (logged (generation_of e)) eqn:El.
  - rewrite decide_True; auto.
  - rewrite decide_False; auto. intros X. specialize (X H). congruence.
Qed.
Lemma only_other (e : event G) : per_iteration e = false -> only [e] = [e].
Proof. intros H. unfold only_iterations. rewrite filter_cons, filter_nil, decide_True; auto. rewrite H. discriminate. Qed.
Lemma only_cons (e : event G) l : only (e :: l) = only [e] ++ only l.
Proof. apply (only_app [e]). Qed.

Lemma feed_app (p : probe (event G) W) w l k : feed p w (l ++ k) = (w ← feed p w l; feed p w k).
Proof. apply ofold_app. Qed.
Lemma obind_assoc {A B C} (m : outcome A) (f : A -> outcome B) (g : B -> outcome C) : ((m ≫= f) ≫= g) = (m ≫= fun a => f a ≫= g).
Proof. destruct m; reflexivity. Qed.
Lemma obind_ext {A B} (m : outcome A) (f g : A -> outcome B) : (forall a, f a = g a) -> (m ≫= f) = (m ≫= g).
Proof. intros H. destruct m; cbn; auto. Qed.

Lemma driven_gens {St} (cfg : config G St) gens : forall g p best l,
  ready g p -> 0 < g -> g + length gens <= S n ->
  (forall i r, gens !! i = Some r -> good_gen cfg (g + i) r /\ m_total_dur (gr_m r) = Some (time (g + i))) ->
  exists p', ready (g + length gens) p' /\ forall w,
    feed (policy_driven pol pr) (p, w) (loop_trace best gens ++ l) =
    (w1 ← feed pr w (only (loop_trace best gens)); feed (policy_driven pol pr) (p', w1) l).
Proof.
  induction gens as [|r gens IH]; intros g p best l Hr Hg Hn Hgens.
  - exists p. rewrite Nat.add_0_r. auto.
  - cbn [length] in *. destruct (Hgens 0 r eq_refl) as [(Hm & Hm' & _) Ht]. rewrite Nat.add_0_r in *.
    destruct (Hstart g p (gr_m r)) as (p1 & Hp1 & Hb); auto; [lia|].
    pose proof (Hgen g p1 (gr_m' r) (gr_pop r) Hb Hm') as H1.
    pose proof (Hbest g p1 (gr_m' r) (gr_best r) Hb Hm') as H2.
    destruct (Hend g p1 (gr_m' r) Hb Hm') as (p2 & H3 & Hr2).
    destruct (IH (S g) p2 (final_best best [r]) l) as (p3 & Hr3 & HIH); auto; try lia.
    { intros i r' Hi. replace (S g + i) with (g + S i) by lia. apply Hgens. exact Hi. }
    exists p3. split; [replace (g + S (length gens)) with (S g + length gens) by lia; exact Hr3|].
    intros w. rewrite loop_trace_cons, only_app, feed_app. cbn [loop_trace]. rewrite app_nil_r.
    rewrite <- app_assoc. cbn [app]. rewrite (driven_step p _ p1) by exact Hp1. rewrite only_cons, (only_per (OnIterationStart _)) by reflexivity.
    unfold generation_of; cbn [event_metrics]. rewrite Hm, feed_app, !obind_assoc. apply obind_ext. intros w1.
    rewrite (driven_step p1 _ p1) by exact H1. rewrite only_cons, (only_per (OnNewGeneration _ _)) by reflexivity.
    unfold generation_of; cbn [event_metrics]. rewrite Hm', feed_app, !obind_assoc. apply obind_ext. intros w2.
    rewrite (driven_step p1 _ p1) by exact H2. rewrite only_cons, (only_per (OnBestFit _ _)) by reflexivity.
    unfold generation_of; cbn [event_metrics]. rewrite Hm', feed_app, !obind_assoc. apply obind_ext. intros w3.
    destruct (flt (fitness (gr_best r)) (fitness best)) eqn:Ef; cbn [app].
    + rewrite (driven_step p1 true p1) by (apply Hother; reflexivity). rewrite only_cons, (only_other (OnNewBest _ _)) by reflexivity.
      rewrite feed_app, !obind_assoc. apply obind_ext. intros w4.
      rewrite (driven_step p1 _ p2) by exact H3. rewrite (only_per (OnIterationEnd _)) by reflexivity.
      unfold generation_of; cbn [event_metrics]. rewrite Hm'. apply obind_ext. intros w5. apply HIH.
    + rewrite (driven_step p1 _ p2) by exact H3. rewrite (only_per (OnIterationEnd _)) by reflexivity.
      unfold generation_of; cbn [event_metrics]. rewrite Hm'. apply obind_ext. intros w5. apply HIH.
Qed.
End Driven.

(** The readings reported at the start of the iterations. *)
Lemma loop_start_times {G St} (cfg : config G St) ck rem : forall g m pop best s evs st mm,
  main_loop cfg ck rem g m pop best s = Ok (evs, st) -> OnIterationStart mm ∈ evs -> m_total_dur mm = Some (c_start ck (m_generation mm)).
Proof.
  induction rem as [|rem IH]; intros g m pop best s evs st mm H Hin; cbn [main_loop] in H.
  - injection H as <- <-. inversion Hin.
  - apply obind_Ok in H as ([evs1 [[[m1 pop1] best1] s1]] & H1 & H).
    assert (X : OnIterationStart mm ∈ evs1 -> m_total_dur mm = Some (c_start ck (m_generation mm))).
    { clear H IH. unfold generation in H1.
      apply obind_Ok in H1 as ([sel s2] & _ & H1). apply obind_Ok in H1 as (pool & _ & H1).
      apply obind_Ok in H1 as ([ch s3] & _ & H1). apply obind_Ok in H1 as ([ch2 s4] & _ & H1).
      apply obind_Ok in H1 as ([pop2 s5] & _ & H1). apply obind_Ok in H1 as ([] & _ & H1).
      apply obind_Ok in H1 as (bg & _ & H1). injection H1 as <- _ _ _ _. intros Hi.
      rewrite !elem_of_cons in Hi. destruct Hi as [Hi|[Hi|[Hi|Hi]]]; try discriminate; [injection Hi as ->; reflexivity|].
      cbn [app] in Hi. rewrite elem_of_app in Hi. destruct Hi as [Hi|Hi].
      - destruct (flt _ _); [apply elem_of_list_singleton in Hi; discriminate|inversion Hi].
      - apply elem_of_list_singleton in Hi; discriminate. }
    destruct (max_duration cfg <=? c_end ck g)%N.
    + injection H as <- <-. auto.
    + apply obind_Ok in H as ([evs2 st2] & H2 & H). injection H as <- <-. apply elem_of_app in Hin as [Hin|Hin]; eauto.
Qed.

Lemma run_start_times {G St} (cfg : config G St) ck m0 s evs b m s' mm : run cfg ck m0 s = Ok (evs, b, m, s') ->
  OnIterationStart mm ∈ evs -> m_total_dur mm = Some (c_start ck (m_generation mm)).
Proof.
  unfold run. intros H Hi. apply obind_Ok in H as ([raw s1] & H1 & H). apply obind_Ok in H as (best1 & H2 & H).
  apply obind_Ok in H as ([evs1 [[[m3 pop'] best'] s2]] & H3 & H). injection H as <- <- <- <-.
  repeat (apply elem_of_cons in Hi as [Hi|Hi]; [discriminate Hi|]). apply elem_of_app in Hi as [Hi|Hi].
  - eapply loop_start_times; eauto.
  - apply elem_of_list_singleton in Hi. discriminate Hi.
Qed.

Section RunDriven.
Context {G St P W : Type} (cfg : config G St) (pol : policy (event G) P) (pr : probe (event G) W).
Variable logged : nat -> bool.
Variable ck : clock.
Variables ready busy : nat -> P -> Prop.
Notation n := (generation_limit cfg).
Hypothesis Hother : forall p e, per_iteration e = false -> pol p e = Ok (true, p).
Hypothesis Hstart : forall g p m, ready g p -> 0 < g <= n -> m_generation m = g -> m_total_dur m = Some (c_start ck g) ->
  exists p', pol p (OnIterationStart m) = Ok (logged g, p') /\ busy g p'.
Hypothesis Hgen : forall g p m q, busy g p -> m_generation m = g -> pol p (OnNewGeneration m q) = Ok (logged g, p).
Hypothesis Hbest : forall g p m q, busy g p -> m_generation m = g -> pol p (OnBestFit m q) = Ok (logged g, p).
Hypothesis Hend : forall g p m, busy g p -> m_generation m = g -> exists p', pol p (OnIterationEnd m) = Ok (logged g, p') /\ ready (S g) p'.

Lemma driven_run m0 s evs b m s' p w : run cfg ck m0 s = Ok (evs, b, m, s') -> ready 1 p ->
  exists p', feed (policy_driven pol pr) (p, w) evs = (w' ← feed pr w (only_iterations logged evs); Ok (p', w')).
Proof.
  intros H Hp. pose proof H as H0.
  destruct (run_gens _ _ _ _ _ _ _ _ H) as (m1 & m2 & pop0 & best0 & gens & E & _ & _ & _ & _ & _ & _ & _ & Hg & _ & Hle & _).
  assert (Ht : forall mm, OnIterationStart mm ∈ evs -> m_total_dur mm = Some (c_start ck (m_generation mm))).
  { intros mm. exact (run_start_times _ _ _ _ _ _ _ _ mm H). }
  assert (Hg2 : forall i r, gens !! i = Some r -> good_gen cfg (1 + i) r /\ m_total_dur (gr_m r) = Some (c_start ck (1 + i))).
  { intros i r Hi. split; [auto|]. pose proof (Hg i r Hi) as (Hmg & _). rewrite <- Hmg. apply Ht. rewrite E. apply elem_of_app. right.
    apply elem_of_app. left. clear - Hi. revert i best0 Hi. induction gens as [|r' gens IH]; intros i best0 Hi; [discriminate|].
    cbn [loop_trace]. apply elem_of_app. destruct i as [|i]; [injection Hi as ->; left; left|]. right. eapply IH. exact Hi. }
  destruct (driven_gens pol pr logged (c_start ck) n ready busy Hother Hstart Hgen Hbest Hend cfg gens 1 p best0 [OnEnd m (final_pop pop0 gens) b])
    as (p' & Hp' & HF); auto; [lia|].
  exists p'. rewrite E. cbn [app].
  rewrite (driven_step pol pr p true p) by (apply Hother; reflexivity).
  rewrite only_cons, (only_other logged (OnStart _)), feed_app, !obind_assoc by reflexivity. apply obind_ext. intros w1.
  rewrite (driven_step pol pr p true p) by (apply Hother; reflexivity).
  rewrite only_cons, (only_other logged (OnInitialPopulation _ _)), feed_app, !obind_assoc by reflexivity. apply obind_ext. intros w2.
  rewrite (driven_step pol pr p true p) by (apply Hother; reflexivity).
  rewrite only_cons, (only_other logged (OnNewBest _ _)), feed_app, !obind_assoc by reflexivity. apply obind_ext. intros w3.
  rewrite HF, only_app, (only_other logged (OnEnd _ _ _)), feed_app, !obind_assoc by reflexivity. apply obind_ext. intros w4.
  rewrite (driven_step pol pr p' true p') by (apply Hother; reflexivity). apply obind_ext. intros w5. reflexivity.
Qed.
End RunDriven.

(** ** GenerationInterval *)
Section Interval.
Context {G St W : Type} (cfg : config G St) (pr : probe (event G) W) (debug : bool).
Notation limit := (generation_limit cfg).

(** A run under GenerationInterval, from what the thresholds do. *)
Lemma interval_run (logged : nat -> bool) (inv : nat -> N -> Prop) ck m0 s evs b m s' k t w :
  run cfg ck m0 s = Ok (evs, b, m, s') ->
  (N.of_nat limit + k < 2 ^ 64)%N ->
  inv 1 t ->
  (forall g th, inv g th -> 0 < g <= limit -> logged g = (th <=? N.of_nat g)%N /\ inv (S g) (if logged g then th + k else th)%N) ->
  exists p', feed (policy_driven (gi_policy debug) pr) (gi_new k t, w) evs = (w' ← feed pr w (only_iterations logged evs); Ok (p', w')).
Proof.
  intros H Hk Hi Hs.
  apply (driven_run cfg (gi_policy debug) pr logged ck
    (fun g p => exists th, p = GenInt k th false /\ (inv g th \/ limit < g))
    (fun g p => exists th, p = GenInt k th (logged g) /\ (inv (S g) th \/ limit < S g)) ) with (m0 := m0) (s := s) (b := b) (m := m) (s' := s'); auto.
  - intros p [] He; try discriminate He; reflexivity.
  - intros g p mm (th & -> & [Hth|]) Hg Hm _; [|lia]. destruct (Hs g th Hth Hg) as [El Hn]. cbn [gi_policy gi_threshold gi_interval]. rewrite Hm.
    destruct (logged g) eqn:E; rewrite <- El.
    + symmetry in El. apply N.leb_le in El. unfold usize_add. rewrite (proj2 (N.ltb_lt _ _)) by lia. cbn [mbind outcome_bind]. eauto 10.
    + eauto 10.
  - intros g p mm q (th & -> & _) _. reflexivity.
  - intros g p mm q (th & -> & _) _. reflexivity.
  - intros g p mm (th & -> & Hth) _. eexists. split; [reflexivity|]. eauto.
  - exists t. split; [reflexivity|auto].
Qed.

Lemma every_spec t k g : (1 <= k)%N -> every t k g = true <-> exists j, N.of_nat g = (t + j * k)%N.
Proof.
  intros Hk. unfold every. rewrite andb_true_iff, N.leb_le, N.eqb_eq. split.
  - intros [Hle Hm]. exists ((N.of_nat g - t) / k)%N. pose proof (N.div_mod (N.of_nat g - t) k ltac:(lia)) as D. rewrite Hm in D. lia.
  - intros [j Hj]. split; [lia|]. replace (N.of_nat g - t)%N with (j * k)%N by lia. apply N.mod_mul. lia.
Qed.
Lemma bool_iff (a b : bool) : (a = true <-> b = true) -> a = b.
Proof. destruct a, b; intuition congruence. Qed.

Lemma interval_documented ck m0 s evs b m s' k t w :
  run cfg ck m0 s = Ok (evs, b, m, s') -> (1 <= k)%N -> (1 <= t)%N -> (N.of_nat limit + k < 2 ^ 64)%N ->
  exists p', feed (policy_driven (gi_policy debug) pr) (gi_new k t, w) evs = (w' ← feed pr w (only_iterations (every t k) evs); Ok (p', w')).
Proof.
  intros H Hk Ht Hb. apply (interval_run (every t k)
    (fun g th => (N.of_nat g <= th)%N /\ forall h, g <= h -> every t k h = true <-> exists j, N.of_nat h = (th + j * k)%N) ) with (ck := ck) (m0 := m0) (s := s) (b := b) (m := m) (s' := s'); auto.
  - split; [lia|]. intros h _. apply every_spec. exact Hk.
  - intros g th [Hg Hth] Hr. assert (El : every t k g = (th <=? N.of_nat g)%N).
    { apply bool_iff. rewrite Hth, N.leb_le by lia. split; [intros [j Hj]; lia|]. intros Hle. exists 0%N. lia. }
    split; [exact El|]. destruct (every t k g) eqn:E.
    + symmetry in El. apply N.leb_le in El. split; [lia|]. intros h Hh. rewrite Hth by lia. split; intros [j Hj].
      * exists (j - 1)%N. destruct (N.eq_dec j 0) as [->|]; [lia|]. nia.
      * exists (j + 1)%N. lia.
    + symmetry in El. apply N.leb_gt in El. split; [lia|]. intros h Hh. apply Hth. lia.
Qed.
(** first_threshold = 0: generation 1 and the multiples of the interval. *)
Lemma interval_zero_first ck m0 s evs b m s' k w :
  run cfg ck m0 s = Ok (evs, b, m, s') -> (1 <= k)%N -> (N.of_nat limit + k < 2 ^ 64)%N ->
  exists p', feed (policy_driven (gi_policy debug) pr) (gi_new k 0, w) evs =
    (w' ← feed pr w (only_iterations (fun g => (g =? 1) || every k k g) evs); Ok (p', w')).
Proof.
  intros H Hk Hb. set (L := fun g => (g =? 1) || every k k g).
  apply (interval_run L
    (fun g th => (g = 1 /\ th = 0%N) \/ (1 < g /\ (N.of_nat g <= th \/ (k = 1 /\ N.of_nat g = th + 1))%N /\ forall h, g <= h -> L h = true <-> exists j, N.of_nat h = (th + j * k)%N)) )
    with (ck := ck) (m0 := m0) (s := s) (b := b) (m := m) (s' := s'); auto.
  intros g th [[-> ->]|(Hg & Hth & HL)] Hr.
  - split; [reflexivity|]. right. cbn [L Nat.eqb orb]. split; [lia|]. split; [destruct (N.eq_dec k 1); lia|].
    intros h Hh. unfold L. rewrite (proj2 (Nat.eqb_neq h 1)) by lia. cbn [orb]. rewrite every_spec by lia. split; intros [j Hj].
    + exists (j)%N. lia.
    + exists j. lia.
  - assert (El : L g = (th <=? N.of_nat g)%N).
    { apply bool_iff. rewrite HL, N.leb_le by lia. split; [intros [j Hj]; lia|]. intros Hle. destruct Hth as [|[-> Hth]]; [exists 0%N; lia|exists 1%N; lia]. }
    split; [exact El|]. right. split; [lia|]. destruct (L g) eqn:E.
    + symmetry in El. apply N.leb_le in El. split; [lia|]. intros h Hh. rewrite HL by lia. split; intros [j Hj].
      * exists (j - 1)%N. destruct (N.eq_dec j 0) as [->|]; [lia|]. nia.
      * exists (j + 1)%N. lia.
    + symmetry in El. apply N.leb_gt in El. split; [lia|]. intros h Hh. apply HL. lia.
Qed.
(** interval = 0: every generation from the threshold on. *)
Lemma interval_zero ck m0 s evs b m s' t w :
  run cfg ck m0 s = Ok (evs, b, m, s') -> (N.of_nat limit < 2 ^ 64)%N ->
  exists p', feed (policy_driven (gi_policy debug) pr) (gi_new 0 t, w) evs =
    (w' ← feed pr w (only_iterations (fun g => t <=? N.of_nat g)%N evs); Ok (p', w')).
Proof.
  intros H Hb. apply (interval_run (fun g => t <=? N.of_nat g)%N (fun g th => th = t) ) with (ck := ck) (m0 := m0) (s := s) (b := b) (m := m) (s' := s'); auto; [lia|].
  intros g th -> _. split; [reflexivity|]. destruct (t <=? N.of_nat g)%N; lia.
Qed.
End Interval.

(** ** ElapsedTime *)
Section ElapsedTime.
Context {G St W : Type} (cfg : config G St) (pr : probe (event G) W).
Notation limit := (generation_limit cfg).

(** The decisions, as a list, newest first. *)
Fixpoint decisions (time : nat -> N) (t k : N) (n : nat) : list bool :=
  match n with
  | 0 => []
  | S n => let ds := decisions time t k n in
           (t + k * N.of_nat (count_occ bool_dec ds true) <=? time (S n))%N :: ds
  end.
Definition decided time t k (g : nat) : bool := hd false (decisions time t k g).

Lemma reported_decisions time t k g : reported_before (decided time t k) (S g) = N.of_nat (count_occ bool_dec (decisions time t k g) true).
Proof.
  unfold reported_before. f_equal. cbn [Nat.sub]. rewrite Nat.sub_0_r. induction g as [|g IH]; [reflexivity|].
  rewrite seq_S, filter_app, app_length, IH. cbn [decisions count_occ]. rewrite filter_cons, filter_nil.
  replace (1 + g) with (S g) by lia.
  assert (Ed : decided time t k (S g) = (t + k * N.of_nat (count_occ bool_dec (decisions time t k g) true) <=? time (S g))%N) by reflexivity.
  rewrite <- Ed. clear Ed. destruct (decided time t k (S g)); cbn [length]; [rewrite decide_True by reflexivity|rewrite decide_False by discriminate]; cbn; lia.
Qed.
Lemma decided_due time t k g : 0 < g -> decided time t k g = true <-> due t k time (decided time t k) g.
Proof.
  intros Hg. destruct g as [|g]; [lia|]. unfold due. rewrite reported_decisions. apply N.leb_le.
Qed.

Lemma elapsed_run ck m0 s evs b m s' k t w :
  run cfg ck m0 s = Ok (evs, b, m, s') ->
  (forall g, 0 < g <= limit -> (c_start ck g + k <= max_dur)%N) ->
  exists logged p', (forall g, 0 < g <= limit -> logged g = true <-> due t k (c_start ck) logged g) /\
    feed (policy_driven et_policy pr) (et_new k t, w) evs = (w' ← feed pr w (only_iterations logged evs); Ok (p', w')).
Proof.
  intros H Hb. set (L := decided (c_start ck) t k). 
  assert (X : exists p', feed (policy_driven et_policy pr) (et_new k t, w) evs = (w' ← feed pr w (only_iterations L evs); Ok (p', w'))).
  { apply (driven_run cfg et_policy pr L ck
     (fun g p => p = Elapsed k (t + k * reported_before L g)%N false)
     (fun g p => p = Elapsed k (t + k * reported_before L (S g))%N (L g)) ) with (m0 := m0) (s := s) (b := b) (m := m) (s' := s'); auto.
    - intros p [] He; try discriminate He; reflexivity.
    - intros g p mm -> Hg Hm Ht. cbn [et_policy et_threshold et_interval]. rewrite Ht. cbn [unwrap mbind outcome_bind].
      pose proof (decided_due (c_start ck) t k g ltac:(lia)) as HD. fold L in HD. unfold due in HD.
      assert (HR : reported_before L (S g) = (reported_before L g + if L g then 1 else 0)%N).
      { unfold reported_before. replace (S g - 1) with (g - 1 + 1) by lia. rewrite seq_app, filter_app, app_length. cbn [seq]. rewrite filter_cons, filter_nil.
        replace (1 + (g - 1)) with g by lia. destruct (L g); [rewrite decide_True by reflexivity|rewrite decide_False by discriminate]; cbn; lia. }
      destruct (L g) eqn:E.
      + rewrite (proj2 (N.leb_le _ _)) by (apply HD; reflexivity). unfold dur_add. rewrite (proj2 (N.leb_le _ _)).
        2: { specialize (Hb g Hg). pose proof (proj1 HD eq_refl). lia. }
        cbn [mbind outcome_bind]. eexists. split; [reflexivity|]. rewrite HR, N.mul_add_distr_l, N.mul_1_r, N.add_assoc. reflexivity.
      + rewrite (proj2 (N.leb_gt _ _)). 2: { destruct (N.lt_ge_cases (c_start ck g) (t + k * reported_before L g)); [auto|]. apply HD in H0. discriminate. }
        eexists. split; [reflexivity|]. rewrite HR, N.add_0_r. reflexivity.
    - intros g p mm q -> _. reflexivity.
    - intros g p mm q -> _. reflexivity.
    - intros g p mm -> _. eexists. split; reflexivity.
    - unfold reported_before. cbn. unfold et_new. f_equal. lia. }
  destruct X as [p' X]. exists L, p'. split; [|exact X]. intros g Hg. apply decided_due. lia.
Qed.
End ElapsedTime.
