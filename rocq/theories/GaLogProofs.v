(** * Proofs about the log of the stdout probe *)
From Verif Require Export GaLogSpec GaProofs.
Open Scope nat_scope.

Lemma SS_snoc (l : list N) x : StronglySorted N.le l -> Forall (fun y => y <= x)%N l -> StronglySorted N.le (l ++ [x]).
Proof.
  induction 1 as [|y l Hs IH Hy]; intros HF; cbn [app]; [repeat constructor|]. apply Forall_cons in HF as [H1 H2]. constructor; [auto|]. apply Forall_app. split; [exact Hy|repeat constructor; exact H1].
Qed.
Section Log.
Context {G St : Type} (cfg : config G St) (ck : clock).
Notation ms g := (as_millis (c_start ck g)).
Lemma best_of_find (pop : list (individual G)) x : find_best pop = Ok x -> best_of pop x.
Proof. intros H. split; [eapply find_best_in, H|]. intros HN. apply (find_best_min _ _ H HN). Qed.
Lemma feed_app {E W} (p : probe E W) w e1 e2 w1 : feed p w e1 = Ok w1 -> feed p w (e1 ++ e2) = feed p w1 e2.
Proof. unfold feed. revert w. induction e1 as [|e e1 IH]; intros w H; cbn [ofold app] in *; [injection H as <-; reflexivity|]. apply obind_Ok in H as (w2 & H1 & H2). rewrite H1. cbn [mbind outcome_bind]. auto. Qed.
Definition gen_line1 (g : nat) (best x : individual G) : list (log_line G) := generation_lines (fun i => ms i) g best [x].
Lemma generation_log g m pop best s evs m' pop' best' s' : generation cfg ck g m pop best s = Ok (evs, (m', pop', best', s')) ->
  exists x, best_of pop' x /\ omap population_of evs = [pop'] /\ m_generation m' = g /\ best' = (if flt (fitness x) (fitness best) then x else best) /\
  forall log, feed stdout_probe log evs = Ok (log ++ gen_line1 g best x).
Proof.
  unfold generation. intros H.
  apply obind_Ok in H as ([sel s1] & H1 & H). apply obind_Ok in H as (pool & H2 & H).
  apply obind_Ok in H as ([ch s2] & H3 & H). apply obind_Ok in H as ([ch2 s3] & H4 & H).
  apply obind_Ok in H as ([pop2 s4] & H5 & H). apply obind_Ok in H as ([] & H6 & H).
  apply obind_Ok in H as (x & H7 & H). injection H as <- <- <- <- <-. exists x. split; [apply best_of_find, H7|].
  unfold gen_line1. cbn [generation_lines]. destruct (flt (fitness x) (fitness best)); split_and!; try reflexivity; intros log; cbn [app feed ofold stdout_probe unwrap mbind outcome_bind m_total_dur m_generation default]; rewrite <- ?app_assoc; reflexivity.
Qed.
Definition record (best : individual G) (xs : list (individual G)) : individual G := fold_left (fun b x => if flt (fitness x) (fitness b) then x else b) xs best.
Lemma loop_log rem : forall g m pop best s evs m' pop' best' s',
  main_loop cfg ck rem g m pop best s = Ok (evs, (m', pop', best', s')) ->
  exists xs, Forall2 best_of (omap population_of evs) xs /\ m_generation m' = match xs with [] => m_generation m | _ => g + length xs - 1 end /\ best' = record best xs /\
  forall log, feed stdout_probe log evs = Ok (log ++ generation_lines (fun i => ms i) g best xs).
Proof.
  induction rem as [|rem IH]; intros g m pop best s evs m' pop' best' s' H; cbn [main_loop] in H.
  { injection H as <- <- <- <- <-. exists []. split; [constructor|]. split; [reflexivity|]. split; [reflexivity|]. intros log. cbn. rewrite app_nil_r. reflexivity. }
  apply obind_Ok in H as ([evs1 [[[m1 pop1] best1] s1]] & H1 & H).
  destruct (generation_log _ _ _ _ _ _ _ _ _ _ H1) as (x & Hx & HP & Hm & Hb & HL).
  destruct (max_duration cfg <=? c_end ck g)%N.
  { injection H as <- <- <- <- <-. exists [x]. rewrite HP. split; [repeat constructor; apply Hx|]. split; [rewrite Hm; cbn [length]; lia|]. split; [exact Hb|]. exact HL. }
  apply obind_Ok in H as ([evs2 st] & H2 & H). injection H as <- ->.
  destruct (IH _ _ _ _ _ _ _ _ _ _ H2) as (xs & HF & Hm' & Hb' & HL'). exists (x :: xs). rewrite omap_app, HP. split; [constructor; assumption|]. split.
  { rewrite Hm'. destruct xs; [rewrite Hm|]; cbn [length]; lia. }
  split; [rewrite Hb', Hb; reflexivity|]. intros log. rewrite (feed_app _ _ _ _ _ (HL log)), HL', <- app_assoc. f_equal. f_equal. rewrite Hb. unfold gen_line1. cbn [generation_lines].
  rewrite Nat.add_1_r. destruct (flt (fitness x) (fitness best)); rewrite <- ?app_assoc; reflexivity.
Qed.
Lemma run_log m0 s evs b m s' : run cfg ck m0 s = Ok (evs, b, m, s') -> m_generation m0 = 0 ->
  exists b0 xs, Forall2 best_of (populations evs) (b0 :: xs) /\ b = record b0 xs /\
  forall log, feed stdout_probe log evs = Ok (log ++ [StartLine; NewBestLine (as_millis (c_init ck)) 0 (chromosome b0) (fitness b0)] ++
    generation_lines (fun i => as_millis (c_start ck i)) 1 b0 xs ++ [EndLine (as_millis (c_final ck)) (length xs) (chromosome b) (fitness b)]).
Proof.
  unfold run. intros H H0. apply obind_Ok in H as ([raw s1] & H1 & H). apply obind_Ok in H as (best0 & H2 & H).
  apply obind_Ok in H as ([evs1 [[[m3 pop'] best'] s2]] & H3 & H). injection H as <- <- <- <-.
  destruct (loop_log _ _ _ _ _ _ _ _ _ _ _ H3) as (xs & HF & Hm & Hb & HL). cbn [m_generation] in Hm. exists best0, xs. split; [|split; [exact Hb|]].
  - unfold populations. cbn [omap list_omap population_of]. rewrite omap_app. cbn [omap list_omap population_of]. rewrite app_nil_r. constructor; [apply best_of_find, H2|exact HF].
  - intros log. cbn [feed ofold stdout_probe mbind outcome_bind m_total_dur m_generation default]. rewrite <- app_assoc. cbn [app].
    pose proof (HL (log ++ [StartLine; NewBestLine (as_millis (c_init ck)) (m_generation m0) (chromosome best0) (fitness best0)])) as HL'.
    change (ofold stdout_probe) with (feed (@stdout_probe G)). rewrite (feed_app _ _ _ _ _ HL').
    cbn [feed ofold stdout_probe unwrap mbind outcome_bind m_total_dur m_generation]. rewrite <- !app_assoc. cbn [app]. rewrite H0, Hm. replace (match xs with [] => m_generation m0 | _ => 1 + length xs - 1 end) with (length xs); [reflexivity|]. destruct xs; cbn [length]; lia.
Qed.

(** ** What follows for a reader of the log *)
Lemma lines_numbers time xs : forall g (best : individual G), omap line_best_in_gen (generation_lines time g best xs) = seq g (length xs).
Proof. induction xs as [|x xs IH]; intros g best; cbn [generation_lines]; [reflexivity|]. destruct (flt _ _); cbn [app omap list_omap line_best_in_gen length seq]; rewrite IH; reflexivity. Qed.
Lemma lines_new_bests time xs : forall g (best : individual G),
  StronglySorted (fun u v : individual G => flt (fitness v) (fitness u) = true) (best :: omap line_new_best (generation_lines time g best xs)) /\
  last (best :: omap line_new_best (generation_lines time g best xs)) = Some (record best xs).
Proof.
  induction xs as [|x xs IH]; intros g best; cbn [generation_lines]; [cbn; repeat constructor|]. unfold record. cbn [fold_left]. fold (record (if flt (fitness x) (fitness best) then x else best) xs).
  destruct (flt (fitness x) (fitness best)) eqn:E; cbn [app omap list_omap line_new_best].
  - destruct (IH (S g) x) as [IS IL]. assert (Ex : Ind (chromosome x) (fitness x) = x) by (destruct x; reflexivity). rewrite Ex. split; [|exact IL].
    constructor; [exact IS|]. apply StronglySorted_inv in IS as [_ IS]. constructor; [exact E|]. eapply Forall_impl; [exact IS|]. intros v Hv. cbn in *. eapply flt_trans; eassumption.
  - apply IH.
Qed.
Lemma lines_times time xs (Hm : forall i, (time i <= time (S i))%N) : forall g (best : individual G),
  StronglySorted N.le (omap line_time (generation_lines time g best xs)) /\ Forall (fun t => time g <= t /\ exists i, t = time i)%N (omap line_time (generation_lines time g best xs)).
Proof.
  induction xs as [|x xs IH]; intros g best; cbn [generation_lines]; [cbn; repeat constructor|].
  assert (Hmono : forall b, Forall (fun t => time g <= t /\ exists i, t = time i)%N (omap line_time (generation_lines time (S g) b xs))).
  { intros b. eapply Forall_impl; [apply IH|]. intros t [H1 H2]. split; [specialize (Hm g); lia|exact H2]. }
  assert (Hs : forall b, StronglySorted N.le (time g :: omap line_time (generation_lines time (S g) b xs))).
  { intros b. constructor; [apply IH|]. eapply Forall_impl; [apply Hmono|]. intros t [H1 _]. exact H1. }
  destruct (flt _ _); cbn [app omap list_omap line_time].
  - split; [|constructor; [split; [lia|eauto]|constructor; [split; [lia|eauto]|apply Hmono]]]. constructor; [apply Hs|]. constructor; [lia|]. eapply Forall_impl; [apply Hmono|]. intros t [H1 _]. exact H1.
  - split; [apply Hs|]. constructor; [split; [lia|eauto]|apply Hmono].
Qed.
Lemma as_millis_le a b : (a <= b -> as_millis a <= as_millis b)%N.
Proof. intros H. unfold as_millis. apply N.div_le_mono; [lia|exact H]. Qed.
Lemma log_reading m0 s evs b m s' : run cfg ck m0 s = Ok (evs, b, m, s') -> m_generation m0 = 0 ->
  exists log, feed stdout_probe [] evs = Ok log /\ omap line_best_in_gen log = seq 1 (iterations evs) /\
  StronglySorted (fun u v : individual G => flt (fitness v) (fitness u) = true) (omap line_new_best log) /\ last (omap line_new_best log) = Some b /\
  last log = Some (EndLine (as_millis (c_final ck)) (iterations evs) (chromosome b) (fitness b)) /\
  (forward ck -> StronglySorted N.le (omap line_time log)).
Proof.
  intros H H0. destruct (run_log _ _ _ _ _ _ H H0) as (b0 & xs & HF & Hb & HL). specialize (HL []). cbn [app] in HL. eexists. split; [exact HL|].
  assert (Hi : length xs = iterations evs).
  { destruct (run_flow cfg _ _ _ _ _ _ _ H) as (raw & s0 & ss & _ & _ & _ & _ & _ & Hl & _). apply Forall2_length in HF. cbn [length] in HF. congruence. }
  rewrite <- Hi. cbn [omap list_omap line_best_in_gen line_new_best line_time]. rewrite !omap_app. cbn [omap list_omap line_best_in_gen line_new_best line_time]. rewrite !app_nil_r.
  destruct (lines_new_bests (fun i => ms i) xs 1 b0) as [L1 L2]. assert (Ex : Ind (chromosome b0) (fitness b0) = b0) by (destruct b0; reflexivity). rewrite Ex.
  split; [apply lines_numbers|]. split; [exact L1|]. split; [rewrite Hb; exact L2|]. split; [rewrite !app_comm_cons, last_snoc; reflexivity|].
  intros (F1 & F2 & F3 & F4). destruct (lines_times (fun i => ms i) xs (fun i => as_millis_le _ _ (F3 i)) 1 b0) as [T1 T2].
  constructor.
  - apply SS_snoc; [exact T1|]. eapply Forall_impl; [exact T2|]. intros t [_ [i ->]]. apply as_millis_le, F4.
  - apply Forall_app. split; [|repeat constructor; apply as_millis_le, F2]. eapply Forall_impl; [exact T2|]. intros t [Ht _]. apply as_millis_le in F1. cbn in Ht. lia.
Qed.
End Log.
Lemma run_lines (G St : Type) (cfg : config G St) ck m0 s evs b m s' :
  run cfg ck m0 s = Ok (evs, b, m, s') -> m_generation m0 = 0 ->
  exists b0 xs, Forall2 best_of (populations evs) (b0 :: xs) /\
  forall log, feed stdout_probe log evs = Ok (log ++ [StartLine; NewBestLine (as_millis (c_init ck)) 0 (chromosome b0) (fitness b0)] ++
    generation_lines (fun i => as_millis (c_start ck i)) 1 b0 xs ++ [EndLine (as_millis (c_final ck)) (length xs) (chromosome b) (fitness b)]).
Proof. intros H H0. destruct (run_log cfg ck _ _ _ _ _ _ H H0) as (b0 & xs & HF & _ & HL). eauto. Qed.
