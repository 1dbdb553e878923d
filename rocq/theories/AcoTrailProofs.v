(** * Lemmas on deposits on arbitrary paths *)
From Verif Require Import AcoModel AcoSpec AcoTrailSpec AcoPheromoneProofs AcoDepositProofs.
Open Scope nat_scope.

Lemma occ_count e es : occ e es = length (filter (fun i => es !! i = Some e) (seq 0 (length es))).
Proof.
  induction es as [|x es IH]; [reflexivity|]. cbn [length seq]. rewrite <- fmap_S_seq, filter_cons.
  assert (T : length (filter (fun i => (x :: es) !! i = Some e) (S <$> seq 0 (length es))) = occ e es).
  { rewrite IH. generalize (seq 0 (length es)). intros l. induction l as [|i l IHl]; [reflexivity|]. rewrite fmap_cons, !filter_cons.
    destruct (decide ((x :: es) !! S i = Some e)) as [D|D], (decide (es !! i = Some e)) as [D'|D']; [cbn [length]; f_equal; exact IHl|exfalso; exact (D' D)|exfalso; exact (D D')|exact IHl]. }
  cbn. fold (occ e es). destruct (decide (x = e)) as [->|N].
  - rewrite decide_True by reflexivity. cbn [length]. rewrite T. reflexivity.
  - rewrite decide_False by congruence. rewrite T. reflexivity.
Qed.
Lemma hits_moves p a b : hits a b (windows p) = moves p a b + moves p b a.
Proof.
  rewrite hits_occ, !occ_count, windows_length. unfold moves.
  assert (G : forall a b, filter (fun i => windows p !! i = Some (a, b)) (seq 0 (length p)) = filter (fun i => p !! i = Some a /\ p !! ((i + 1) mod length p) = Some b) (seq 0 (length p))).
  { intros x y. apply list_filter_iff. intros i. rewrite windows_lookup. split; [intros (? & ? & [= <- <-] & ? & ?); auto|intros [? ?]; eauto]. }
  rewrite !G. reflexivity.
Qed.
Lemma trail_value_trodden sols a b : forall v, trail_value sols a b v = trodden a b sols v.
Proof.
  unfold trail_value, trodden. induction sols as [|s sols IH]; intros v; [reflexivity|]. cbn [foldl]. rewrite hits_moves. apply IH.
Qed.
Lemma fits_windows m s : fits m s <-> Forall (fun e => in_matrix m e.1 e.2 /\ in_matrix m e.2 e.1) (windows (sol_path s)).
Proof.
  unfold fits. rewrite Forall_forall. split.
  - intros H [a b] He. apply windows_follows in He. cbn. split; apply H; [left|right]; exact He.
  - intros H a b [F|F]; apply windows_follows in F; destruct (H _ F); assumption.
Qed.
Lemma fits_dims m m' s : nrows m' = nrows m -> ncols m' = ncols m -> fits m s <-> fits m' s.
Proof. intros R C. unfold fits, in_matrix. rewrite R, C. reflexivity. Qed.
Lemma mget_cases m i j : (in_matrix m i j /\ mget m i j = Ok (entry m i j)) \/ (~ in_matrix m i j /\ mget m i j = Panic).
Proof. unfold mget, in_matrix. case_decide; auto. Qed.
Lemma fold_panics (f : matrix -> nat * nat -> outcome matrix) es :
  (forall m e, (in_matrix m e.1 e.2 /\ in_matrix m e.2 e.1 /\ exists m', f m e = Ok m' /\ nrows m' = nrows m /\ ncols m' = ncols m) \/ (~ (in_matrix m e.1 e.2 /\ in_matrix m e.2 e.1) /\ f m e = Panic)) ->
  forall m, (Forall (fun e => in_matrix m e.1 e.2 /\ in_matrix m e.2 e.1) es -> exists m', ofold f m es = Ok m') /\ (~ Forall (fun e => in_matrix m e.1 e.2 /\ in_matrix m e.2 e.1) es -> ofold f m es = Panic).
Proof.
  intros H. induction es as [|e es IH]; intros m; [split; [intros _; exists m; reflexivity|intros N; exfalso; apply N; constructor]|].
  cbn [ofold]. rewrite Forall_cons. destruct (H m e) as [(I1 & I2 & m' & E & R & C)|(N & E)]; rewrite E; cbn [mbind outcome_bind].
  - destruct (IH m') as [A B]. assert (X : Forall (fun e => in_matrix m e.1 e.2 /\ in_matrix m e.2 e.1) es <-> Forall (fun e => in_matrix m' e.1 e.2 /\ in_matrix m' e.2 e.1) es).
    { unfold in_matrix. rewrite R, C. reflexivity. } rewrite X. split; [intros [_ F]; exact (A F)|intros N; apply B; tauto].
  - split; [tauto|reflexivity].
Qed.
Lemma mupd_cases m i j f : (in_matrix m i j /\ mupd m i j f = Ok (upd m i j (f (entry m i j)))) \/ (~ in_matrix m i j /\ mupd m i j f = Panic).
Proof.
  destruct (mget_cases m i j) as [[I E]|[N E]]; [left|right]; (split; [assumption|]).
  - apply mupd_Ok. auto.
  - unfold mupd. rewrite E. reflexivity.
Qed.
Lemma trail_step_cases amount m e : (in_matrix m e.1 e.2 /\ in_matrix m e.2 e.1 /\ exists m', trail_step amount m e = Ok m' /\ nrows m' = nrows m /\ ncols m' = ncols m) \/ (~ (in_matrix m e.1 e.2 /\ in_matrix m e.2 e.1) /\ trail_step amount m e = Panic).
Proof.
  destruct e as [i j]. unfold trail_step. cbn [fst snd]. destruct (mupd_cases m i j (fun x => fadd x amount)) as [[I ->]|[N ->]]; cbn [mbind outcome_bind]; [|right; split; [tauto|reflexivity]].
  destruct (mupd_cases (upd m i j (fadd (entry m i j) amount)) j i (fun x => fadd x amount)) as [[I' ->]|[N ->]]; [left|right; split; [|reflexivity]].
  - split; [exact I|]. split; [exact I'|]. eexists. split; [reflexivity|]. split; reflexivity.
  - intros [_ H]. apply N. exact H.
Qed.
Lemma mm_step_cases fit lo hi m e : (in_matrix m e.1 e.2 /\ in_matrix m e.2 e.1 /\ exists m', mm_step fit lo hi m e = Ok m' /\ nrows m' = nrows m /\ ncols m' = ncols m) \/ (~ (in_matrix m e.1 e.2 /\ in_matrix m e.2 e.1) /\ mm_step fit lo hi m e = Panic).
Proof.
  destruct e as [i j]. unfold mm_step. cbn [fst snd]. destruct (mupd_cases m i j (fun x => fclamp (fadd x fit) lo hi)) as [[I ->]|[N ->]]; cbn [mbind outcome_bind]; [|right; split; [tauto|reflexivity]].
  set (m1 := upd m i j _). destruct (mget_cases m1 i j) as [[I1 ->]|[N1 _]]; [|exfalso; apply N1; exact I]. cbn [mbind outcome_bind].
  destruct (mget_cases m1 j i) as [[I2 _]|[N2 _]].
  - left. split; [exact I|]. split; [exact I2|]. exists (upd m1 j i (entry m1 i j)). split; [apply mset_Ok; auto|]. split; reflexivity.
  - right. split; [intros [_ H]; apply N2; exact H|]. unfold mset. rewrite decide_False by exact N2. reflexivity.
Qed.
Lemma trail1_cases amount path f m : let s := Sol path f in
  (fits m s -> exists m', leave_trail1 amount path m = Ok m') /\ (~ fits m s -> leave_trail1 amount path m = Panic).
Proof. intros s. rewrite fits_windows, leave_trail1_eq. apply fold_panics, trail_step_cases. Qed.
Lemma fits_dec m s : fits m s \/ ~ fits m s.
Proof.
  rewrite fits_windows. destruct (decide (Forall (fun e => (e.1 < nrows m /\ e.2 < ncols m) /\ e.2 < nrows m /\ e.1 < ncols m) (windows (sol_path s)))); [left|right]; assumption.
Qed.
Lemma trail_cases sols : forall m, (Forall (fits m) sols -> exists m', leave_trail sols m = Ok m') /\ (~ Forall (fits m) sols -> leave_trail sols m = Panic).
Proof.
  induction sols as [|s sols IH]; intros m; [split; [intros _; exists m; reflexivity|intros N; exfalso; apply N; constructor]|]. rewrite Forall_cons, trail_cons.
  destruct (trail1_cases (sol_fitness s) (sol_path s) (sol_fitness s) m) as [A B]. assert (Es : Sol (sol_path s) (sol_fitness s) = s) by (destruct s; reflexivity). cbv zeta in A, B. rewrite Es in A, B.
  destruct (fits_dec m s) as [F|F].
  - destruct (A F) as [m1 E]. rewrite E. cbn [mbind outcome_bind]. destruct (trail1_spec _ _ _ _ E) as (R & C & _). destruct (IH m1) as [A1 B1].
    assert (X : Forall (fits m) sols <-> Forall (fits m1) sols) by (rewrite !Forall_forall; split; intros H x Hx; apply (fits_dims m m1 x R C); apply H, Hx).
    rewrite X. split; [intros [_ G]; exact (A1 G)|intros N; apply B1; tauto].
  - rewrite (B F). split; [tauto|reflexivity].
Qed.
Lemma fits_scale c m s : fits (mscale c m) s <-> fits m s.
Proof. apply fits_dims; reflexivity. Qed.
Lemma all_fits_scale c m sols : Forall (fits (mscale c m)) sols <-> Forall (fits m) sols.
Proof. rewrite !Forall_forall. setoid_rewrite fits_scale. reflexivity. Qed.
Lemma trail1_trodden amount path m m' : leave_trail1 amount path m = Ok m' -> nrows m' = nrows m /\ ncols m' = ncols m /\
  forall a b, entry m' a b = added amount (moves path a b + moves path b a) (entry m a b).
Proof. intros H. destruct (trail1_spec _ _ _ _ H) as (R & C & E & _). split; [exact R|]. split; [exact C|]. intros a b. rewrite E, hits_moves. reflexivity. Qed.
Lemma trail_trodden sols m m' : leave_trail sols m = Ok m' -> nrows m' = nrows m /\ ncols m' = ncols m /\ forall a b, entry m' a b = trodden a b sols (entry m a b).
Proof. intros H. destruct (trail_spec _ _ _ H) as (R & C & E). split; [exact R|]. split; [exact C|]. intros a b. rewrite E. apply trail_value_trodden. Qed.
Lemma trodden_app a b l1 l2 v : trodden a b (l1 ++ l2) v = trodden a b l2 (trodden a b l1 v).
Proof. unfold trodden. apply foldl_app. Qed.

Definition updated (m m' : matrix) (rate : f64) (f : nat -> nat -> f64 -> f64) : Prop :=
  nrows m' = nrows m /\ ncols m' = ncols m /\ forall a b, entry m' a b = f a b (fmul (entry m a b) (fsub f1 rate)).
Lemma as_cases rate m sols : possible_or_panic (Forall (fits m) sols) (as_update rate m sols)
  (fun m' => updated m m' rate (fun a b => trodden a b sols)).
Proof.
  unfold as_update. destruct (trail_cases sols (mscale (fsub f1 rate) m)) as [A B]. rewrite all_fits_scale in A, B. split; [|exact B].
  intros F. destruct (A F) as [m' E]. exists m'. split; [exact E|]. destruct (trail_trodden _ _ _ E) as (R & C & V). split; [exact R|]. split; [exact C|]. exact V.
Qed.
Lemma elitist_cases rate m sols best : possible_or_panic (Forall (fits m) (sols ++ [overall_best best sols])) (elitist_update rate m sols best)
  (fun '(m', best') => best' = overall_best best sols /\ updated m m' rate (fun a b => trodden a b (sols ++ [overall_best best sols]))).
Proof.
  unfold elitist_update. set (b := overall_best best sols). destruct (trail_cases sols (mscale (fsub f1 rate) m)) as [A B]. rewrite all_fits_scale in A, B.
  assert (D : Forall (fits m) sols \/ ~ Forall (fits m) sols).
  { clear. induction sols as [|s sols IH]; [left; constructor|]. rewrite Forall_cons. destruct (fits_dec m s), IH; tauto. }
  unfold possible_or_panic. rewrite Forall_app, Forall_singleton. destruct D as [D|D]; [|rewrite (B D); split; [tauto|reflexivity]].
  destruct (A D) as [m1 E]. rewrite E. cbn [mbind outcome_bind]. destruct (trail_trodden _ _ _ E) as (R & C & V). destruct (trail1_cases (sol_fitness b) (sol_path b) (sol_fitness b) m1) as [A1 B1].
  assert (Es : Sol (sol_path b) (sol_fitness b) = b) by (destruct b; reflexivity). cbv zeta in A1, B1. rewrite Es in A1, B1. rewrite <- (fits_dims m m1 b R C) in A1, B1.
  split; [|intros N; rewrite B1 by tauto; reflexivity]. intros [_ F]. destruct (A1 F) as [m2 E2]. rewrite E2. cbn [mbind outcome_bind]. exists (m2, b). split; [reflexivity|]. split; [reflexivity|].
  destruct (trail1_trodden _ _ _ _ E2) as (R2 & C2 & V2). split; [rewrite R2; exact R|]. split; [rewrite C2; exact C|]. intros x y. rewrite V2, V, trodden_app. reflexivity.
Qed.
Lemma acs_cases policy rate m sols best : possible_or_panic (fits m (policy best sols)) (acs_update policy rate m sols best)
  (fun '(m', best') => best' = policy best sols /\ updated m m' rate (fun a b => trodden a b [Sol (sol_path best') (fmul (sol_fitness best') rate)])).
Proof.
  unfold acs_update. set (b := policy best sols). destruct (trail1_cases (fmul (sol_fitness b) rate) (sol_path b) (sol_fitness b) (mscale (fsub f1 rate) m)) as [A B].
  assert (Es : Sol (sol_path b) (sol_fitness b) = b) by (destruct b; reflexivity). cbv zeta in A, B. rewrite Es, fits_scale in A, B.
  split; [|intros N; rewrite (B N); reflexivity]. intros F. destruct (A F) as [m' E]. rewrite E. cbn [mbind outcome_bind]. exists (m', b). split; [reflexivity|]. split; [reflexivity|].
  destruct (trail1_trodden _ _ _ _ E) as (R & C & V). split; [exact R|]. split; [exact C|]. intros x y. rewrite V. reflexivity.
Qed.
Lemma mmas_cases policy rate lo hi m sols best : possible_or_panic (fits m (policy best sols)) (mmas_update policy rate lo hi m sols best) (fun r => r.2 = policy best sols).
Proof.
  rewrite mmas_eq. set (b := policy best sols). destruct (fold_panics (mm_step (sol_fitness b) lo hi) (windows (sol_path b)) (mm_step_cases _ _ _) (mscale (fsub f1 rate) m)) as [A B].
  rewrite <- fits_windows, fits_scale in A, B. split; [|intros N; rewrite (B N); reflexivity]. intros F. destruct (A F) as [m' E]. rewrite E. exists (m', b). split; reflexivity.
Qed.
Lemma fits_square m s n : nrows m = n -> ncols m = n -> fits m s <-> Forall (fun v => v < n) (sol_path s).
Proof.
  intros R C. unfold fits, in_matrix. rewrite R, C, Forall_forall. split.
  - intros H v Hv. apply elem_of_list_lookup in Hv as [i Hi]. pose proof (lookup_lt_Some _ _ _ Hi) as L.
    destruct (lookup_lt_is_Some_2 (sol_path s) ((i + 1) mod length (sol_path s)) ltac:(apply Nat.mod_upper_bound; lia)) as [w Hw].
    destruct (H v w) as [Q _]; [left; exists i; auto|exact Q].
  - intros H a b [(i & Ha & Hb)|(i & Ha & Hb)]; split; apply H; eauto using elem_of_list_lookup_2.
Qed.
Definition uses_es (es : list (nat * nat)) (a b : nat) : nat := if decide (a = b) then occ (a, a) es else hits a b es.
Lemma uses_windows p a b : uses_es (windows p) a b = uses p a b.
Proof.
  unfold uses_es, uses. destruct (decide (a = b)) as [->|N]; [|apply hits_moves]. pose proof (hits_moves p b b) as H. rewrite hits_occ in H. lia.
Qed.
Lemma uses_cons e es a b : uses_es (e :: es) a b = (if decide (hit a b e = 0) then 0 else 1) + uses_es es a b.
Proof.
  unfold uses_es. destruct (decide (a = b)) as [->|N].
  - change (occ (b, b) (e :: es)) with ((if decide (e = (b, b)) then 1 else 0) + occ (b, b) es). unfold hit. destruct (decide (e = (b, b))); reflexivity.
  - change (hits a b (e :: es)) with (hit a b e + hits a b es). unfold hit. destruct (decide (e = (a, b))) as [E1|], (decide (e = (b, a))) as [E2|]; try reflexivity.
    exfalso. apply N. rewrite E1 in E2. injection E2 as X _. exact X.
Qed.
Lemma fclamp_cut lo hi v : cut_to lo hi v (fclamp v lo hi).
Proof.
  unfold cut_to, fclamp, fgt. split; [|split; [|split]].
  - intros -> ->. reflexivity.
  - intros H. destruct (flt lo v) eqn:E; [|reflexivity]. exfalso. pose proof (fle_lt_trans _ _ _ H E) as X. rewrite flt_irrefl in X. discriminate.
  - intros -> H. destruct (flt v hi) eqn:E; [|reflexivity]. exfalso. pose proof (fle_lt_trans _ _ _ H E) as X. rewrite flt_irrefl in X. discriminate.
  - intros H. destruct (flt lo v) eqn:E; [|reflexivity]. apply flt_nan_r in E. rewrite H in E. discriminate.
Qed.
Lemma mm_fold_adds fit lo hi : forall es m m', symmetric m -> ofold (mm_step fit lo hi) m es = Ok m' ->
  nrows m' = nrows m /\ ncols m' = ncols m /\ forall a b, in_matrix m a b -> limited_adds lo hi fit (uses_es es a b) (entry m a b) (entry m' a b).
Proof.
  induction es as [|e es IH]; intros m m' Hm H; cbn [ofold] in H.
  - injection H as <-. split; [reflexivity|]. split; [reflexivity|]. intros a b _.
    replace (uses_es [] a b) with 0 by (unfold uses_es; destruct (decide (a = b)); reflexivity). constructor.
  - apply obind_Ok in H as (m1 & H1 & H). destruct (mm_step_Ok _ _ _ _ _ _ H1) as (I1 & I2 & R & C & E).
    assert (S1 : symmetric m1). { apply (mm_fold_symmetric fit lo hi [e] m m1 Hm). cbn [ofold]. rewrite H1. reflexivity. }
    destruct (IH _ _ S1 H) as (R' & C' & E'). split; [rewrite R'; exact R|]. split; [rewrite C'; exact C|]. intros a b Iab. rewrite uses_cons.
    assert (I' : in_matrix m1 a b) by (unfold in_matrix; rewrite R, C; exact Iab). specialize (E' a b I').
    pose proof (E a b) as Ea. destruct (decide (hit a b e = 0)) as [Z|NZ]; [rewrite Ea in E'; exact E'|].
    cbn [Nat.add]. apply one_more with (u := entry m1 a b); [|exact E']. rewrite Ea.
    assert (Q : entry m e.1 e.2 = entry m a b).
    { destruct e as [x y]. rewrite hit_zero in NZ. cbn [fst snd] in *. destruct Hm as [_ Hs].
      destruct (decide (a = x /\ b = y)) as [[-> ->]|N1]; [reflexivity|]. destruct (decide (a = y /\ b = x)) as [[-> ->]|N2]; [apply Hs; exact I1|]. exfalso. apply NZ. tauto. }
    rewrite Q. apply fclamp_cut.
Qed.
Lemma mmas_adds policy rate lo hi m sols best m' best' : symmetric m -> mmas_update policy rate lo hi m sols best = Ok (m', best') ->
  nrows m' = nrows m /\ ncols m' = ncols m /\
  forall a b, in_matrix m a b -> limited_adds lo hi (sol_fitness best') (uses (sol_path best') a b) (fmul (entry m a b) (fsub f1 rate)) (entry m' a b).
Proof.
  intros Hm H. rewrite mmas_eq in H. apply obind_Ok in H as (m1 & H1 & H). injection H as <- <-.
  destruct (mm_fold_adds _ _ _ _ _ _ (scale_symmetric _ _ Hm) H1) as (R & C & E). split; [exact R|]. split; [exact C|]. intros a b I. rewrite <- uses_windows. exact (E a b I).
Qed.
