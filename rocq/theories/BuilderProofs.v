From Verif Require Import BuilderModel BuilderSpec.
Open Scope nat_scope.

Lemma last_set_snoc {A B} (what : A -> option B) calls c :
  last_set what (calls ++ [c]) = match what c with Some x => Some x | None => last_set what calls end.
Proof.
  unfold last_set. rewrite omap_app. cbn [omap list_omap]. destruct (what c) as [x|]; cbn.
  - apply last_snoc.
  - rewrite app_nil_r. reflexivity.
Qed.

Section Generic.
Context {F M C Sel R P Pr : Type}.
Notation call := (builder_call F M C Sel R P Pr).

Lemma configure_state (calls : list call) b : ofold generic_call config_opt_new calls = Ok b ->
  Forall (fun c => ~ invalid_call c) calls /\
  b = GAConfigOpt (GAParamsOpt (last_set sizes calls) (last_set limits calls) (last_set durations calls))
        (last_set fitnesses calls) (last_set mutations calls) (last_set crossovers calls) (last_set selections calls)
        (last_set replacements calls) (last_set generators calls) (last_set probes calls).
Proof.
  revert b. induction calls as [|c calls IH] using rev_ind; intros b H.
  - injection H as <-. split; [constructor|reflexivity].
  - rewrite ofold_app in H. apply obind_Ok in H as (b0 & H0 & H). apply IH in H0 as [Hf ->].
    cbn [ofold] in H. apply obind_Ok in H as (b1 & H & [= ->]).
    rewrite !last_set_snoc.
    assert (Hc : ~ invalid_call c /\ b = GAConfigOpt (GAParamsOpt (match sizes c with Some x => Some x | None => last_set sizes calls end)
      (match limits c with Some x => Some x | None => last_set limits calls end) (match durations c with Some x => Some x | None => last_set durations calls end))
      (match fitnesses c with Some x => Some x | None => last_set fitnesses calls end) (match mutations c with Some x => Some x | None => last_set mutations calls end)
      (match crossovers c with Some x => Some x | None => last_set crossovers calls end) (match selections c with Some x => Some x | None => last_set selections calls end)
      (match replacements c with Some x => Some x | None => last_set replacements calls end) (match generators c with Some x => Some x | None => last_set generators calls end)
      (match probes c with Some x => Some x | None => last_set probes calls end)).
    { destruct c; cbn in H |- *; try (injection H as <-; split; [tauto|reflexivity]).
      - destruct (1 <=? n)%N eqn:E; cbn in H; [|discriminate]. injection H as <-. split; [apply N.leb_le in E; lia|reflexivity].
      - destruct (0 <? n)%N eqn:E; cbn in H; [|discriminate]. injection H as <-. split; [apply N.ltb_lt in E; lia|reflexivity]. }
    destruct Hc as [Hc ->]. split; [apply Forall_app; split; [exact Hf|constructor; [exact Hc|constructor]]|reflexivity].
Qed.
Lemma configure_ok (calls : list call) : Forall (fun c => ~ invalid_call c) calls -> forall b, is_Ok (ofold generic_call b calls).
Proof.
  induction 1 as [|c calls Hc Hcs IH]; intros b; cbn [ofold]; [auto|].
  assert (is_Ok (generic_call b c)) as [b1 ->].
  { destruct b, c; cbn in *; auto.
    - destruct (1 <=? n)%N eqn:E; [cbn; auto|apply N.leb_gt in E; lia].
    - destruct (0 <? n)%N eqn:E; [cbn; auto|apply N.ltb_ge in E; lia]. }
  apply IH.
Qed.
Lemma configure_panic (calls : list call) : Exists invalid_call calls -> forall b, ofold generic_call b calls = Panic.
Proof.
  induction 1 as [c calls Hc|c calls Hc IH]; intros b; cbn [ofold].
  - destruct b, c; cbn in *; try tauto; subst; reflexivity.
  - destruct b, c; cbn [generic_call rassert]; try (cbn; apply IH).
    + destruct (1 <=? n)%N; cbn; [apply IH|reflexivity].
    + destruct (0 <? n)%N; cbn; [apply IH|reflexivity].
Qed.

Theorem generic_builder_spec (calls : list call) :
  (Exists invalid_call calls -> generic_builder calls = Panic) /\
  (Forall (fun c => ~ invalid_call c) calls ->
   (forall f m c s r g p,
      last_set fitnesses calls = Some f -> last_set mutations calls = Some m -> last_set crossovers calls = Some c ->
      last_set selections calls = Some s -> last_set replacements calls = Some r -> last_set generators calls = Some g ->
      last_set probes calls = Some p ->
      generic_builder calls = Ok (inl (GAConfig
        (GAParams (default 100%N (last_set sizes calls)) (default (2 ^ 64 - 1)%N (last_set limits calls))
                  (default ((2 ^ 64 - 1) * 10 ^ 9 + 999999999)%N (last_set durations calls))) f m c s r g p))) /\
   (forall e, first_missing
        [(is_set (last_set fitnesses calls), MissingOperator "No fitness function specified");
         (is_set (last_set mutations calls), MissingOperator "No mutation operator specified");
         (is_set (last_set crossovers calls), MissingOperator "No crossover operator specified");
         (is_set (last_set selections calls), MissingOperator "No selection operator specified");
         (is_set (last_set replacements calls), MissingOperator "No replacement operator specified");
         (is_set (last_set generators calls), MissingPopulationFactory);
         (is_set (last_set probes calls), NoProbe)] = Some e ->
      generic_builder calls = Ok (inr e))).
Proof.
  split.
  - intros H. unfold generic_builder. rewrite configure_panic by exact H. reflexivity.
  - intros H. destruct (configure_ok calls H config_opt_new) as [b Hb].
    unfold generic_builder. rewrite Hb. cbn [mbind outcome_bind].
    apply configure_state in Hb as [_ ->]. unfold generic_build, config_try_from, set_params, fill_from, params_try_from.
    cbn [co_params po_size po_limit po_duration co_fitness co_mutation co_crossover co_selection co_replacement co_generator co_probe].
    assert (E : forall A (o : option A) x, get_or_insert o x = Some (default x o)) by (intros A [] x; reflexivity).
    rewrite !E. cbn [gp_size gp_limit gp_duration default_params].
    split.
    + intros f m c s r g p -> -> -> -> -> -> ->. reflexivity.
    + intros e. unfold first_missing, is_set.
      destruct (last_set fitnesses calls); [|congruence]. destruct (last_set mutations calls); [|congruence].
      destruct (last_set crossovers calls); [|congruence]. destruct (last_set selections calls); [|congruence].
      destruct (last_set replacements calls); [|congruence]. destruct (last_set generators calls); [|congruence].
      destruct (last_set probes calls); congruence.
Qed.
End Generic.

Section Preset.
Context {F : Type}.

Definition p_bad (checked : bool) (c : preset_call F) : Prop :=
  match c with PPopulationSize n | PMaxGenerationCount n => checked = true /\ n = 0%N | PDim n => n = 0%N | _ => False end.
Global Instance p_bad_dec checked c : Decision (p_bad checked c).
Proof. destruct c; cbn; apply _. Defined.

Lemma preset_state checked (calls : list (preset_call F)) b : ofold (preset_set checked) preset_new calls = Ok b ->
  b = PresetBuilder (GAConfigOpt (GAParamsOpt (last_set p_sizes calls) (last_set p_limits calls) (last_set p_durations calls))
        (last_set p_fitnesses calls) None None None None None None) (last_set p_dims calls) /\
  (forall n, last_set p_dims calls = Some n -> (0 < n)%N).
Proof.
  revert b. induction calls as [|c calls IH] using rev_ind; intros b H.
  - injection H as <-. split; [reflexivity|discriminate].
  - rewrite ofold_app in H. apply obind_Ok in H as (b0 & H0 & H). apply IH in H0 as [-> Hd].
    cbn [ofold] in H. apply obind_Ok in H as (b1 & H & [= ->]).
    rewrite !last_set_snoc. destruct c; cbn in H |- *.
    + injection H as <-. auto.
    + destruct (negb checked || (1 <=? n)%N); cbn in H; [|discriminate]. injection H as <-. auto.
    + destruct (negb checked || (0 <? n)%N); cbn in H; [|discriminate]. injection H as <-. auto.
    + destruct (0 <? n)%N eqn:E; cbn in H; [|discriminate]. injection H as <-. split; [reflexivity|].
      intros ? [= <-]. apply N.ltb_lt in E; exact E.
    + injection H as <-. auto.
Qed.
Lemma preset_set_ok checked b c : ~ p_bad checked c -> is_Ok (preset_set checked b c).
Proof.
  destruct c; cbn; auto; intros H.
  - destruct checked; [|cbn; auto]. destruct (N.leb_spec 1 n); [cbn; auto|exfalso; apply H; split; [reflexivity|lia]].
  - destruct checked; [|cbn; auto]. destruct n; [exfalso; apply H; auto|cbn; auto].
  - destruct n; [exfalso; apply H; auto|cbn; auto].
Qed.
Lemma preset_set_panic checked b c : p_bad checked c -> preset_set checked b c = Panic.
Proof. destruct c; cbn; try tauto; [intros [-> ->]|intros [-> ->]|intros ->]; reflexivity. Qed.
Lemma preset_set_nd checked b (c : preset_call F) : preset_set checked b c <> Diverge.
Proof.
  destruct c; cbn; try discriminate.
  - destruct (negb checked || (1 <=? n)%N); discriminate.
  - destruct (negb checked || (0 <? n)%N); discriminate.
  - destruct (0 <? n)%N; discriminate.
Qed.
Lemma preset_configure_ok checked (calls : list (preset_call F)) : Forall (fun c => ~ p_bad checked c) calls -> forall b, is_Ok (ofold (preset_set checked) b calls).
Proof.
  induction 1 as [|c calls Hc Hcs IH]; intros b; cbn [ofold]; [auto|].
  destruct (preset_set_ok checked b c Hc) as [b1 ->]. apply IH.
Qed.
Lemma preset_configure_panic checked (calls : list (preset_call F)) : Exists (p_bad checked) calls -> forall b, ofold (preset_set checked) b calls = Panic.
Proof.
  induction 1 as [c calls Hc|c calls Hc IH]; intros b; cbn [ofold].
  - rewrite preset_set_panic by exact Hc. reflexivity.
  - pose proof (preset_set_nd checked b c) as Hn. destruct (preset_set checked b c) as [b1| |]; [apply IH|reflexivity|congruence].
Qed.

Lemma preset_spec checked mut gen (calls : list (preset_call F)) :
  let res := (b ← ofold (preset_set checked) preset_new calls; preset_build mut gen b) in
  (Exists (p_bad checked) calls -> res = Panic) /\
  (last_set p_fitnesses calls = None \/ last_set p_dims calls = None -> res = Panic) /\
  (Forall (fun c => ~ p_bad checked c) calls -> forall f dim, last_set p_fitnesses calls = Some f -> last_set p_dims calls = Some dim ->
   let size := default 100%N (last_set p_sizes calls) in
   res = Ok (inl (GAConfig (GAParams size (default (2 ^ 64 - 1)%N (last_set p_limits calls))
                  (default ((2 ^ 64 - 1) * 10 ^ 9 + 999999999)%N (last_set p_durations calls)))
                f mut SinglePointNew (TournamentNew f_0_2 size) BothParentsNew (gen dim) StdoutProbeNew))).
Proof.
  cbn zeta.
  assert (Hp : Exists (p_bad checked) calls -> (b ← ofold (preset_set checked) preset_new calls; preset_build mut gen b) = Panic)
    by (intros H; rewrite preset_configure_panic by exact H; reflexivity).
  split; [exact Hp|]. split.
  - intros H. destruct (ofold (preset_set checked) preset_new calls) as [b| |] eqn:E; cbn [mbind outcome_bind].
    + apply preset_state in E as [-> _]. unfold preset_build. cbn [pb_config co_fitness pb_dim].
      destruct H as [-> | ->]; [reflexivity|]. destruct (last_set p_fitnesses calls); reflexivity.
    + reflexivity.
    + exfalso. revert E. generalize (@preset_new F). clear. induction calls as [|c calls IH]; intros b; cbn [ofold]; [discriminate|].
      pose proof (preset_set_nd checked b c) as Hn. destruct (preset_set checked b c) as [b1| |]; [apply IH|discriminate|congruence].
  - intros H f dim Hf Hd. destruct (preset_configure_ok checked calls H preset_new) as [b Hb]. rewrite Hb. cbn [mbind outcome_bind].
    apply preset_state in Hb as [-> Hpos]. unfold preset_build. cbn [pb_config co_fitness pb_dim co_params po_size po_limit po_duration fill_from].
    rewrite Hf, Hd. cbn [rassert mbind outcome_bind unwrap].
    assert (E : forall A (o : option A) x, get_or_insert o x = Some (default x o)) by (intros A [] x; reflexivity).
    rewrite !E. cbn [gp_size gp_limit gp_duration default_params unwrap mbind outcome_bind co_crossover co_mutation co_selection co_replacement co_generator co_probe get_or_insert].
    change (fle f0 f_0_2 && fle f_0_2 f1) with true. cbn [rassert mbind outcome_bind].
    rewrite (proj2 (N.ltb_lt 0 dim)) by (apply Hpos; exact Hd). cbn [rassert mbind outcome_bind].
    unfold fill_from, config_try_from, params_try_from. cbn [co_params po_size po_limit po_duration]. rewrite !E. reflexivity.
Qed.

Lemma p_bad_true (calls : list (preset_call F)) : Forall (fun c => ~ p_invalid c) calls <-> Forall (fun c => ~ p_bad true c) calls.
Proof.
  split; intros H; (eapply Forall_impl; [exact H|]); intros []; cbn; tauto.
Qed.
Lemma p_bad_true_ex (calls : list (preset_call F)) : Exists p_invalid calls <-> Exists (p_bad true) calls.
Proof. split; intros H; (eapply Exists_impl; [exact H|]); intros []; cbn; tauto. Qed.

Theorem preset_builders_spec (calls : list (preset_call F)) :
  let size := default 100%N (last_set p_sizes calls) in
  let params := GAParams size (default (2 ^ 64 - 1)%N (last_set p_limits calls))
                  (default ((2 ^ 64 - 1) * 10 ^ 9 + 999999999)%N (last_set p_durations calls)) in
  (Exists p_invalid calls \/ last_set p_fitnesses calls = None \/ last_set p_dims calls = None ->
     bitstring_builder calls = Panic /\ realvalued_builder true calls = Panic) /\
  (Forall (fun c => ~ p_invalid c) calls -> forall f dim, last_set p_fitnesses calls = Some f -> last_set p_dims calls = Some dim ->
     bitstring_builder calls = Ok (inl (GAConfig params f (FlipBitNew f_0_05) SinglePointNew (TournamentNew f_0_2 size) BothParentsNew (BitStringsNew dim) StdoutProbeNew)) /\
     forall debug, realvalued_builder debug calls = Ok (inl (GAConfig params f (InterchangeNew f_0_05) SinglePointNew (TournamentNew f_0_2 size) BothParentsNew (RandomPointsNew dim) StdoutProbeNew))).
Proof.
  cbn zeta.
  pose proof (preset_spec true (FlipBitNew f_0_05) BitStringsNew calls) as (B1 & B2 & B3).
  pose proof (preset_spec true (InterchangeNew f_0_05) RandomPointsNew calls) as (R1 & R2 & R3).
  pose proof (preset_spec false (InterchangeNew f_0_05) RandomPointsNew calls) as (_ & _ & R4).
  split.
  - intros [H|H]; [apply p_bad_true_ex in H; split; [apply B1|apply R1]; exact H|split; [apply B2|apply R2]; exact H].
  - intros H f dim Hf Hd. split; [apply B3; [apply p_bad_true; exact H|exact Hf|exact Hd]|].
    intros []; [apply R3; [apply p_bad_true; exact H|exact Hf|exact Hd]|].
    apply R4; [|exact Hf|exact Hd]. eapply Forall_impl; [exact H|]. intros []; cbn; tauto.
Qed.
End Preset.
