(** * Property theorems: what the probes of the ant colony solver record, and its builder (C92, C93) *)
From Verif Require Import AcoProbeProofs AcoRunProofs BuilderSpec AcoProbeSpec AcoSpec AcoProbeModel PropsAcoRun.
Open Scope nat_scope.

(** ** C92 *)
(** Probes only watch: a run with any probe ends in the pheromone and state of the run without one, and the probe has
    received exactly the callbacks of that run, in order. *)
Theorem C92_probes_only_watch :
  forall Ph S T W (pr : probe (aco_event Ph) W) (c : aco Ph S T) fuel p s t w p' s' w',
  probed_run pr c fuel p s t w = Ok (p', s', w') <->
  exists evs, aco_run c fuel p s t = Ok (evs, p', s') /\ feed pr w evs = Ok w'.
Proof. intros Ph S T W pr c. exact (probed_run_Ok pr c). Qed.
Print Assumptions C92_probes_only_watch.
(** CsvProbe: the two files of a finished run. *)
Theorem C92_csv_files :
  forall S T (c : aco matrix S T) fuel p s t p' s' w,
  probed_run aco_csv c fuel p s t csv_new = Ok (p', s', w) ->
  exists l, iterations c p s l p' s' /\ stops_after c (tc_init c t) p l /\
    best_csv w = Some (best_rows l) /\ pheromone_csv w = Some (pheromone_rows l).
Proof.
  intros S T c fuel p s t p' s' w H. apply probed_run_Ok in H as (evs & H & F). apply run_Ok in H as (l & -> & Hi & Hs).
  destruct (csv_protocol l) as (w' & E & A & B). rewrite E in F. injection F as <-. exists l. auto.
Qed.
Print Assumptions C92_csv_files.
(** JsonProbe: one record per iteration, the pheromone after it and its best solution. *)
Theorem C92_json_file :
  forall S T (c : aco matrix S T) fuel p s t p' s' w,
  probed_run aco_json c fuel p s t json_new = Ok (p', s', w) ->
  exists l, iterations c p s l p' s' /\ stops_after c (tc_init c t) p l /\
    js_file w = Some (map (fun '(b, q) => (matrix_rows q, b)) l).
Proof.
  intros S T c fuel p s t p' s' w H. apply probed_run_Ok in H as (evs & H & F). apply run_Ok in H as (l & -> & Hi & Hs).
  destruct (json_protocol l) as (w' & E & A). rewrite E in F. injection F as <-. exists l. split; [exact Hi|]. split; [exact Hs|].
  rewrite A. f_equal. apply map_ext. intros [b q]. reflexivity.
Qed.
Print Assumptions C92_json_file.
(** StdoutProbe: what a finished run has printed. *)
Theorem C92_printed_lines :
  forall Ph S T (c : aco Ph S T) fuel p s t p' s' k out,
  probed_run aco_stdout c fuel p s t stdout_new = Ok (p', s', (k, out)) ->
  exists l, iterations c p s l p' s' /\ stops_after c (tc_init c t) p l /\ out = iteration_lines l ++ [LEnd].
Proof.
  intros Ph S T c fuel p s t p' s' k out H. apply probed_run_Ok in H as (evs & H & F). apply run_Ok in H as (l & -> & Hi & Hs).
  rewrite stdout_protocol in F. injection F as <- <-. exists l. auto.
Qed.
Print Assumptions C92_printed_lines.
(** The three probes never make a run fail. *)
Theorem C92_probes_never_fail :
  forall S T (c : aco matrix S T) fuel p s t evs p' s', aco_run c fuel p s t = Ok (evs, p', s') ->
  (exists w, probed_run aco_csv c fuel p s t csv_new = Ok (p', s', w)) /\
  (exists w, probed_run aco_json c fuel p s t json_new = Ok (p', s', w)) /\
  (exists w, probed_run aco_stdout c fuel p s t stdout_new = Ok (p', s', w)).
Proof.
  intros S T c fuel p s t evs p' s' H. pose proof (run_Ok c _ _ _ _ _ _ _ H) as (l & -> & _).
  split; [|split].
  - destruct (csv_protocol l) as (w & E & _). exists w. apply probed_run_Ok. eauto.
  - destruct (json_protocol l) as (w & E & _). exists w. apply probed_run_Ok. eauto.
  - eexists. apply probed_run_Ok. eexists. split; [exact H|apply stdout_protocol].
Qed.
Print Assumptions C92_probes_never_fail.
(** Crash points: a run which stops anywhere before its last callback leaves no file behind ([evs]: the callbacks made
    until then). *)
Theorem C92_nothing_written_before_the_end :
  forall (l : list (solution * matrix)) evs rest, protocol l = evs ++ rest -> rest <> [] ->
  (exists w, feed aco_csv csv_new evs = Ok w /\ best_csv w = None /\ pheromone_csv w = None) /\
  (exists w, feed aco_json json_new evs = Ok w /\ js_file w = None).
Proof.
  intros l evs rest E N. pose proof (prefix_no_end l evs rest E N) as X. split.
  - destruct (csv_no_file evs X csv_new) as (w & A & B & C). eauto.
  - destruct (json_protocol l) as (w & J & _). rewrite E, feed_app in J. apply obind_Ok in J as (w1 & J & _). exists w1. split; [exact J|]. exact (json_no_file evs X _ _ J).
Qed.
Print Assumptions C92_nothing_written_before_the_end.
(** JsonProbe used outside a run: a best solution or a pheromone before any iteration start panics. *)
Theorem C92_json_out_of_order_panics :
  forall e, (exists b, e = AcoCurrentBest b) \/ (exists m, e = AcoPheromoneUpdate m) -> aco_json json_new e = Panic.
Proof. exact (json_too_early None). Qed.
Print Assumptions C92_json_out_of_order_panics.
Example C92_nonvacuous :
  match probed_run aco_csv solver 3 (ones 4) (two_ants, sol_default) (7, 2) csv_new with
  | Ok (_, _, w) => option_map (take 5) (best_csv w) = Some [EdgeRow 2 1 1; EdgeRow 1 0 1; EdgeRow 0 3 1; EdgeRow 3 2 1; EdgeRow 0 2 2] /\
                    option_map length (pheromone_csv w) = Some 32
  | _ => False
  end.
Proof. vm_compute. split; reflexivity. Qed.

(** ** C93 *)
(** Building succeeds exactly when all six parts have been set; each part of the solver is the one set last, and without
    additional arguments the solver has the unit value. *)
Theorem C93_build :
  forall P C G T Pr Ph (calls : list (aco_call P C G T Pr Ph)) s,
  aco_build (foldl aco_set aco_builder_new calls) = Ok s <->
  last_set sets_colony calls = Some (built_colony s) /\ last_set sets_start calls = Some (built_pheromone s) /\
  last_set sets_update calls = Some (built_update s) /\ last_set sets_grader calls = Some (built_grader s) /\
  last_set sets_termination calls = Some (built_termination s) /\ last_set sets_probe calls = Some (built_probe s).
Proof.
  intros P C G T Pr Ph calls s. rewrite build_Ok. destruct (sets_spec calls (aco_builder_new (A := ()))) as (H1 & H2 & H3 & H4 & H5 & H6 & _).
  rewrite H1, H2, H3, H4, H5, H6. cbn [aco_builder_new ab_update ab_grader ab_colony ab_termination ab_start ab_probe].
  assert (X : forall X (o : option X), or_set o None = o) by (intros ? []; reflexivity). rewrite !X. reflexivity.
Qed.
Print Assumptions C93_build.
(** ... and panics otherwise. *)
Theorem C93_build_panics :
  forall P C G T Pr Ph (calls : list (aco_call P C G T Pr Ph)),
  aco_build (foldl aco_set aco_builder_new calls) = Panic <->
  last_set sets_colony calls = None \/ last_set sets_start calls = None \/ last_set sets_update calls = None \/
  last_set sets_grader calls = None \/ last_set sets_termination calls = None \/ last_set sets_probe calls = None.
Proof.
  intros P C G T Pr Ph calls. destruct (build_total (foldl aco_set aco_builder_new calls)) as [E|[s E]].
  - split; [|auto]. intros _.
    destruct (last_set sets_colony calls) as [c|] eqn:E1; [|auto]. destruct (last_set sets_start calls) as [st|] eqn:E2; [|auto].
    destruct (last_set sets_update calls) as [u|] eqn:E3; [|auto]. destruct (last_set sets_grader calls) as [g|] eqn:E4; [|tauto].
    destruct (last_set sets_termination calls) as [t|] eqn:E5; [|tauto]. destruct (last_set sets_probe calls) as [pr|] eqn:E6; [|tauto].
    exfalso. pose proof (proj2 (C93_build _ _ _ _ _ _ calls (ASolver c st u g t pr tt)) (conj E1 (conj E2 (conj E3 (conj E4 (conj E5 E6)))))) as X. congruence.
  - split; [rewrite E; discriminate|]. apply C93_build in E as (E1 & E2 & E3 & E4 & E5 & E6).
    rewrite E1, E2, E3, E4, E5, E6. intros H. repeat (destruct H as [H|H]; try discriminate).
Qed.
Print Assumptions C93_build_panics.
(** With additional arguments, which can be given once and at any moment. *)
Theorem C93_build_with_args :
  forall P C G T Pr Ph A (before after : list (aco_call P C G T Pr Ph)) (a : A) s,
  let calls := before ++ after in
  aco_build_args (foldl aco_set (aco_set_args (foldl aco_set aco_builder_new before) a) after) = Ok s <->
  last_set sets_colony calls = Some (built_colony s) /\ last_set sets_start calls = Some (built_pheromone s) /\
  last_set sets_update calls = Some (built_update s) /\ last_set sets_grader calls = Some (built_grader s) /\
  last_set sets_termination calls = Some (built_termination s) /\ last_set sets_probe calls = Some (built_probe s) /\ a = built_args s.
Proof.
  intros P C G T Pr Ph A before after a s calls. rewrite build_args_Ok.
  destruct (sets_spec after (aco_set_args (foldl aco_set aco_builder_new before) a)) as (H1 & H2 & H3 & H4 & H5 & H6 & H7).
  destruct (sets_spec before (aco_builder_new (A := A))) as (B1 & B2 & B3 & B4 & B5 & B6 & _).
  rewrite H1, H2, H3, H4, H5, H6, H7. cbn [aco_set_args ab_update ab_grader ab_colony ab_termination ab_start ab_probe ab_args].
  rewrite B1, B2, B3, B4, B5, B6. cbn [aco_builder_new ab_update ab_grader ab_colony ab_termination ab_start ab_probe ab_args].
  assert (X : forall X (what : aco_call P C G T Pr Ph -> option X), or_set (last_set what after) (or_set (last_set what before) None) = last_set what calls).
  { intros X what. unfold calls. clear. induction before as [|c before IH].
    - cbn [app]. destruct (last_set what after); reflexivity.
    - cbn [app]. rewrite !last_set_cons, <- IH. destruct (last_set what after); [reflexivity|]. cbn [or_set]. destruct (last_set what before); cbn [or_set]; [reflexivity|]. destruct (what c); reflexivity. }
  rewrite !X. assert (Y : Some a = Some (built_args s) <-> a = built_args s) by (split; congruence). rewrite Y. reflexivity.
Qed.
Print Assumptions C93_build_with_args.
(** A solver built with an iteration limit k (set last) performs exactly k iterations: the three parts the limit comes with
    are arbitrary, and so is the probe. *)
Theorem C93_iteration_limit :
  forall P C G Pr Ph S W (calls after : list (aco_call P C G (nat * nat) Pr Ph)) k b
         (run_colony : C -> Ph -> S -> outcome (list (list nat) * Ph * S)) (run_grader : G -> list solution -> S -> outcome (list solution * S))
         (run_update : P -> Ph -> list solution -> S -> outcome (Ph * S)) (pr : probe (aco_event Ph) W) fuel s w p' s' w',
  last_set sets_termination after = None ->
  aco_build (foldl aco_set aco_builder_new (calls ++ [aco_with_iterations k] ++ after)) = Ok b ->
  let c := Aco Ph S (nat * nat) (run_colony (built_colony b)) (run_grader (built_grader b)) (run_update (built_update b)) ic_init ic_check in
  probed_run pr c fuel (built_pheromone b) s (built_termination b) w = Ok (p', s', w') ->
  exists l, length l = k /\ iterations c (built_pheromone b) s l p' s' /\ feed pr w (protocol l) = Ok w'.
Proof.
  intros P C G Pr Ph S W calls after k b rc rg ru pr fuel s w p' s' w' Ha Hb c H. apply C93_build in Hb as (_ & _ & _ & _ & Ht & _).
  assert (Et : built_termination b = (0, k)).
  { assert (X : last_set sets_termination (calls ++ [aco_with_iterations k] ++ after) = Some (0, k)).
    { clear -Ha. induction calls as [|x calls IH]; cbn [app]; rewrite last_set_cons; [rewrite Ha; reflexivity|]. cbn [app] in IH. rewrite IH. reflexivity. }
    congruence. }
  rewrite Et in H. apply probed_run_Ok in H as (evs & H & F). destruct (C40_iteration_limit _ _ _ _ _ _ _ _ _ _ _ _ _ H) as (l & L & -> & I). eauto.
Qed.
Print Assumptions C93_iteration_limit.
(** A solver built with the standard output probe (set last) prints the lines of its iterations, numbered from 1. *)
Theorem C93_stdout_probe :
  forall P C G T Ph S (calls after : list (aco_call P C G T (nat * list aco_line) Ph)) b (c : aco Ph S T) fuel p s t p' s' k out,
  last_set sets_probe after = None -> aco_build (foldl aco_set aco_builder_new (calls ++ [aco_with_stdout] ++ after)) = Ok b ->
  probed_run aco_stdout c fuel p s t (built_probe b) = Ok (p', s', (k, out)) ->
  exists l, iterations c p s l p' s' /\ out = iteration_lines l ++ [LEnd].
Proof.
  intros P C G T Ph S calls after b c fuel p s t p' s' k out Ha Hb H. apply C93_build in Hb as (_ & _ & _ & _ & _ & Hp).
  assert (X : last_set sets_probe (calls ++ [aco_with_stdout] ++ after) = Some (0, [])).
  { clear -Ha. induction calls as [|x calls IH]; cbn [app]; rewrite last_set_cons; [rewrite Ha; reflexivity|]. cbn [app] in IH. rewrite IH. reflexivity. }
  assert (E : built_probe b = stdout_new) by (rewrite X in Hp; injection Hp as <-; reflexivity).
  rewrite E in H. destruct (C92_printed_lines _ _ _ _ _ _ _ _ _ _ _ _ H) as (l & I & _ & O). exists l. split; [exact I|exact O].
Qed.
Print Assumptions C93_stdout_probe.
Example C93_nonvacuous :
  let calls := [ASetColony 1; ASetStart (ones 4); ASetUpdate 2; ASetGrader 3; aco_with_iterations 9; aco_with_stdout; ASetColony 5; aco_with_iterations 2] in
  aco_build (foldl aco_set aco_builder_new calls) = Ok (ASolver 5 (ones 4) 2 3 (0, 2) stdout_new tt) /\
  aco_build (foldl aco_set aco_builder_new (tail (take 6 calls))) = Panic.
Proof. vm_compute. split; reflexivity. Qed.
