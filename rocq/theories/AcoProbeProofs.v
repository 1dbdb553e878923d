(** * Proofs about the probes and the builder of the ant colony solver *)
From Verif Require Import AcoProbeModel AcoProbeSpec AcoSpec AcoPheromoneProofs AcoRunProofs BuilderSpec.
Open Scope nat_scope.

(** ** The run with a probe *)
Section Probed.
Context {Ph S T W : Type} (pr : probe (aco_event Ph) W) (c : aco Ph S T).
Lemma feed_app (w : W) l1 l2 : feed pr w (l1 ++ l2) = w1 ← feed pr w l1; feed pr w1 l2.
Proof. apply ofold_app. Qed.
Lemma probed_iterate_Ok p s w p' s' w' : probed_iterate pr c p s w = Ok (p', s', w') <->
  exists evs, aco_iterate c p s = Ok (evs, p', s') /\ feed pr w evs = Ok w'.
Proof.
  unfold probed_iterate, aco_iterate. destruct (colony c p s) as [[[paths p1] s1]| |]; cbn [mbind outcome_bind]; try (split; [discriminate|intros (? & ? & _); discriminate]).
  destruct (omapM from_path paths) as [ung| |]; cbn [mbind outcome_bind]; try (split; [discriminate|intros (? & ? & _); discriminate]).
  destruct (grader c ung s1) as [[sols s2]| |]; cbn [mbind outcome_bind]; try (split; [discriminate|intros (? & ? & _); discriminate]).
  destruct (find_best_sol sols) as [b| |]; cbn [mbind outcome_bind]; try (split; [discriminate|intros (? & ? & _); discriminate]).
  split.
  - intros H. apply obind_Ok in H as (w1 & H1 & H). apply obind_Ok in H as ([p2 s3] & H2 & H). apply obind_Ok in H as (w2 & H3 & H). injection H as <- <- <-.
    rewrite H2. cbn [mbind outcome_bind]. eexists. split; [reflexivity|]. cbn [feed ofold mbind outcome_bind]. unfold feed. cbn [ofold]. rewrite H1. cbn [mbind outcome_bind]. rewrite H3. reflexivity.
  - intros (evs & H & F). apply obind_Ok in H as ([p2 s3] & H2 & H). injection H as <- <- <-. unfold feed in F. cbn [ofold] in F.
    apply obind_Ok in F as (w1 & F1 & F). apply obind_Ok in F as (w2 & F2 & F). injection F as <-. rewrite F1. cbn [mbind outcome_bind]. rewrite H2. cbn [mbind outcome_bind]. rewrite F2. reflexivity.
Qed.
Lemma probed_loop_Ok fuel : forall p s t w p' s' w', probed_loop pr c fuel p s t w = Ok (p', s', w') <->
  exists evs, aco_loop c fuel p s t = Ok (evs, p', s') /\ feed pr w evs = Ok w'.
Proof.
  induction fuel as [|fuel IH]; intros p s t w p' s' w'; cbn [probed_loop aco_loop]; [split; [discriminate|intros (? & ? & _); discriminate]|].
  destruct (tc_check c t p) as [stop t1]. destruct stop.
  - split.
    + intros H. injection H as <- <- <-. eexists. split; [reflexivity|reflexivity].
    + intros (evs & H & F). injection H as <- <- <-. injection F as <-. reflexivity.
  - split.
    + intros H. apply obind_Ok in H as (w1 & H1 & H). apply obind_Ok in H as ([[p1 s1] w2] & H2 & H). apply obind_Ok in H as (w3 & H3 & H).
      apply probed_iterate_Ok in H2 as (evs & E1 & F1). apply IH in H as (evs' & E2 & F2). rewrite E1. cbn [mbind outcome_bind]. rewrite E2. cbn [mbind outcome_bind].
      eexists. split; [reflexivity|]. rewrite !feed_app. unfold feed at 2. cbn [ofold]. rewrite H1. cbn [mbind outcome_bind]. rewrite feed_app, F1. cbn [mbind outcome_bind].
      rewrite feed_app. unfold feed at 2. cbn [ofold]. rewrite H3. cbn [mbind outcome_bind]. exact F2.
    + intros (evs & H & F). apply obind_Ok in H as ([[evs1 p1] s1] & H1 & H). apply obind_Ok in H as ([[evs2 p2] s2] & H2 & H). injection H as <- <- <-.
      change (feed pr w ([AcoIterationStart] ++ evs1 ++ [AcoIterationEnd] ++ evs2) = Ok w') in F.
      rewrite feed_app in F. apply obind_Ok in F as (w1 & F1 & F). rewrite feed_app in F. apply obind_Ok in F as (w2 & F2 & F). rewrite feed_app in F. apply obind_Ok in F as (w3 & F3 & F).
      unfold feed in F1, F3. cbn [ofold] in F1, F3. apply obind_Ok in F1 as (w1' & F1 & X). injection X as ->. apply obind_Ok in F3 as (w3' & F3 & X). injection X as ->.
      rewrite F1. cbn [mbind outcome_bind]. rewrite (proj2 (probed_iterate_Ok _ _ _ _ _ _)) by eauto. cbn [mbind outcome_bind]. rewrite F3. cbn [mbind outcome_bind]. apply IH. eauto.
Qed.
Lemma probed_run_Ok fuel p s t w p' s' w' : probed_run pr c fuel p s t w = Ok (p', s', w') <->
  exists evs, aco_run c fuel p s t = Ok (evs, p', s') /\ feed pr w evs = Ok w'.
Proof.
  unfold probed_run, aco_run. split.
  - intros H. apply obind_Ok in H as ([[p1 s1] w1] & H1 & H). apply obind_Ok in H as (w2 & H2 & H). injection H as <- <- <-.
    apply probed_loop_Ok in H1 as (evs & E & F). rewrite E. cbn [mbind outcome_bind]. eexists. split; [reflexivity|]. rewrite feed_app, F. unfold feed. cbn [mbind outcome_bind ofold]. rewrite H2. reflexivity.
  - intros (evs & H & F). apply obind_Ok in H as ([[evs1 p1] s1] & H1 & H). injection H as <- <- <-. rewrite feed_app in F. apply obind_Ok in F as (w1 & F1 & F).
    unfold feed in F. cbn [ofold] in F. apply obind_Ok in F as (w2 & F2 & F). injection F as <-. rewrite (proj2 (probed_loop_Ok _ _ _ _ _ _ _ _)) by eauto. cbn [mbind outcome_bind]. rewrite F2. reflexivity.
Qed.
End Probed.

(** ** Numbering *)
Lemma numbered_snoc {A} (l : list A) x : numbered (l ++ [x]) = numbered l ++ [(length l + 1, x)].
Proof.
  unfold numbered. rewrite app_length. cbn [length]. rewrite seq_app. rewrite zip_with_app by (rewrite seq_length; reflexivity). cbn [seq zip_with]. do 3 f_equal. lia.
Qed.
Lemma protocol_body {Ph} (l : list (solution * Ph)) x :
  concat (map (fun x => [AcoIterationStart; AcoCurrentBest x.1; AcoPheromoneUpdate x.2; AcoIterationEnd]) (l ++ [x])) =
  concat (map (fun x => [AcoIterationStart; AcoCurrentBest x.1; AcoPheromoneUpdate x.2; AcoIterationEnd]) l) ++
    [AcoIterationStart; AcoCurrentBest x.1; AcoPheromoneUpdate x.2; AcoIterationEnd].
Proof. rewrite map_app, concat_app. cbn [map concat]. rewrite app_nil_r. reflexivity. Qed.

(** ** CsvProbe *)
Lemma windows_rows path k : map (fun '(i, j) => EdgeRow i j k) (windows path) = edge_rows k path.
Proof.
  apply list_eq. intros i. unfold edge_rows. change (map ?f ?l) with (f <$> l). rewrite !list_lookup_fmap.
  destruct (decide (i < length path)) as [Hi|Hi].
  - destruct (windows path !! i) as [[a b]|] eqn:E; [|apply lookup_ge_None in E; rewrite windows_length in E; lia].
    apply windows_lookup in E as (a' & b' & X & Ha & Hb). injection X as <- <-. rewrite lookup_seq_lt by exact Hi. cbn [fmap option_fmap option_map].
    rewrite (nth_lookup_Some _ _ _ _ Ha), (nth_lookup_Some _ _ _ _ Hb). reflexivity.
  - rewrite (lookup_ge_None_2 (windows path)) by (rewrite windows_length; lia). rewrite lookup_seq_ge by lia. reflexivity.
Qed.
Lemma push_pheromone c m : csv_push_pheromone c m =
  Csv (csv_iteration c) (csv_best_sols c) (csv_pher c ++ cell_rows (csv_iteration c) m) (csv_best_sol c) (best_csv c) (pheromone_csv c).
Proof.
  assert (Inner : forall i js c, foldl (fun c j =>
      Csv (csv_iteration c) (csv_best_sols c) (csv_pher c ++ [CellRow i j (csv_iteration c) (entry m i j)]) (csv_best_sol c) (best_csv c) (pheromone_csv c)) c js =
      Csv (csv_iteration c) (csv_best_sols c) (csv_pher c ++ map (fun j => CellRow i j (csv_iteration c) (entry m i j)) js) (csv_best_sol c) (best_csv c) (pheromone_csv c)).
  { intros i js. induction js as [|j js IH]; intros [it bs ph b f1 f2]; cbn [foldl map]; [rewrite app_nil_r; reflexivity|]. rewrite IH. cbn. rewrite <- app_assoc. reflexivity. }
  unfold csv_push_pheromone, cell_rows. generalize (seq 0 (nrows m)) as is. intros is. revert c. induction is as [|i is IH]; intros [it bs ph b f1 f2]; cbn [foldl map concat]; [rewrite app_nil_r; reflexivity|].
  rewrite Inner, IH. cbn [csv_iteration csv_best_sols csv_pher csv_best_sol best_csv pheromone_csv]. rewrite <- app_assoc. reflexivity.
Qed.
Lemma push_best c : csv_push_best c =
  Csv (csv_iteration c) (csv_best_sols c ++ edge_rows (csv_iteration c) (sol_path (csv_best_sol c))) (csv_pher c) (csv_best_sol c) (best_csv c) (pheromone_csv c).
Proof.
  rewrite <- windows_rows. unfold csv_push_best. generalize (windows (sol_path (csv_best_sol c))) as es. intros es. revert c.
  induction es as [|[i j] es IH]; intros [it bs ph b f1 f2]; cbn [foldl map]; [rewrite app_nil_r; reflexivity|]. rewrite IH. cbn. rewrite <- app_assoc. reflexivity.
Qed.
Lemma csv_feed l : exists b, feed aco_csv csv_new (concat (map (fun x => [AcoIterationStart; AcoCurrentBest x.1; AcoPheromoneUpdate x.2; AcoIterationEnd]) l)) =
  Ok (Csv (length l) (best_rows l) (pheromone_rows l) b None None).
Proof.
  induction l as [|[b q] l [b0 IH]] using rev_ind; [exists sol_default; reflexivity|]. exists b. rewrite protocol_body, feed_app, IH. cbn [mbind outcome_bind].
  unfold feed. cbn [ofold aco_csv mbind outcome_bind]. rewrite push_pheromone, push_best. cbn [csv_iteration csv_best_sols csv_pher csv_best_sol best_csv pheromone_csv fst snd].
  unfold best_rows, pheromone_rows. rewrite numbered_snoc, !map_app, !concat_app, app_length. cbn [map concat length]. rewrite !app_nil_r. reflexivity.
Qed.
Lemma csv_protocol l : exists w, feed aco_csv csv_new (protocol l) = Ok w /\ best_csv w = Some (best_rows l) /\ pheromone_csv w = Some (pheromone_rows l).
Proof. destruct (csv_feed l) as [b E]. unfold protocol. rewrite feed_app, E. eexists. split; [reflexivity|]. split; reflexivity. Qed.
(** Only the last callback writes. *)
Lemma csv_no_file evs : AcoEnd ∉ evs -> forall c, exists w, feed aco_csv c evs = Ok w /\ best_csv w = best_csv c /\ pheromone_csv w = pheromone_csv c.
Proof.
  induction evs as [|e evs IH]; intros N c; [exists c; split; [reflexivity|auto]|]. apply not_elem_of_cons in N as [N1 N2]. unfold feed. cbn [ofold].
  destruct e; cbn [aco_csv mbind outcome_bind]; try congruence.
  - destruct (IH N2 (Csv (csv_iteration c + 1) (csv_best_sols c) (csv_pher c) (csv_best_sol c) (best_csv c) (pheromone_csv c))) as (w & E & A & B). eauto.
  - destruct (IH N2 (Csv (csv_iteration c) (csv_best_sols c) (csv_pher c) s (best_csv c) (pheromone_csv c))) as (w & E & A & B). eauto.
  - rewrite push_pheromone. destruct (IH N2 (Csv (csv_iteration c) (csv_best_sols c) (csv_pher c ++ cell_rows (csv_iteration c) p) (csv_best_sol c) (best_csv c) (pheromone_csv c))) as (w & E & A & B). eauto.
  - rewrite push_best. destruct (IH N2 (Csv (csv_iteration c) (csv_best_sols c ++ edge_rows (csv_iteration c) (sol_path (csv_best_sol c))) (csv_pher c) (csv_best_sol c) (best_csv c) (pheromone_csv c))) as (w & E & A & B). eauto.
Qed.
Lemma prefix_no_end {Ph} (l : list (solution * Ph)) evs rest : protocol l = evs ++ rest -> rest <> [] -> AcoEnd ∉ evs.
Proof.
  intros E N H. destruct rest as [|e rest] using rev_ind; [congruence|]. clear IHrest N. unfold protocol in E. rewrite app_assoc in E. apply app_inj_tail in E as [E _].
  assert (X : AcoEnd ∈ evs ++ rest) by (apply elem_of_app; auto). rewrite <- E in X. clear -X. induction l as [|x l IH]; cbn in X; [inversion X|].
  repeat (apply elem_of_cons in X as [X|X]; [discriminate|]). auto.
Qed.

(** ** JsonProbe *)
Lemma into_vec_rows m : into_vec m = matrix_rows m.
Proof.
  unfold into_vec, matrix_rows. assert (X : forall is acc, foldl (fun v i => v ++ [map (fun j => entry m i j) (seq 0 (ncols m))]) acc is = acc ++ map (fun i => map (entry m i) (seq 0 (ncols m))) is).
  { induction is as [|i is IH]; intros acc; cbn [foldl map]; [rewrite app_nil_r; reflexivity|]. rewrite IH, <- app_assoc. reflexivity. }
  apply (X _ []).
Qed.
Lemma set_last_snoc {A} (f : A -> A) l x : set_last f (l ++ [x]) = Ok (l ++ [f x]).
Proof. unfold set_last. rewrite stdpp.list.last_snoc. cbn [unwrap mbind outcome_bind]. rewrite app_length. cbn [length]. rewrite take_app_alt by lia. reflexivity. Qed.
Lemma json_feed l : feed aco_json json_new (concat (map (fun x => [AcoIterationStart; AcoCurrentBest x.1; AcoPheromoneUpdate x.2; AcoIterationEnd]) l)) =
  Ok (Json (map (fun x => IterData x.2 x.1) l) None).
Proof.
  induction l as [|[b q] l IH] using rev_ind; [reflexivity|]. rewrite protocol_body, feed_app, IH. cbn [mbind outcome_bind].
  unfold feed. cbn [ofold aco_json mbind outcome_bind js_iterations js_file fst snd]. rewrite !set_last_snoc. cbn [mbind outcome_bind js_iterations js_file it_best it_pheromone].
  rewrite set_last_snoc. cbn [mbind outcome_bind it_best]. rewrite map_app. reflexivity.
Qed.
Lemma json_protocol l : exists w, feed aco_json json_new (protocol l) = Ok w /\ js_file w = Some (map (fun x => (matrix_rows x.2, x.1)) l).
Proof.
  unfold protocol. rewrite feed_app, json_feed. eexists. split; [reflexivity|]. cbn [js_file js_iterations]. rewrite map_map. f_equal. apply map_ext. intros [b q]. unfold serialize_iteration. cbn [it_pheromone it_best fst snd]. rewrite into_vec_rows. reflexivity.
Qed.
Lemma json_no_file evs : AcoEnd ∉ evs -> forall s w, feed aco_json s evs = Ok w -> js_file w = js_file s.
Proof.
  induction evs as [|e evs IH]; intros N s w H; [injection H as <-; reflexivity|]. apply not_elem_of_cons in N as [N1 N2]. unfold feed in H. cbn [ofold] in H.
  apply obind_Ok in H as (s1 & H1 & H). rewrite (IH N2 _ _ H). destruct e; cbn [aco_json] in H1.
  - injection H1 as <-. reflexivity.
  - apply obind_Ok in H1 as (? & _ & X). injection X as <-. reflexivity.
  - apply obind_Ok in H1 as (? & _ & X). injection X as <-. reflexivity.
  - injection H1 as <-. reflexivity.
  - congruence.
Qed.
Lemma json_too_early f e : (exists b, e = AcoCurrentBest b) \/ (exists m, e = AcoPheromoneUpdate m) -> aco_json (Json [] f) e = Panic.
Proof. intros [[b ->]|[m ->]]; reflexivity. Qed.

(** ** StdoutProbe *)
Lemma stdout_feed {Ph} (l : list (solution * Ph)) :
  feed aco_stdout stdout_new (concat (map (fun x => [AcoIterationStart; AcoCurrentBest x.1; AcoPheromoneUpdate x.2; AcoIterationEnd]) l)) = Ok (length l, iteration_lines l).
Proof.
  induction l as [|[b q] l IH] using rev_ind; [reflexivity|]. rewrite protocol_body, feed_app, IH. cbn [mbind outcome_bind].
  unfold feed. cbn [ofold aco_stdout mbind outcome_bind fst snd]. unfold iteration_lines. rewrite numbered_snoc, map_app, concat_app, app_length. cbn [map concat length]. rewrite app_nil_r, <- !app_assoc. reflexivity.
Qed.
Lemma stdout_protocol {Ph} (l : list (solution * Ph)) : feed aco_stdout stdout_new (protocol l) = Ok (length l, iteration_lines l ++ [LEnd]).
Proof. unfold protocol. rewrite feed_app, stdout_feed. reflexivity. Qed.

(** ** Builder *)
Section Builder.
Context {P C G T Pr Ph A : Type}.
Notation builder := (aco_builder P C G T Pr Ph A).
Lemma last_set_cons {X Y} (what : X -> option Y) c calls : last_set what (c :: calls) = match last_set what calls with Some y => Some y | None => what c end.
Proof.
  unfold last_set. cbn [omap list_omap]. destruct (what c) as [y|].
  - rewrite last_cons. destruct (last (omap what calls)); reflexivity.
  - destruct (last (omap what calls)); reflexivity.
Qed.
Definition or_set {X} (o d : option X) : option X := match o with Some x => Some x | None => d end.
Lemma sets_spec calls : forall b : builder,
  let b' := foldl aco_set b calls in
  ab_update b' = or_set (last_set sets_update calls) (ab_update b) /\ ab_grader b' = or_set (last_set sets_grader calls) (ab_grader b) /\
  ab_colony b' = or_set (last_set sets_colony calls) (ab_colony b) /\ ab_termination b' = or_set (last_set sets_termination calls) (ab_termination b) /\
  ab_start b' = or_set (last_set sets_start calls) (ab_start b) /\ ab_probe b' = or_set (last_set sets_probe calls) (ab_probe b) /\ ab_args b' = ab_args b.
Proof.
  induction calls as [|c calls IH]; intros b; [repeat split|]. cbn [foldl]. destruct (IH (aco_set b c)) as (H1 & H2 & H3 & H4 & H5 & H6 & H7). cbv zeta.
  rewrite H1, H2, H3, H4, H5, H6, H7, !last_set_cons.
  destruct c; cbn; repeat split;
    repeat match goal with |- or_set (last_set ?w calls) _ = _ => destruct (last_set w calls) end; reflexivity.
Qed.
Lemma build_args_Ok (b : builder) s : aco_build_args b = Ok s <->
  ab_colony b = Some (built_colony s) /\ ab_start b = Some (built_pheromone s) /\ ab_update b = Some (built_update s) /\ ab_grader b = Some (built_grader s) /\
  ab_termination b = Some (built_termination s) /\ ab_probe b = Some (built_probe s) /\ ab_args b = Some (built_args s).
Proof.
  destruct b as [u g c t st pr a], s as [c' st' u' g' t' pr' a']. unfold aco_build_args. cbn.
  destruct c, st, u, g, t, pr, a; cbn; split; intros H; try discriminate; try (injection H as <- <- <- <- <- <- <-; repeat split; reflexivity);
    destruct H as (E1 & E2 & E3 & E4 & E5 & E6 & E7); congruence.
Qed.
Lemma build_args_total (b : builder) : aco_build_args b = Panic \/ exists s, aco_build_args b = Ok s.
Proof. destruct b as [u g c t st pr a]. unfold aco_build_args. cbn. destruct c, st, u, g, t, pr, a; cbn; eauto. Qed.
End Builder.
Lemma build_Ok {P C G T Pr Ph} (b : aco_builder P C G T Pr Ph ()) s : aco_build b = Ok s <->
  ab_colony b = Some (built_colony s) /\ ab_start b = Some (built_pheromone s) /\ ab_update b = Some (built_update s) /\ ab_grader b = Some (built_grader s) /\
  ab_termination b = Some (built_termination s) /\ ab_probe b = Some (built_probe s).
Proof.
  destruct b as [u g c t st pr a], s as [c' st' u' g' t' pr' []]. unfold aco_build. cbn.
  destruct c, st, u, g, t, pr; cbn; split; intros H; try discriminate; try (injection H as <- <- <- <- <- <-; repeat split; reflexivity);
    destruct H as (E1 & E2 & E3 & E4 & E5 & E6); congruence.
Qed.
Lemma build_total {P C G T Pr Ph} (b : aco_builder P C G T Pr Ph ()) : aco_build b = Panic \/ exists s, aco_build b = Ok s.
Proof. destruct b as [u g c t st pr a]. unfold aco_build. cbn. destruct c, st, u, g, t, pr; cbn; eauto. Qed.
