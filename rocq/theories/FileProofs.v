(** * Lemmas on result files *)
From Verif Require Import FileModel FileSpec AcoSpec AcoProbeSpec PsoSpec FfSpec AcoProbeProofs.
From stdpp Require Import strings.
Open Scope nat_scope.

Lemma put_at p c k : put p c k p = Some c. Proof. unfold put. rewrite String.eqb_refl. reflexivity. Qed.
Lemma put_other p c k : others_kept p k (put p c k). Proof. intros q H. unfold put. apply String.eqb_neq in H. rewrite H. reflexivity. Qed.
Lemma put_two p c c' k : others_kept p k (put p c' (put p c k)). Proof. intros q H. rewrite !put_other by exact H. reflexivity. Qed.

Lemma csv_refused d p lines k : opens d p = false -> csv_write d p lines k = (k, NotOpened).
Proof. intros H. unfold csv_write. rewrite H. reflexivity. Qed.
Lemma csv_fine d p lines k : fine d p lines -> exists k', csv_write d p lines k = (k', Saved) /\ k' p = Some (Lines lines) /\ others_kept p k k'.
Proof.
  intros [H G]. unfold csv_write. rewrite H. destruct lines as [|l ls].
  - eexists. split; [reflexivity|]. split; [apply put_at|apply put_other].
  - destruct G as [G|G]; [discriminate|]. rewrite G. eexists. split; [reflexivity|]. split; [apply put_at|apply put_two].
Qed.
Lemma csv_bad d p lines k : opens d p = true -> ~ fine d p lines -> exists k', csv_write d p lines k = (k', NotWritten) /\ k' p = Some Damaged /\ others_kept p k k'.
Proof.
  intros H N. unfold csv_write. rewrite H. destruct lines as [|l ls]; [exfalso; apply N; split; auto|].
  destruct (stores d p) eqn:G; [exfalso; apply N; split; auto|]. eexists. split; [reflexivity|]. split; [apply put_at|apply put_two].
Qed.
Lemma fine_dec d p lines : fine d p lines \/ ~ fine d p lines.
Proof.
  unfold fine. destruct (opens d p); [|right; intros [? _]; discriminate]. destruct lines; [auto|]. destruct (stores d p); [auto|]. right. intros [_ [?|?]]; discriminate.
Qed.
(** The pattern common to the probes that only complain when a write fails *)
Lemma csv_case d p lines k : lines <> [] -> exists k' s, csv_write d p lines k = (k', s) /\
  (opens d p = false -> is_opened s = false /\ k' = k) /\
  (opens d p = true -> is_opened s = true /\ others_kept p k k' /\ k' p = Some (if stores d p then Lines lines else Damaged)).
Proof.
  intros N. destruct (opens d p) eqn:O.
  - destruct (stores d p) eqn:S.
    + destruct (csv_fine d p lines k) as (k' & E & F & K); [split; auto|]. exists k', Saved. split; [exact E|]. split; [discriminate|]. auto.
    + destruct (csv_bad d p lines k O) as (k' & E & F & K); [intros [_ [?|?]]; congruence|]. exists k', NotWritten. split; [exact E|]. split; [discriminate|]. auto.
  - exists k, NotOpened. split; [apply csv_refused, O|]. split; [auto|discriminate].
Qed.
Lemma json_case d p j k : exists k' s, json_write d p j k = (k', s) /\
  (opens d p = false -> is_opened s = false /\ k' = k) /\
  (opens d p = true -> is_opened s = true /\ others_kept p k k' /\ k' p = Some (if stores d p then JsonText j else Damaged)).
Proof.
  unfold json_write. destruct (opens d p); [destruct (stores d p)|]; (eexists _, _; split; [reflexivity|]); (split; [first [discriminate|auto]|]); [| |discriminate];
  intros _; (split; [reflexivity|]); (split; [apply put_other|apply put_at]).
Qed.

Lemma feed_parts {E W} (p : probe E W) l1 l2 : forall w, feed p w (l1 ++ l2) = w1 ← feed p w l1; feed p w1 l2.
Proof. induction l1 as [|e l1 IH]; intros w; [reflexivity|]. cbn [app]. change (feed p w (e :: l1 ++ l2)) with (w1 ← p w e; feed p w1 (l1 ++ l2)). change (feed p w (e :: l1)) with (w1 ← p w e; feed p w1 l1). destruct (p w e); [apply IH|reflexivity|reflexivity]. Qed.
Lemma watch_open {E W} (en : E -> bool) (p : probe E W) f w k evs : Forall (fun e => en e = false) evs -> forall w1, feed p w evs = Ok w1 -> watch (on_disk en p f) (w, k) evs = ((w1, k), true).
Proof.
  intros H. revert w. induction H as [|e evs He H IH]; intros w w1 F; [injection F as <-; reflexivity|].
  change (feed p w (e :: evs)) with (w2 ← p w e; feed p w2 evs) in F. apply obind_Ok in F as (w2 & E1 & F). cbn [watch on_disk]. rewrite E1, He. apply IH, F.
Qed.
Lemma watch_app {E W} (p : step E W) l1 l2 : forall w, watch p w (l1 ++ l2) = let '(w1, ok) := watch p w l1 in if ok : bool then watch p w1 l2 else (w1, false).
Proof. induction l1 as [|e l1 IH]; intros w; [reflexivity|]. cbn [app watch]. destruct (p w e) as [w1 [|]]; [apply IH|reflexivity]. Qed.
Lemma watch_end {E W} (en : E -> bool) (p : probe E W) f w k evs e w1 w2 : Forall (fun e => en e = false) evs -> en e = true -> feed p w evs = Ok w1 -> p w1 e = Ok w2 ->
  watch (on_disk en p f) (w, k) (evs ++ [e]) = let '(k', ok) := f w2 k in ((w2, k'), ok).
Proof.
  intros H He F G. rewrite watch_app, (watch_open _ _ _ _ _ _ H _ F). cbn [watch on_disk]. rewrite G, He. destruct (f w2 k) as [k' [|]]; reflexivity.
Qed.

(** ** Particle swarm *)
Lemma json_shown x : json_f64 x = shown x.
Proof. unfold shown. destruct x as [[|]|[|]| |[|] m e]; reflexivity. Qed.
Lemma map_shown l : map json_f64 l = map shown l. Proof. apply map_ext, json_shown. Qed.
Lemma pso_csv_seen evs : Forall (fun e => pso_ends e = false) evs -> forall rs f, feed pso_csv_probe (PsoCsv rs f) evs = Ok (PsoCsv (rs ++ map (fun '(n, s) => (n, gbest_value s)) (concat (map seen evs))) f).
Proof.
  intros H. induction H as [|e evs He H IH]; intros rs f; [rewrite app_nil_r; reflexivity|].
  change (feed pso_csv_probe (PsoCsv rs f) (e :: evs)) with (w ← pso_csv_probe (PsoCsv rs f) e; feed pso_csv_probe w evs).
  destruct e as [s|s n|s n]; [| |discriminate].
  - etransitivity; [exact (IH (rs ++ [(0, gbest_value s)]) f)|]. rewrite <- app_assoc. reflexivity.
  - etransitivity; [exact (IH (rs ++ [(n, gbest_value s)]) f)|]. rewrite <- app_assoc. reflexivity.
Qed.
Lemma pso_json_seen evs : Forall (fun e => pso_ends e = false) evs -> forall rs f, feed pso_json_probe (PsoLog rs f) evs = Ok (PsoLog (rs ++ map (fun '(n, s) => (n, gbest_value s, gbest s)) (concat (map seen evs))) f).
Proof.
  intros H. induction H as [|e evs He H IH]; intros rs f; [rewrite app_nil_r; reflexivity|].
  change (feed pso_json_probe (PsoLog rs f) (e :: evs)) with (w ← pso_json_probe (PsoLog rs f) e; feed pso_json_probe w evs).
  destruct e as [s|s n|s n]; [| |discriminate].
  - etransitivity; [exact (IH (rs ++ [(0, gbest_value s, gbest s)]) f)|]. rewrite <- app_assoc. reflexivity.
  - etransitivity; [exact (IH (rs ++ [(n, gbest_value s, gbest s)]) f)|]. rewrite <- app_assoc. reflexivity.
Qed.
Section Pso.
Variable (d : device) (p : string) (k : disk) (s0 s : swarm) (n : nat) (evs : list pso_event).
Hypothesis (H : Forall (fun e => pso_ends e = false) evs).
Let gens := (0, s0) :: concat (map seen evs).
Lemma pso_csv_watch : exists c k' ok, watch (pso_csv_disk d p) (PsoCsv [] None, k) (PsoBegin s0 :: evs ++ [PsoEnd s n]) = ((c, k'), ok) /\
  (opens d p = false -> ok = false /\ k' = k) /\
  (opens d p = true -> ok = true /\ others_kept p k k' /\ k' p = Some (if stores d p then Lines (pso_lines gens) else Damaged)).
Proof.
  assert (H' : Forall (fun e => pso_ends e = false) (PsoBegin s0 :: evs)) by (constructor; [reflexivity|exact H]).
  pose proof (pso_csv_seen _ H' [] None) as F. change (PsoBegin s0 :: evs ++ [PsoEnd s n]) with ((PsoBegin s0 :: evs) ++ [PsoEnd s n]).
  unfold pso_csv_disk. erewrite watch_end; [|exact H'|reflexivity|exact F|reflexivity]. unfold pso_csv_save. cbn [csv_records app].
  change (concat (map seen (PsoBegin s0 :: evs))) with gens.
  assert (L : with_header ["generation"; "best_value"]%string (map pso_csv_row (map (fun '(n, s) => (n, gbest_value s)) gens)) = pso_lines gens).
  { unfold pso_lines. rewrite map_map. unfold gens. cbn [map with_header]. f_equal. f_equal. apply map_ext. intros [? ?]. reflexivity. }
  rewrite L. destruct (csv_case d p (pso_lines gens) k ltac:(discriminate)) as (k' & r & E & A & B). rewrite E. eexists _, k', _. split; [reflexivity|]. auto.
Qed.
Lemma pso_json_watch : exists c k' ok, watch (pso_json_disk d p) (PsoLog [] None, k) (PsoBegin s0 :: evs ++ [PsoEnd s n]) = ((c, k'), ok) /\
  (opens d p = false -> ok = false /\ k' = k) /\
  (opens d p = true -> ok = true /\ others_kept p k k' /\ k' p = Some (if stores d p then JsonText (pso_values gens) else Damaged)).
Proof.
  assert (H' : Forall (fun e => pso_ends e = false) (PsoBegin s0 :: evs)) by (constructor; [reflexivity|exact H]).
  pose proof (pso_json_seen _ H' [] None) as F. change (PsoBegin s0 :: evs ++ [PsoEnd s n]) with ((PsoBegin s0 :: evs) ++ [PsoEnd s n]).
  unfold pso_json_disk. erewrite watch_end; [|exact H'|reflexivity|exact F|reflexivity]. unfold pso_json_save. cbn [log_records app].
  change (concat (map seen (PsoBegin s0 :: evs))) with gens.
  assert (L : JsArray (map pso_json_row (map (fun '(n, s) => (n, gbest_value s, gbest s)) gens)) = pso_values gens).
  { unfold pso_values. rewrite map_map. f_equal. apply map_ext. intros [? ?]. cbn. rewrite json_shown, map_shown. reflexivity. }
  rewrite L. destruct (json_case d p (pso_values gens) k) as (k' & r & E & A & B). rewrite E. eexists _, k', _. split; [reflexivity|]. auto.
Qed.
End Pso.

(** ** Firefly algorithm *)
Notation reports := (list (list (list f64) * f64 * list f64)).
Definition ff_body (a : nat) (l : reports) : list ff_event := concat (imap (fun i '(_, b, x) => [FfIterStart (a + i); FfCurrentBest b x; FfIterEnd (a + i)]) l).
Lemma ff_body_cons a e (l : reports) : ff_body a (e :: l) = [FfIterStart a; FfCurrentBest e.1.2 e.2; FfIterEnd a] ++ ff_body (S a) l.
Proof.
  unfold ff_body. rewrite imap_cons. destruct e as [[p b] x]. cbn [concat fst snd]. rewrite Nat.add_0_r. f_equal. f_equal. apply imap_ext. intros i [[? ?] ?] _. cbn. rewrite Nat.add_succ_r. reflexivity.
Qed.
Lemma ff_body_open a (l : reports) : Forall (fun e => ff_ends e = false) (ff_body a l).
Proof. revert a. induction l as [|e l IH]; intros a; [constructor|]. rewrite ff_body_cons. repeat (constructor; [reflexivity|]). apply IH. Qed.
Lemma ff_protocol_body (l : reports) : ff_protocol l = (FfStart :: ff_body 0 l) ++ [FfEnd].
Proof. reflexivity. Qed.
Lemma ff_csv_body (l : reports) : forall a rs i b x, exists i' b' x', feed ff_csv_probe (FfCsv rs i b x None) (ff_body a l) = Ok (FfCsv (rs ++ imap (fun j e => (a + j, e.1.2)) l) i' b' x' None).
Proof.
  induction l as [|e l IH]; intros a rs i b x; [exists i, b, x; rewrite app_nil_r; reflexivity|]. rewrite ff_body_cons, imap_cons, feed_parts.
  destruct (IH (S a) (rs ++ [(a, e.1.2)]) a e.1.2 e.2) as (i' & b' & x' & F). exists i', b', x'. etransitivity; [exact F|]. rewrite <- app_assoc, Nat.add_0_r.
  assert (X : imap (fun j (e : list (list f64) * f64 * list f64) => (S a + j, e.1.2)) l = imap ((fun j (e : list (list f64) * f64 * list f64) => (a + j, e.1.2)) ∘ S) l) by (apply imap_ext; intros j y _; cbn; rewrite Nat.add_succ_r; reflexivity).
  rewrite X. reflexivity.
Qed.
Lemma ff_json_body (l : reports) : forall a rs i b x, exists i' b' x', feed ff_json_probe (FfLog rs i b x None) (ff_body a l) = Ok (FfLog (rs ++ imap (fun j e => (a + j, e.1.2, e.2)) l) i' b' x' None).
Proof.
  induction l as [|e l IH]; intros a rs i b x; [exists i, b, x; rewrite app_nil_r; reflexivity|]. rewrite ff_body_cons, imap_cons, feed_parts.
  destruct (IH (S a) (rs ++ [(a, e.1.2, e.2)]) a e.1.2 e.2) as (i' & b' & x' & F). exists i', b', x'. etransitivity; [exact F|]. rewrite <- app_assoc, Nat.add_0_r.
  assert (X : imap (fun j (e : list (list f64) * f64 * list f64) => (S a + j, e.1.2, e.2)) l = imap ((fun j (e : list (list f64) * f64 * list f64) => (a + j, e.1.2, e.2)) ∘ S) l) by (apply imap_ext; intros j y _; cbn; rewrite Nat.add_succ_r; reflexivity).
  rewrite X. reflexivity.
Qed.
Lemma ff_csv_watch d p k (l : reports) : exists c k' ok, watch (ff_csv_disk d p) (ff_csv_new, k) (ff_protocol l) = ((c, k'), ok) /\
  (opens d p = false -> ok = false /\ k' = k) /\
  (opens d p = true -> ok = true /\ others_kept p k k' /\ (fine d p (ff_lines l) -> k' p = Some (Lines (ff_lines l))) /\ (~ fine d p (ff_lines l) -> k' p = Some Damaged)).
Proof.
  rewrite ff_protocol_body. destruct (ff_csv_body l 0 [] 0 f0 []) as (i & b & x & F). assert (H : Forall (fun e => ff_ends e = false) (FfStart :: ff_body 0 l)) by (constructor; [reflexivity|apply ff_body_open]).
  unfold ff_csv_disk. erewrite watch_end; [|exact H|reflexivity|exact F|reflexivity]. unfold ff_csv_save. cbn [fc_records app].
  assert (L : with_header ["iteration"; "best_value"]%string (map ff_csv_row (imap (fun j e => (0 + j, e.1.2)) l)) = ff_lines l).
  { change (map ff_csv_row ?y) with (ff_csv_row <$> y). rewrite fmap_imap. destruct l as [|e l]; [reflexivity|]. unfold ff_lines. rewrite imap_cons. cbn [with_header]. f_equal. }
  rewrite L. destruct (opens d p) eqn:O.
  - destruct (fine_dec d p (ff_lines l)) as [Fi|Fi].
    + destruct (csv_fine d p _ k Fi) as (k' & E & A & B). rewrite E. eexists _, k', _. split; [reflexivity|]. split; [discriminate|]. intros _. split; [reflexivity|]. split; [exact B|]. split; [intros _; exact A|intros N; contradiction].
    + destruct (csv_bad d p _ k O Fi) as (k' & E & A & B). rewrite E. eexists _, k', _. split; [reflexivity|]. split; [discriminate|]. intros _. split; [reflexivity|]. split; [exact B|]. split; [intros N; contradiction|intros _; exact A].
  - rewrite (csv_refused d p _ k O). eexists _, k, _. split; [reflexivity|]. split; [auto|discriminate].
Qed.
Lemma ff_json_watch d p k (l : reports) : exists c k' ok, watch (ff_json_disk d p) (ff_log_new, k) (ff_protocol l) = ((c, k'), ok) /\
  (opens d p = false -> ok = false /\ k' = k) /\
  (opens d p = true -> ok = true /\ others_kept p k k' /\ k' p = Some (if stores d p then JsonText (ff_values l) else Damaged)).
Proof.
  rewrite ff_protocol_body. destruct (ff_json_body l 0 [] 0 f0 []) as (i & b & x & F). assert (H : Forall (fun e => ff_ends e = false) (FfStart :: ff_body 0 l)) by (constructor; [reflexivity|apply ff_body_open]).
  unfold ff_json_disk. erewrite watch_end; [|exact H|reflexivity|exact F|reflexivity]. unfold ff_json_save. cbn [fl_records app].
  assert (L : JsArray (map ff_json_row (imap (fun j e => (0 + j, e.1.2, e.2)) l)) = ff_values l).
  { unfold ff_values. f_equal. change (map ff_json_row ?y) with (ff_json_row <$> y). rewrite fmap_imap. apply imap_ext. intros j e _. cbn. rewrite json_shown, map_shown. reflexivity. }
  rewrite L. destruct (json_case d p (ff_values l) k) as (k' & r & E & A & B). rewrite E. eexists _, k', _. split; [reflexivity|]. auto.
Qed.

(** ** Ant colony *)
Lemma aco_body_open (l : list (solution * matrix)) : Forall (fun e => aco_ends e = false) (concat (map (fun x => [AcoIterationStart; AcoCurrentBest x.1; AcoPheromoneUpdate x.2; AcoIterationEnd]) l)).
Proof. induction l as [|x l IH]; [constructor|]. cbn [map concat app]. repeat (constructor; [reflexivity|]). exact IH. Qed.
Lemma header_best (l : list (solution * matrix)) : with_header ["from"; "to"; "iter"]%string (map edge_line (best_rows l)) = best_lines l.
Proof. unfold best_lines. destruct (best_rows l); reflexivity. Qed.
Lemma header_pheromone (l : list (solution * matrix)) : with_header ["from"; "to"; "iter"; "val"]%string (map cell_line (pheromone_rows l)) = pheromone_lines l.
Proof. unfold pheromone_lines. destruct (pheromone_rows l); reflexivity. Qed.
Lemma two_names : "best.csv"%string <> "pheromone.csv"%string. Proof. discriminate. Qed.
Lemma aco_csv_watch d k (l : list (solution * matrix)) :
  let good := fine d "best.csv" (best_lines l) in let good' := fine d "pheromone.csv" (pheromone_lines l) in
  exists c k' ok, watch (aco_csv_disk d) (csv_new, k) (protocol l) = ((c, k'), ok) /\
  (ok = true <-> good /\ good') /\
  (forall q, q <> "best.csv"%string -> q <> "pheromone.csv"%string -> k' q = k q) /\
  (opens d "best.csv" = false -> k' = k) /\
  (good -> k' "best.csv"%string = Some (Lines (best_lines l))) /\
  (opens d "best.csv" = true -> ~ good -> k' "best.csv"%string = Some Damaged) /\
  (~ good \/ opens d "pheromone.csv" = false -> k' "pheromone.csv"%string = k "pheromone.csv"%string) /\
  (good -> good' -> k' "pheromone.csv"%string = Some (Lines (pheromone_lines l))) /\
  (good -> opens d "pheromone.csv" = true -> ~ good' -> k' "pheromone.csv"%string = Some Damaged).
Proof.
  intros good good'. destruct (csv_feed l) as [b F]. unfold protocol, aco_csv_disk.
  erewrite watch_end; [|apply aco_body_open|reflexivity|exact F|reflexivity]. unfold aco_csv_save. cbn [csv_best_sols csv_pher csv_flush]. rewrite header_best, header_pheromone.
  destruct (fine_dec d "best.csv" (best_lines l)) as [G|G]; fold good in G.
  - destruct (csv_fine d _ _ k G) as (k1 & E & A & B). rewrite E. cbn [is_saved]. destruct (fine_dec d "pheromone.csv" (pheromone_lines l)) as [G'|G']; fold good' in G'.
    + destruct (csv_fine d _ _ k1 G') as (k2 & E' & A' & B'). rewrite E'. eexists _, k2, true. split; [reflexivity|]. split; [tauto|].
      split; [intros q Q1 Q2; rewrite B', B by assumption; reflexivity|]. split; [destruct G; congruence|]. split; [intros _; rewrite B' by exact two_names; exact A|]. split; [tauto|].
      split; [intros [N|N]; [tauto|destruct G'; congruence]|]. split; [intros _ _; exact A'|tauto].
    + destruct (opens d "pheromone.csv") eqn:O.
      * destruct (csv_bad d _ _ k1 O G') as (k2 & E' & A' & B'). rewrite E'. eexists _, k2, false. split; [reflexivity|]. split; [split; [discriminate|tauto]|].
        split; [intros q Q1 Q2; rewrite B', B by assumption; reflexivity|]. split; [destruct G; congruence|]. split; [intros _; rewrite B' by exact two_names; exact A|]. split; [tauto|].
        split; [intros [N|N]; [tauto|discriminate]|]. split; [tauto|intros _ _ _; exact A'].
      * rewrite (csv_refused d _ _ k1 O). eexists _, k1, false. split; [reflexivity|]. split; [split; [discriminate|tauto]|].
        split; [intros q Q1 Q2; apply B; assumption|]. split; [destruct G; congruence|]. split; [intros _; exact A|]. split; [tauto|].
        split; [intros _; apply B; discriminate|]. split; [tauto|discriminate].
  - destruct (opens d "best.csv") eqn:O.
    + destruct (csv_bad d _ _ k O G) as (k1 & E & A & B). rewrite E. cbn [is_saved]. eexists _, k1, false. split; [reflexivity|]. split; [split; [discriminate|tauto]|].
      split; [intros q Q1 Q2; apply B; assumption|]. split; [discriminate|]. split; [tauto|]. split; [intros _ _; exact A|]. split; [intros _; apply B; discriminate|]. tauto.
    + rewrite (csv_refused d _ _ k O). cbn [is_saved]. eexists _, k, false. split; [reflexivity|]. split; [split; [discriminate|tauto]|]. split; [reflexivity|]. split; [reflexivity|]. split; [tauto|]. split; [discriminate|]. split; [reflexivity|]. tauto.
Qed.
Lemma aco_json_watch d p k (l : list (solution * matrix)) : exists c k' ok, watch (aco_json_disk d p) (json_new, k) (protocol l) = ((c, k'), ok) /\
  (opens d p = false -> ok = false /\ k' = k) /\
  (opens d p = true -> ok = true /\ others_kept p k k' /\ k' p = Some (if stores d p then JsonText (aco_values l) else Damaged)).
Proof.
  pose proof (json_feed l) as F. unfold protocol, aco_json_disk. erewrite watch_end; [|apply aco_body_open|reflexivity|exact F|reflexivity]. unfold aco_json_save. cbn [js_iterations].
  match goal with |- context[JsArray ?x] => assert (L : JsArray x = aco_values l) end.
  { unfold aco_values. f_equal. rewrite map_map. apply map_ext. intros [b q]. unfold json_iteration, serialize_iteration, json_solution. cbn [it_pheromone it_best fst snd]. rewrite into_vec_rows, json_shown.
    assert (X : map (fun row => JsArray (map json_f64 row)) (matrix_rows q) = map (fun row => JsArray (map shown row)) (matrix_rows q)) by (apply map_ext; intros row; rewrite map_shown; reflexivity).
    rewrite X. reflexivity. }
  rewrite L. destruct (json_case d p (aco_values l) k) as (k' & r & E & A & B). rewrite E. eexists _, k', _. split; [reflexivity|]. auto.
Qed.

(** ** Two probes and the same disk *)
Lemma both_end {E V W} (en : E -> bool) (p1 : probe E V) (p2 : probe E W) f1 f2 evs e k k1 k2 v v1 v2 w w1 w2 ok :
  Forall (fun e => en e = false) evs -> en e = true -> feed p1 v evs = Ok v1 -> p1 v1 e = Ok v2 -> feed p2 w evs = Ok w1 -> p2 w1 e = Ok w2 ->
  f1 v2 k = (k1, true) -> f2 w2 k1 = (k2, ok) ->
  watch (both (on_disk en p1 f1) (on_disk en p2 f2)) ((v, w), k) (evs ++ [e]) = (((v2, w2), k2), ok).
Proof.
  intros H He F1 G1 F2 G2 S1 S2. revert v w F1 F2. induction H as [|x evs Hx H IH]; intros v w F1 F2.
  - injection F1 as <-. injection F2 as <-. cbn [app watch]. unfold both, on_disk. rewrite G1, He, S1, G2, S2. destruct ok; reflexivity.
  - change (feed p1 v (x :: evs)) with (y ← p1 v x; feed p1 y evs) in F1. change (feed p2 w (x :: evs)) with (y ← p2 w x; feed p2 y evs) in F2.
    apply obind_Ok in F1 as (v3 & E1 & F1). apply obind_Ok in F2 as (w3 & E2 & F2). cbn [app watch].
    change (en x = false) in Hx.
    assert (B : both (on_disk en p1 f1) (on_disk en p2 f2) (v, w, k) x = ((v3, w3, k), true)) by (unfold both, on_disk; rewrite E1, Hx, E2; reflexivity).
    rewrite B. apply IH; assumption.
Qed.
Lemma both_fails {E V W} (en : E -> bool) (p1 : probe E V) (p2 : probe E W) f1 f2 evs e k k1 v v1 v2 w w1 :
  Forall (fun e => en e = false) evs -> en e = true -> feed p1 v evs = Ok v1 -> p1 v1 e = Ok v2 -> feed p2 w evs = Ok w1 ->
  f1 v2 k = (k1, false) ->
  watch (both (on_disk en p1 f1) (on_disk en p2 f2)) ((v, w), k) (evs ++ [e]) = (((v2, w1), k1), false).
Proof.
  intros H He F1 G1 F2 S1. revert v w F1 F2. induction H as [|x evs Hx H IH]; intros v w F1 F2.
  - injection F1 as <-. injection F2 as <-. cbn [app watch]. unfold both, on_disk. rewrite G1, He, S1. reflexivity.
  - change (feed p1 v (x :: evs)) with (y ← p1 v x; feed p1 y evs) in F1. change (feed p2 w (x :: evs)) with (y ← p2 w x; feed p2 y evs) in F2.
    apply obind_Ok in F1 as (v3 & E1 & F1). apply obind_Ok in F2 as (w3 & E2 & F2). cbn [app watch]. change (en x = false) in Hx.
    assert (B : both (on_disk en p1 f1) (on_disk en p2 f2) (v, w, k) x = ((v3, w3, k), true)) by (unfold both, on_disk; rewrite E1, Hx, E2; reflexivity).
    rewrite B. apply IH; assumption.
Qed.
Section Same.
Variable (d : device) (p : string) (s0 s : swarm) (evs : list pso_event).
Hypothesis (O : opens d p = true) (S : stores d p = true).
Let gens := (0, s0) :: concat (map seen evs).
Lemma csv_save_gens k f : exists k', pso_csv_save d p (PsoCsv (map (fun '(n, s) => (n, gbest_value s)) gens) f) k = (k', true) /\ k' p = Some (Lines (pso_lines gens)).
Proof.
  unfold pso_csv_save. cbn [csv_records].
  assert (L : with_header ["generation"; "best_value"]%string (map pso_csv_row (map (fun '(n, s) => (n, gbest_value s)) gens)) = pso_lines gens).
  { unfold pso_lines. rewrite map_map. unfold gens. cbn [map with_header]. f_equal. f_equal. apply map_ext. intros [? ?]. reflexivity. }
  rewrite L. destruct (csv_fine d p (pso_lines gens) k) as (k' & E & A & _); [split; auto|]. rewrite E. exists k'. auto.
Qed.
Lemma json_save_gens k f : exists k', pso_json_save d p (PsoLog (map (fun '(n, s) => (n, gbest_value s, gbest s)) gens) f) k = (k', true) /\ k' p = Some (JsonText (pso_values gens)).
Proof.
  unfold pso_json_save. cbn [log_records].
  assert (L : JsArray (map pso_json_row (map (fun '(n, s) => (n, gbest_value s, gbest s)) gens)) = pso_values gens).
  { unfold pso_values. rewrite map_map. f_equal. apply map_ext. intros [? ?]. cbn. rewrite json_shown, map_shown. reflexivity. }
  rewrite L. unfold json_write. rewrite O, S. eexists. split; [reflexivity|]. apply put_at.
Qed.
End Same.
