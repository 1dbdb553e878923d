(** * Property theorems: result files on a disk that may refuse or fail (C133) *)
From Verif Require Import FileModel FileSpec FileProofs AcoSpec AcoProbeSpec PsoSpec FfSpec AcoProbeProofs AcoRunProofs FfProofs PsoProofs PropsPso.
From stdpp Require Import strings.
Open Scope nat_scope.

(** ** Particle swarm: whatever callbacks a policy lets through between the first and the last, [evs] *)
Theorem C133_pso_csv :
  forall d p k s0 evs s n, (forall s n, PsoEnd s n ∉ evs) ->
  exists c k' returned, watch (pso_csv_disk d p) (PsoCsv [] None, k) (PsoBegin s0 :: evs ++ [PsoEnd s n]) = ((c, k'), returned) /\
  (opens d p = false -> returned = false /\ k' = k) /\
  (opens d p = true -> returned = true /\ others_kept p k k' /\
     k' p = Some (if stores d p then Lines (pso_lines ((0, s0) :: concat (map seen evs))) else Damaged)).
Proof. intros d p k s0 evs s n H. apply pso_csv_watch. apply Forall_forall. intros [?|? ?|? ?] Hx; [reflexivity|reflexivity|destruct (H _ _ Hx)]. Qed.
Print Assumptions C133_pso_csv.
Theorem C133_pso_json :
  forall d p k s0 evs s n, (forall s n, PsoEnd s n ∉ evs) ->
  exists c k' returned, watch (pso_json_disk d p) (PsoLog [] None, k) (PsoBegin s0 :: evs ++ [PsoEnd s n]) = ((c, k'), returned) /\
  (opens d p = false -> returned = false /\ k' = k) /\
  (opens d p = true -> returned = true /\ others_kept p k k' /\
     k' p = Some (if stores d p then JsonText (pso_values ((0, s0) :: concat (map seen evs))) else Damaged)).
Proof. intros d p k s0 evs s n H. apply pso_json_watch. apply Forall_forall. intros [?|? ?|? ?] Hx; [reflexivity|reflexivity|destruct (H _ _ Hx)]. Qed.
Print Assumptions C133_pso_json.
Lemma pso_protocol_events (s0 : swarm) (l : list swarm) : (forall s n, PsoEnd s n ∉ imap (fun i s => PsoNewGeneration s (i + 1)) l) /\
  concat (map seen (imap (fun i s => PsoNewGeneration s (i + 1)) l)) = imap (fun i s => (i + 1, s)) l.
Proof.
  split.
  - intros s n H. apply elem_of_lookup_imap_1 in H as (i & x & E & _). discriminate.
  - assert (G : forall (m : list swarm) a, concat (map seen (imap (fun i s => PsoNewGeneration s (a + i)) m)) = imap (fun i s => (a + i, s)) m).
    { induction m as [|x m IH]; intros a; [reflexivity|]. rewrite !imap_cons. cbn [map concat seen app]. f_equal.
      assert (X : imap ((fun i s => PsoNewGeneration s (a + i)) ∘ S) m = imap (fun i s => PsoNewGeneration s (S a + i)) m) by (apply imap_ext; intros j y _; cbn; rewrite Nat.add_succ_r; reflexivity). rewrite X, IH.
      apply imap_ext. intros j y _. cbn. rewrite Nat.add_succ_r. reflexivity. }
    assert (X : imap (fun i s => PsoNewGeneration s (i + 1)) l = imap (fun i s => PsoNewGeneration s (1 + i)) l) by (apply imap_ext; intros j y _; rewrite Nat.add_comm; reflexivity). rewrite X, G.
    apply imap_ext. intros j y _. rewrite Nat.add_comm. reflexivity.
Qed.
(** A whole run: the file has a line for every generation; and although all generations have been computed, the run returns nothing when the
    file cannot be created. *)
Theorem C133_pso_run :
  forall f w c1 c2 met sched count dims lo hi r s0 r0 workers fuel evs s' d p k,
  swarm_generate f count dims lo hi r = Ok (s0, r0) -> schedules_ok count (length workers) sched ->
  pso_run f w c1 c2 met sched fuel s0 workers = Ok (evs, s') ->
  exists c k' result, observed (pso_csv_disk d p) (PsoCsv [] None, k) (pso_run f w c1 c2 met sched fuel s0 workers) = ((c, k'), result) /\
  (opens d p = false -> result = Panic /\ k' = k) /\
  (opens d p = true -> result = Ok s' /\ others_kept p k k' /\
     (stores d p = false -> k' p = Some Damaged) /\
     (stores d p = true -> exists l, evs = pso_protocol s0 l /\ k' p = Some (Lines (pso_lines ((0, s0) :: imap (fun i s => (i + 1, s)) l))))).
Proof.
  intros f w c1 c2 met sched count dims lo hi r s0 r0 workers fuel evs s' d p k HG HS HR. rewrite HR. destruct (C44_stops_at_first_check_met f w c1 c2 met sched count dims lo hi r s0 r0 workers fuel evs s' HG HS HR) as (l & -> & -> & _).
  destruct (pso_protocol_events s0 l) as [N E]. destruct (C133_pso_csv d p k s0 _ (List.last l s0) (length l) N) as (c & k' & ok & W & A & B). rewrite E in B.
  change (PsoBegin s0 :: imap (fun i s => PsoNewGeneration s (i + 1)) l ++ [PsoEnd (List.last l s0) (length l)]) with (pso_protocol s0 l) in W.
  exists c, k', (if ok then Ok (List.last l s0) else Panic). cbn [observed]. rewrite W. split; [reflexivity|]. split.
  - intros O. destruct (A O) as [-> ->]. split; reflexivity.
  - intros O. destruct (B O) as (-> & K & V). split; [reflexivity|]. split; [exact K|]. split; [intros S; rewrite V, S; reflexivity|]. intros S. exists l. split; [reflexivity|]. rewrite V, S. reflexivity.
Qed.
Print Assumptions C133_pso_run.

(** ** Firefly algorithm: the callbacks of a run ([l]: what its iterations report) *)
Theorem C133_ff_csv :
  forall d p k l, exists c k' returned, watch (ff_csv_disk d p) (ff_csv_new, k) (ff_protocol l) = ((c, k'), returned) /\
  (opens d p = false -> returned = false /\ k' = k) /\
  (opens d p = true -> returned = true /\ others_kept p k k' /\
     (fine d p (ff_lines l) -> k' p = Some (Lines (ff_lines l))) /\ (~ fine d p (ff_lines l) -> k' p = Some Damaged)).
Proof. exact ff_csv_watch. Qed.
Print Assumptions C133_ff_csv.
Theorem C133_ff_json :
  forall d p k l, exists c k' returned, watch (ff_json_disk d p) (ff_log_new, k) (ff_protocol l) = ((c, k'), returned) /\
  (opens d p = false -> returned = false /\ k' = k) /\
  (opens d p = true -> returned = true /\ others_kept p k k' /\ k' p = Some (if stores d p then JsonText (ff_values l) else Damaged)).
Proof. exact ff_json_watch. Qed.
Print Assumptions C133_ff_json.
Theorem C133_ff_run :
  forall f dist powf sq c pop r evs pop' d p k, fle (ff_lower c) (ff_upper c) = true -> ff_run f dist powf sq c pop r = Ok (evs, pop') ->
  exists w k' result, observed (ff_json_disk d p) (ff_log_new, k) (ff_run f dist powf sq c pop r) = ((w, k'), result) /\
  (opens d p = false -> result = Panic /\ k' = k) /\
  (opens d p = true -> result = Ok pop' /\ others_kept p k k' /\ (stores d p = false -> k' p = Some Damaged) /\
     (stores d p = true -> exists l, length l = max_generations c /\ evs = ff_protocol l /\ k' p = Some (JsonText (ff_values l)))).
Proof.
  intros f dist powf sq c pop r evs pop' d p k Hle H. destruct (run_history f dist powf sq c Hle pop r evs pop' H) as (l & L & -> & _ & _). rewrite H.
  destruct (C133_ff_json d p k l) as (w & k' & ok & W & A & B). exists w, k', (if ok then Ok pop' else Panic). cbn [observed]. rewrite W. split; [reflexivity|]. split.
  - intros O. destruct (A O) as [-> ->]. split; reflexivity.
  - intros O. destruct (B O) as (-> & K & V). split; [reflexivity|]. split; [exact K|]. split; [intros S; rewrite V, S; reflexivity|]. intros S. exists l. split; [exact L|]. split; [reflexivity|]. rewrite V, S. reflexivity.
Qed.
Print Assumptions C133_ff_run.

(** ** Ant colony: the callbacks of a run ([l]: the best solutions and pheromones of its iterations).  Every failure panics; best.csv is
    complete before pheromone.csv is touched. *)
Theorem C133_aco_csv :
  forall d k (l : list (solution * matrix)),
  let good := fine d "best.csv" (best_lines l) in let good' := fine d "pheromone.csv" (pheromone_lines l) in
  exists c k' returned, watch (aco_csv_disk d) (csv_new, k) (protocol l) = ((c, k'), returned) /\
  (returned = true <-> good /\ good') /\
  (forall q, q <> "best.csv"%string -> q <> "pheromone.csv"%string -> k' q = k q) /\
  (opens d "best.csv" = false -> k' = k) /\
  (good -> k' "best.csv"%string = Some (Lines (best_lines l))) /\
  (opens d "best.csv" = true -> ~ good -> k' "best.csv"%string = Some Damaged) /\
  (~ good \/ opens d "pheromone.csv" = false -> k' "pheromone.csv"%string = k "pheromone.csv"%string) /\
  (good -> good' -> k' "pheromone.csv"%string = Some (Lines (pheromone_lines l))) /\
  (good -> opens d "pheromone.csv" = true -> ~ good' -> k' "pheromone.csv"%string = Some Damaged).
Proof. exact aco_csv_watch. Qed.
Print Assumptions C133_aco_csv.
Theorem C133_aco_json :
  forall d p k (l : list (solution * matrix)), exists c k' returned, watch (aco_json_disk d p) (json_new, k) (protocol l) = ((c, k'), returned) /\
  (opens d p = false -> returned = false /\ k' = k) /\
  (opens d p = true -> returned = true /\ others_kept p k k' /\ k' p = Some (if stores d p then JsonText (aco_values l) else Damaged)).
Proof. exact aco_json_watch. Qed.
Print Assumptions C133_aco_json.
(** A whole run, and a second one after it: the files of the first run are gone. *)
Theorem C133_aco_runs :
  forall S T (c : aco matrix S T) fuel p s t evs p' s' d k,
  (forall q, opens d q = true) -> (forall q, stores d q = true) -> aco_run c fuel p s t = Ok (evs, p', s') ->
  exists l w k', iterations c p s l p' s' /\ stops_after c (tc_init c t) p l /\
  observed (aco_csv_disk d) (csv_new, k) ('(evs, p, s) ← aco_run c fuel p s t; Ok (evs, (p, s))) = ((w, k'), Ok (p', s')) /\
  k' "best.csv"%string = Some (Lines (best_lines l)) /\ k' "pheromone.csv"%string = Some (Lines (pheromone_lines l)) /\
  forall q, q <> "best.csv"%string -> q <> "pheromone.csv"%string -> k' q = k q.
Proof.
  intros S T c fuel p s t evs p' s' d k Ho Hs H. pose proof (run_Ok c _ _ _ _ _ _ _ H) as (l & -> & Hi & Hst). rewrite H. cbn [mbind outcome_bind observed].
  destruct (C133_aco_csv d k l) as (w & k' & ok & W & R & Q & _ & B & _ & _ & P & _). rewrite W.
  assert (G : fine d "best.csv" (best_lines l)) by (split; auto). assert (G' : fine d "pheromone.csv" (pheromone_lines l)) by (split; auto).
  destruct R as [_ R]. rewrite (R (conj G G')). exists l, w, k'. auto 10.
Qed.
Print Assumptions C133_aco_runs.

(** ** All of them *)
(** Crash points: a run that ends before its last callback leaves every file as it was. *)
Theorem C133_crash :
  forall d p k evs rest, rest <> [] ->
  (forall s0 l, pso_protocol s0 l = evs ++ rest ->
     (watch (pso_csv_disk d p) (PsoCsv [] None, k) evs).1.2 = k /\ (watch (pso_json_disk d p) (PsoLog [] None, k) evs).1.2 = k).
Proof.
  intros d p k evs rest N s0 l E. assert (H : Forall (fun e => pso_ends e = false) evs).
  { destruct (exists_last N) as (rest' & x & ->). unfold pso_protocol in E. rewrite app_comm_cons, app_assoc in E. apply app_inj_tail in E as [E _].
    assert (A : Forall (fun e => pso_ends e = false) (PsoBegin s0 :: imap (fun i s => PsoNewGeneration s (i + 1)) l)).
    { constructor; [reflexivity|]. apply Forall_forall. intros e (i & x' & -> & _)%elem_of_lookup_imap_1. reflexivity. }
    rewrite E in A. apply Forall_app in A as [A _]. exact A. }
  split.
  - unfold pso_csv_disk. rewrite (watch_open _ _ _ _ _ _ H _ (pso_csv_seen _ H [] None)). reflexivity.
  - unfold pso_json_disk. rewrite (watch_open _ _ _ _ _ _ H _ (pso_json_seen _ H [] None)). reflexivity.
Qed.
Print Assumptions C133_crash.
Theorem C133_crash_ff :
  forall d p k l evs rest, rest <> [] -> ff_protocol l = evs ++ rest ->
  (watch (ff_csv_disk d p) (ff_csv_new, k) evs).1.2 = k /\ (watch (ff_json_disk d p) (ff_log_new, k) evs).1.2 = k.
Proof.
  intros d p k l evs rest N E. assert (H : Forall (fun e => ff_ends e = false) evs).
  { destruct (exists_last N) as (rest' & x & ->). rewrite ff_protocol_body, app_assoc in E. apply app_inj_tail in E as [E _].
    assert (A : Forall (fun e => ff_ends e = false) (FfStart :: ff_body 0 l)) by (constructor; [reflexivity|apply ff_body_open]). rewrite E in A. apply Forall_app in A as [A _]. exact A. }
  assert (F : forall (w : ff_csv), exists w', feed ff_csv_probe w evs = Ok w').
  { clear - H. induction H as [|e evs He H IH]; intros w; [exists w; reflexivity|]. change (exists w', (w1 ← ff_csv_probe w e; feed ff_csv_probe w1 evs) = Ok w'). destruct w as [a b c x y], e; try discriminate; apply IH. }
  assert (F' : forall (w : ff_log), exists w', feed ff_json_probe w evs = Ok w').
  { clear - H. induction H as [|e evs He H IH]; intros w; [exists w; reflexivity|]. change (exists w', (w1 ← ff_json_probe w e; feed ff_json_probe w1 evs) = Ok w'). destruct w as [a b c x y], e; try discriminate; apply IH. }
  destruct (F ff_csv_new) as [w1 F1]. destruct (F' ff_log_new) as [w2 F2]. split.
  - unfold ff_csv_disk. rewrite (watch_open _ _ _ _ _ _ H _ F1). reflexivity.
  - unfold ff_json_disk. rewrite (watch_open _ _ _ _ _ _ H _ F2). reflexivity.
Qed.
Print Assumptions C133_crash_ff.
Theorem C133_crash_aco :
  forall d p k (l : list (solution * matrix)) evs rest, rest <> [] -> protocol l = evs ++ rest ->
  (watch (aco_csv_disk d) (csv_new, k) evs).1.2 = k /\ (watch (aco_json_disk d p) (json_new, k) evs).1.2 = k.
Proof.
  intros d p k l evs rest N E. pose proof (prefix_no_end l evs rest E N) as X.
  assert (H : Forall (fun e => aco_ends e = false) evs) by (apply Forall_forall; intros [] Hx; [reflexivity..|contradiction]).
  destruct (csv_no_file evs X csv_new) as (w & A & _). destruct (json_protocol l) as (w0 & J & _). rewrite E, feed_app in J. apply obind_Ok in J as (w1 & J & _). split.
  - unfold aco_csv_disk. rewrite (watch_open _ _ _ _ _ _ H _ A). reflexivity.
  - unfold aco_json_disk. rewrite (watch_open _ _ _ _ _ _ H _ J). reflexivity.
Qed.
Print Assumptions C133_crash_aco.
(** A CSV and a JSON probe given the same file name: only what the later one of the two writes is left. *)
Theorem C133_same_file :
  forall d p k s0 evs s n, (forall s n, PsoEnd s n ∉ evs) -> opens d p = true -> stores d p = true ->
  let callbacks := PsoBegin s0 :: evs ++ [PsoEnd s n] in let gens := (0, s0) :: concat (map seen evs) in
  (exists w k', watch (both (pso_csv_disk d p) (pso_json_disk d p)) ((PsoCsv [] None, PsoLog [] None), k) callbacks = ((w, k'), true) /\ k' p = Some (JsonText (pso_values gens))) /\
  (exists w k', watch (both (pso_json_disk d p) (pso_csv_disk d p)) ((PsoLog [] None, PsoCsv [] None), k) callbacks = ((w, k'), true) /\ k' p = Some (Lines (pso_lines gens))).
Proof.
  intros d p k s0 evs s n H O S callbacks gens.
  assert (H' : Forall (fun e => pso_ends e = false) (PsoBegin s0 :: evs)). { constructor; [reflexivity|]. apply Forall_forall. intros [?|? ?|? ?] Hx; [reflexivity|reflexivity|destruct (H _ _ Hx)]. }
  pose proof (pso_csv_seen _ H' [] None) as F1. pose proof (pso_json_seen _ H' [] None) as F2. cbn [app] in F1, F2.
  change (concat (map seen (PsoBegin s0 :: evs))) with gens in F1, F2. change callbacks with ((PsoBegin s0 :: evs) ++ [PsoEnd s n]). split.
  - destruct (csv_save_gens d p s0 evs O S k (Some (map (fun '(n, s) => (n, gbest_value s)) gens))) as (k1 & E1 & _). destruct (json_save_gens d p s0 evs O S k1 (Some (map (fun '(n, s) => (n, gbest_value s, gbest s)) gens))) as (k2 & E2 & V).
    eexists _, k2. split; [|exact V]. eapply both_end; [exact H'|reflexivity|exact F1|reflexivity|exact F2|reflexivity|exact E1|exact E2].
  - destruct (json_save_gens d p s0 evs O S k (Some (map (fun '(n, s) => (n, gbest_value s, gbest s)) gens))) as (k1 & E1 & _). destruct (csv_save_gens d p s0 evs O S k1 (Some (map (fun '(n, s) => (n, gbest_value s)) gens))) as (k2 & E2 & V).
    eexists _, k2. split; [|exact V]. eapply both_end; [exact H'|reflexivity|exact F2|reflexivity|exact F1|reflexivity|exact E1|exact E2].
Qed.
Print Assumptions C133_same_file.
(** The probes of an aggregated probe after one whose file cannot be created write nothing either. *)
Theorem C133_later_probes_write_nothing :
  forall d p q k s0 evs s n, (forall s n, PsoEnd s n ∉ evs) -> opens d p = false ->
  exists w, watch (both (pso_csv_disk d p) (pso_json_disk d q)) ((PsoCsv [] None, PsoLog [] None), k) (PsoBegin s0 :: evs ++ [PsoEnd s n]) = ((w, k), false).
Proof.
  intros d p q k s0 evs s n H O.
  assert (H' : Forall (fun e => pso_ends e = false) (PsoBegin s0 :: evs)). { constructor; [reflexivity|]. apply Forall_forall. intros [?|? ?|? ?] Hx; [reflexivity|reflexivity|destruct (H _ _ Hx)]. }
  pose proof (pso_csv_seen _ H' [] None) as F1. pose proof (pso_json_seen _ H' [] None) as F2.
  eexists. change (PsoBegin s0 :: evs ++ [PsoEnd s n]) with ((PsoBegin s0 :: evs) ++ [PsoEnd s n]). eapply both_fails; [exact H'|reflexivity|exact F1|reflexivity|exact F2|].
  unfold pso_csv_save. rewrite csv_refused by exact O. reflexivity.
Qed.
Print Assumptions C133_later_probes_write_nothing.

(** ** The list of cities: an error is returned, nothing panics *)
Theorem C133_write_cities :
  forall d p k cities, let '(k', succeeded) := write_cities_csv d cities p k in
  (opens d p = false -> succeeded = false /\ k' = k) /\
  (opens d p = true -> others_kept p k k' /\ succeeded = stores d p /\
     k' p = Some (if stores d p then Lines (names ["x"; "y"]%string :: map (fun '(x, y) => [FNum x; FNum y]) cities) else Damaged)).
Proof.
  intros d p k cities. unfold write_cities_csv. assert (L : map (fun c : f64 * f64 => [FNum c.1; FNum c.2]) cities = map (fun '(x, y) => [FNum x; FNum y]) cities) by (apply map_ext; intros [? ?]; reflexivity). rewrite L.
  unfold csv_write. destruct (opens d p); [destruct (stores d p)|]; cbn [is_saved]; (split; [first [discriminate|intros _; split; reflexivity]|]); [| |discriminate];
  intros _; (split; [apply put_two|]); (split; [reflexivity|]); apply put_at.
Qed.
Print Assumptions C133_write_cities.
(** ** Genetic algorithm: constructing one of its file probes empties the file, and nothing is ever written to it *)
Theorem C133_ga_probes :
  forall d p k, let '(k', constructed) := ga_file_probe_new d p k in
  constructed = opens d p /\ others_kept p k k' /\ k' p = if opens d p then Some (Lines []) else k p.
Proof.
  intros d p k. unfold ga_file_probe_new. destruct (opens d p); (split; [reflexivity|]); (split; [first [apply put_other|intros q _; reflexivity]|first [apply put_at|reflexivity]]).
Qed.
Print Assumptions C133_ga_probes.

Example C133_nonvacuous :
  let d := Device (fun p => negb (String.eqb p "pheromone.csv")) (fun _ => true) in
  let k : disk := fun p => if String.eqb p "pheromone.csv" then Some (Lines [[FText "old"]]) else None in
  let l := [(Sol [1; 0] f1, mrepeat 1 1 f1)] in
  let '(w, k', returned) := watch (aco_csv_disk d) (csv_new, k) (protocol l) in
  returned = false /\ k' "best.csv"%string = Some (Lines [map FText ["from"; "to"; "iter"]; [FInt 1; FInt 0; FInt 1]; [FInt 0; FInt 1; FInt 1]]%string) /\ k' "pheromone.csv"%string = Some (Lines [[FText "old"]]) /\
  (let '(w, k', returned) := watch (ff_csv_disk d "f") (ff_csv_new, k) (ff_protocol []) in returned = true /\ k' "f"%string = Some (Lines [])) /\
  (let '(w, k', returned) := watch (ff_json_disk d "f") (ff_log_new, k) (ff_protocol [([[f1]], finf, [f1; S754_nan])]) in
     returned = true /\ k' "f"%string = Some (JsonText (JsArray [JsObject [("iteration", JsInt 0); ("best_value", JsNull); ("best_position", JsArray [JsNum f1; JsNull])]%string]))).
Proof. vm_compute. repeat split. Qed.
