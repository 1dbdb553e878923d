(** * Proofs about the particle swarm probes, schedules of whole runs and the builder *)
From Verif Require Export PsoBoundsProofs.
From Verif Require Import BuilderSpec.
Open Scope nat_scope.

(** ** Interval policy *)
Lemma feed_app {E W} (p : probe E W) a b w : feed p w (a ++ b) = (w' ← feed p w a; feed p w' b).
Proof. unfold feed. apply ofold_app. Qed.

Lemma feed_cons {E W} (p : probe E W) e l w : feed p w (e :: l) = (w' ← p w e; feed p w' l).
Proof. reflexivity. Qed.
Lemma feed_nil {E W} (p : probe E W) w : feed p w [] = Ok w.
Proof. reflexivity. Qed.
Lemma obind_assoc {A B C} (m : outcome A) (f : A -> outcome B) (g : B -> outcome C) : mbind g (mbind f m) = mbind (fun x => mbind g (f x)) m.
Proof. destruct m; reflexivity. Qed.

Section Logged.
Context {W : Type} (pr : probe pso_event W) (due : nat -> bool) (pol : policy pso_event nat).
Context (pol_begin : forall last s, pol last (PsoBegin s) = Ok (true, last)) (pol_end : forall last s n, pol last (PsoEnd s n) = Ok (last <? n, last)).
Context (pol_new : forall last s n, pol last (PsoNewGeneration s n) = if due n then Ok (true, n) else Ok (false, last)).
Let driven := pso_policy_driven pol pr.
Lemma driven_begin last w s : driven (last, w) (PsoBegin s) = (w ← pr w (PsoBegin s); Ok (last, w)).
Proof. unfold driven, pso_policy_driven. cbn [fst snd]. rewrite pol_begin. reflexivity. Qed.
Lemma driven_new last w s n : driven (last, w) (PsoNewGeneration s n) = if due n then (w ← pr w (PsoNewGeneration s n); Ok (n, w)) else Ok (last, w).
Proof. unfold driven, pso_policy_driven. cbn [fst snd]. rewrite pol_new. destruct (due n); reflexivity. Qed.
Lemma driven_end last w s n : driven (last, w) (PsoEnd s n) = (w ← (if last <? n then pr w (PsoNewGeneration s n) else Ok w); w ← pr w (PsoEnd s n); Ok (last, w)).
Proof. unfold driven, pso_policy_driven. cbn [fst snd]. rewrite pol_end. reflexivity. Qed.
(** [last] is the last logged generation up to [i]. *)
Definition last_logged (last i : nat) : Prop := last <= i /\ (last = i <-> i = 0 \/ due i = true).
Lemma logged_loop (l : list swarm) : forall i last w, last_logged last i -> exists last', last_logged last' (i + length l) /\
  feed driven (last, w) (imap (fun j s => PsoNewGeneration s (i + j + 1)) l) =
  (w' ← feed pr w (omap (fun '(j, s) => if due (i + j + 1) then Some (PsoNewGeneration s (i + j + 1)) else None) (imap pair l)); Ok (last', w')).
Proof.
  induction l as [|s l IH]; intros i last w HL.
  - exists last. cbn [length]. rewrite Nat.add_0_r. split; [exact HL|reflexivity].
  - rewrite !imap_cons. cbn [omap list_omap]. rewrite Nat.add_0_r.
    assert (E1 : imap ((fun (j : nat) (s0 : swarm) => PsoNewGeneration s0 (i + j + 1)) ∘ S) l = imap (fun j s0 => PsoNewGeneration s0 (S i + j + 1)) l).
    { apply imap_ext. intros j x _. cbn. f_equal. lia. }
    assert (E2 : omap (fun '(j, s0) => if due (i + j + 1) then Some (PsoNewGeneration s0 (i + j + 1)) else None) (imap (pair ∘ S) l) =
                 omap (fun '(j, s0) => if due (S i + j + 1) then Some (PsoNewGeneration s0 (S i + j + 1)) else None) (imap pair l)).
    { clear. change (imap (pair ∘ S) l) with (imap (fun j (x : swarm) => (S j, x)) l). replace (imap (fun j (x : swarm) => (S j, x)) l) with (map (fun '(j, x) => (S j, x)) (imap pair l)).
      2: { etransitivity; [apply (fmap_imap pair (fun '(j, x) => (S j, x)))|]. apply imap_ext. reflexivity. }
      induction (imap pair l) as [|[j x] m IH]; [reflexivity|]. cbn [map omap list_omap]. change (map (fun '(j, x) => (S j, x)) m) with ((fun '(j, x) => (S j, x)) <$> m) in *.
      replace (i + S j + 1) with (S i + j + 1) by lia. destruct (due _); [f_equal|]; exact IH. }
    rewrite E1, E2, feed_cons, driven_new. clear E1 E2. cbn [length]. replace (i + S (length l)) with (S i + length l) by lia.
    destruct (due (i + 1)) eqn:EM; cbn [mbind outcome_bind].
    + destruct (pr w (PsoNewGeneration s (i + 1))) as [w'| |] eqn:EP; cbn [mbind outcome_bind].
      * destruct (IH (S i) (i + 1) w') as (last' & HL' & E); [split; [lia|]; replace (S i) with (i + 1) by lia; tauto|]. exists last'. split; [exact HL'|].
        rewrite E, feed_cons, EP. reflexivity.
      * destruct (IH (S i) (i + 1) w) as (last' & HL' & E); [split; [lia|]; replace (S i) with (i + 1) by lia; tauto|]. exists last'. split; [exact HL'|]. rewrite feed_cons, EP. reflexivity.
      * destruct (IH (S i) (i + 1) w) as (last' & HL' & E); [split; [lia|]; replace (S i) with (i + 1) by lia; tauto|]. exists last'. split; [exact HL'|]. rewrite feed_cons, EP. reflexivity.
    + apply IH. destruct HL as [HL1 HL2]. split; [lia|]. replace (S i) with (i + 1) by lia. rewrite EM. split; [lia|]. intros [?|?]; [lia|discriminate].
Qed.
Lemma logged_feed first later w : exists last,
  feed driven (0, w) (pso_protocol first later) = (w' ← feed pr w (logged_events due first later); Ok (last, w')).
Proof.
  unfold pso_protocol, logged_events. rewrite !feed_cons, driven_begin, !obind_assoc.
  destruct (pr w (PsoBegin first)) as [w1| |] eqn:EP; cbn [mbind outcome_bind]; [|exists 0; reflexivity|exists 0; reflexivity].
  replace (imap (fun i s => PsoNewGeneration s (i + 1)) later) with (imap (fun j s => PsoNewGeneration s (0 + j + 1)) later) by reflexivity.
  destruct (logged_loop later 0 0 w1) as (last & [HL1 HL2] & E); [split; [lia|tauto]|]. cbn [Nat.add] in HL1, HL2, E. exists last. rewrite !feed_app. cbn [Nat.add]. rewrite E, !obind_assoc.
  match goal with |- context [feed pr w1 ?l] => destruct (feed pr w1 l) as [w2| |]; cbn [mbind outcome_bind]; [|reflexivity|reflexivity] end.
  rewrite feed_cons, driven_end.
  destruct ((length later =? 0) || due (length later)) eqn:EM.
  - assert (last = length later) as -> by (apply HL2; apply orb_true_iff in EM as [EM|EM]; [left; apply Nat.eqb_eq; exact EM|right; exact EM]).
    rewrite Nat.ltb_irrefl. cbn [mbind outcome_bind app]. rewrite feed_cons. destruct (pr w2 _) as [w3| |]; reflexivity.
  - apply orb_false_iff in EM as [EM1 EM2]. apply Nat.eqb_neq in EM1. assert (NE : last <> length later) by (intros X; apply HL2 in X as [X|X]; [contradiction|congruence]).
    destruct (last <? length later) eqn:EL; [|apply Nat.ltb_ge in EL; lia]. cbn [mbind outcome_bind app]. rewrite !feed_cons, !obind_assoc.
    destruct (pr w2 _) as [w3| |]; cbn [mbind outcome_bind]; [|reflexivity|reflexivity]. rewrite ?feed_cons. destruct (pr w3 _) as [w4| |]; reflexivity.
Qed.
End Logged.
Lemma interval_feed {W} (pr : probe pso_event W) k first later w : k <> 0 -> exists last,
  feed (pso_policy_driven (pso_interval_policy k) pr) (0, w) (pso_protocol first later) = (w' ← feed pr w (logged_events (fun n => n mod k =? 0) first later); Ok (last, w')).
Proof.
  intros Hk. apply logged_feed; try reflexivity. intros last s n. cbn [pso_interval_policy]. rewrite bool_decide_true by exact Hk. reflexivity.
Qed.
Lemma elapsed_feed {W} (pr : probe pso_event W) due first later w : exists last,
  feed (pso_policy_driven (pso_elapsed_policy due) pr) (0, w) (pso_protocol first later) = (w' ← feed pr w (logged_events due first later); Ok (last, w')).
Proof. apply logged_feed; reflexivity. Qed.
Lemma interval_zero {W} (pr : probe pso_event W) first s later w w1 : pr w (PsoBegin first) = Ok w1 ->
  feed (pso_policy_driven (pso_interval_policy 0) pr) (0, w) (pso_protocol first (s :: later)) = Panic.
Proof.
  intros H. unfold pso_protocol. rewrite feed_cons.
  assert (E : pso_policy_driven (pso_interval_policy 0) pr (0, w) (PsoBegin first) = Ok (0, w1)).
  { unfold pso_policy_driven. cbn [pso_interval_policy fst snd mbind outcome_bind]. rewrite H. reflexivity. }
  rewrite E. cbn [mbind outcome_bind]. rewrite imap_cons. reflexivity.
Qed.

(** The recorded generations: strictly increasing, from 0 to the last, containing the due ones. *)
Lemma recorded_numbers due first later : concat (map recorded (logged_events due first later)) =
  filter (fun n => n = 0 \/ due n = true \/ n = length later) (seq 0 (length later + 1)).
Proof.
  unfold logged_events. rewrite map_cons, concat_cons. cbn [recorded].
  assert (G : forall (l : list swarm) i, concat (map recorded (omap (fun '(j, s) => if due (i + j + 1) then Some (PsoNewGeneration s (i + j + 1)) else None) (imap pair l))) = filter (fun n => due n = true) (seq (i + 1) (length l))).
  { induction l as [|s l IH]; intros i; [reflexivity|]. rewrite imap_cons. cbn [omap list_omap length seq]. rewrite filter_cons, Nat.add_0_r.
    assert (E2 : omap (fun '(j, s0) => if due (i + j + 1) then Some (PsoNewGeneration s0 (i + j + 1)) else None) (imap (pair ∘ S) l) =
                 omap (fun '(j, s0) => if due (S i + j + 1) then Some (PsoNewGeneration s0 (S i + j + 1)) else None) (imap pair l)).
    { clear. change (imap (pair ∘ S) l) with (imap (fun j (x : swarm) => (S j, x)) l). replace (imap (fun j (x : swarm) => (S j, x)) l) with (map (fun '(j, x) => (S j, x)) (imap pair l)).
      2: { etransitivity; [apply (fmap_imap pair (fun '(j, x) => (S j, x)))|]. apply imap_ext. reflexivity. }
      induction (imap pair l) as [|[j x] m IH]; [reflexivity|]. cbn [map omap list_omap]. change (map (fun '(j, x) => (S j, x)) m) with ((fun '(j, x) => (S j, x)) <$> m) in *.
      replace (i + S j + 1) with (S i + j + 1) by lia. destruct (due _); [f_equal|]; exact IH. }
    rewrite E2. replace (S (i + 1)) with (S i + 1) by lia. destruct (due (i + 1)) eqn:ED.
    - rewrite decide_True by reflexivity. rewrite map_cons, concat_cons. cbn [recorded app]. f_equal. apply IH.
    - rewrite decide_False by congruence. apply IH. }
  specialize (G later 0). cbn [Nat.add] in G.
  rewrite !map_app, !concat_app, G. replace (length later + 1) with (S (length later)) by lia. cbn [seq]. rewrite filter_cons, decide_True by auto. cbn [app]. f_equal. cbn [map concat recorded app]. rewrite app_nil_r.
  destruct (length later) as [|n] eqn:EL; [reflexivity|]. cbn [Nat.eqb orb]. rewrite seq_S, !filter_app. cbn [Nat.add].
  assert (EQ : filter (fun n0 => n0 = 0 \/ due n0 = true \/ n0 = S n) (seq 1 n) = filter (fun n0 => due n0 = true) (seq 1 n)).
  { assert (HX : Forall (fun x => 1 <= x <= n) (seq 1 n)) by (apply Forall_forall; intros x Hx%elem_of_seq; lia).
    induction HX as [|x l Hx _ IH]; [reflexivity|]. rewrite !filter_cons, IH. destruct (due x) eqn:ED.
    - rewrite !decide_True by auto. reflexivity.
    - rewrite !decide_False; [reflexivity|congruence|]. intros [?|[?|?]]; [lia|congruence|lia]. }
  rewrite EQ, <- app_assoc. f_equal. rewrite !filter_cons, !filter_nil. destruct (due (S n)) eqn:ED.
  - rewrite decide_True by reflexivity. rewrite decide_True by auto. reflexivity.
  - rewrite decide_False by congruence. rewrite decide_True by auto. reflexivity.
Qed.

(** ** Record probes *)
Lemma json_new acc file s n : pso_json_probe (PsoLog acc file) (PsoNewGeneration s n) = Ok (PsoLog (acc ++ [(n, gbest_value s, gbest s)]) file).
Proof. reflexivity. Qed.
Lemma json_begin acc file s : pso_json_probe (PsoLog acc file) (PsoBegin s) = Ok (PsoLog (acc ++ [(0, gbest_value s, gbest s)]) file).
Proof. reflexivity. Qed.
Lemma json_end acc file s n : pso_json_probe (PsoLog acc file) (PsoEnd s n) = Ok (PsoLog acc (Some acc)).
Proof. reflexivity. Qed.
Lemma json_news (l : list swarm) : forall i acc file, feed pso_json_probe (PsoLog acc file) (imap (fun j s => PsoNewGeneration s (j + i)) l) =
  Ok (PsoLog (acc ++ imap (fun j s => (j + i, gbest_value s, gbest s)) l) file).
Proof.
  induction l as [|s l IH]; intros i acc file; [cbn; rewrite app_nil_r; reflexivity|]. rewrite !imap_cons, feed_cons, json_new. cbn [mbind outcome_bind].
  replace (imap ((fun j s0 => PsoNewGeneration s0 (j + i)) ∘ S) l) with (imap (fun j s0 => PsoNewGeneration s0 (j + S i)) l) by (apply imap_ext; intros j x _; cbn; f_equal; lia).
  rewrite IH. f_equal. f_equal. rewrite <- app_assoc. f_equal. cbn [app]. f_equal. apply imap_ext. intros j x _. cbn. f_equal. f_equal. lia.
Qed.
Lemma json_feed first later : let records := imap (fun i s => (i, gbest_value s, gbest s)) (first :: later) in
  feed pso_json_probe (PsoLog [] None) (pso_protocol first later) = Ok (PsoLog records (Some records)).
Proof.
  intros records. unfold pso_protocol. rewrite feed_cons, json_begin. cbn [mbind outcome_bind]. rewrite feed_app.
  rewrite json_news. cbn [mbind outcome_bind]. rewrite feed_cons, json_end. cbn [mbind outcome_bind].
  assert (E : ([] ++ [(0, gbest_value first, gbest first)]) ++ imap (fun j s => (j + 1, gbest_value s, gbest s)) later = records).
  { unfold records. rewrite imap_cons. cbn [app]. f_equal. apply imap_ext. intros j x _. cbn. f_equal. f_equal. lia. }
  rewrite E. reflexivity.
Qed.

(** ** Schedules of whole runs *)
Section Schedules.
Context (f : list f64 -> f64) (w c1 c2 : f64) (met : nat -> swarm -> bool).
Lemma velocities_interleaving s ws sch sch' : schedule_ok (length (particles s)) (length ws) sch -> schedule_ok (length (particles s)) (length ws) sch' ->
  (forall k, share k sch = share k sch') -> update_velocities w c1 c2 sch s ws = update_velocities w c1 c2 sch' s ws.
Proof.
  intros H H' HS. unfold update_velocities.
  match goal with |- context [ofold ?g (particles s, ws) sch] => change (ofold g (particles s, ws)) with (ofold (vel_step (update_velocity (gbest s) w c1 c2)) (particles s, ws)) end.
  rewrite (vel_fold_interleaving _ sch sch') by auto. reflexivity.
Qed.
Lemma positions_order s order : order_ok (length (particles s)) order ->
  update_positions f order s = Ok (Swarm (map (update_position f) (particles s)) (gbest s) (gbest_value s)).
Proof.
  intros H. unfold update_positions.
  match goal with |- context [ofold ?g (particles s) _] => change (ofold g (particles s)) with (ofold (pos_step (update_position f)) (particles s)) end.
  rewrite pos_fold_all by exact H. reflexivity.
Qed.
Lemma velocities_shape s ws sch s' ws' : schedule_ok (length (particles s)) (length ws) sch -> update_velocities w c1 c2 sch s ws = Ok (s', ws') ->
  length (particles s') = length (particles s) /\ length ws' = length ws.
Proof.
  intros H E. unfold update_velocities in E.
  destruct (vel_fold_all (update_velocity (gbest s) w c1 c2) sch (particles s) ws H) as (ps1 & ws1 & E1 & LW & F1).
  match type of E with context [ofold ?g (particles s, ws) _] => change (ofold g (particles s, ws) sch) with (ofold (vel_step (update_velocity (gbest s) w c1 c2)) (particles s, ws) sch) in E end.
  rewrite E1 in E. cbn [mbind outcome_bind] in E. injection E as <- <-. cbn [particles]. split; [symmetry; eapply Forall2_length; eauto|exact LW].
Qed.
Context (n nw : nat) (sched sched' : nat -> list (nat * nat) * list nat) (OK : schedules_ok n nw sched) (OK' : schedules_ok n nw sched').
Context (SH : forall i k, share k (sched i).1 = share k (sched' i).1).
Lemma generation_schedules i s ws : length (particles s) = n -> length ws = nw ->
  generation f w c1 c2 sched i s ws = generation f w c1 c2 sched' i s ws /\
  forall s' ws', generation f w c1 c2 sched i s ws = Ok (s', ws') -> length (particles s') = n /\ length ws' = nw.
Proof.
  intros Hn Hw. destruct (OK i) as [A B]. destruct (OK' i) as [A' B']. unfold generation.
  rewrite (velocities_interleaving s ws (sched i).1 (sched' i).1) by (subst; auto).
  destruct (update_velocities w c1 c2 (sched' i).1 s ws) as [[s1 ws1]| |] eqn:E; cbn [mbind outcome_bind]; [|split; [reflexivity|discriminate]|split; [reflexivity|discriminate]].
  apply velocities_shape in E as [L1 L2]; [|subst; auto].
  rewrite !positions_order by (rewrite L1, Hn; auto). split; [reflexivity|]. intros s' ws' H. cbn [mbind outcome_bind] in H. injection H as <- <-.
  rewrite update_best_eq. cbn [particles]. rewrite map_length. lia.
Qed.
Lemma loop_schedules fuel : forall i s ws, length (particles s) = n -> length ws = nw ->
  pso_loop f w c1 c2 met sched fuel i s ws = pso_loop f w c1 c2 met sched' fuel i s ws.
Proof.
  induction fuel as [|fuel IH]; intros i s ws Hn Hw; [reflexivity|]. cbn [pso_loop]. destruct (met i s); [reflexivity|].
  destruct (generation_schedules (i + 1) s ws Hn Hw) as [E H]. rewrite <- E. destruct (generation f w c1 c2 sched (i + 1) s ws) as [[s1 ws1]| |] eqn:E1; cbn [mbind outcome_bind]; try reflexivity.
  destruct (H s1 ws1 eq_refl) as [H1 H2]. rewrite (IH _ _ _ H1 H2). reflexivity.
Qed.
Lemma run_schedules fuel s ws : length (particles s) = n -> length ws = nw ->
  pso_run f w c1 c2 met sched fuel s ws = pso_run f w c1 c2 met sched' fuel s ws.
Proof. intros Hn Hw. unfold pso_run. rewrite loop_schedules by auto. reflexivity. Qed.
End Schedules.

(** ** Builder *)
Section Builder.
Context (rosenbrock : list f64 -> f64).
Lemma last_set_snoc {A B} (what : A -> option B) l x : last_set what (l ++ [x]) = match what x with Some b => Some b | None => last_set what l end.
Proof.
  unfold last_set. rewrite omap_app. cbn [omap list_omap]. destruct (what x); [apply stdpp.list.last_snoc|rewrite app_nil_r; reflexivity].
Qed.
Lemma config_fields setters : let c := foldl pso_set (pso_default rosenbrock) setters in
  dimensions c = default 2 (last_set (fun s => match s with SetDimensions n => Some n | _ => None end) setters) /\
  lower_bound c = default f_neg10 (last_set (fun s => match s with SetLowerBound x => Some x | _ => None end) setters) /\
  upper_bound c = default (f_of_nat 10) (last_set (fun s => match s with SetUpperBound x => Some x | _ => None end) setters) /\
  particle_count c = default 30 (last_set (fun s => match s with SetParticleCount n => Some n | _ => None end) setters) /\
  inertia_weight c = default fhalf (last_set (fun s => match s with SetInertiaWeight x => Some x | _ => None end) setters) /\
  cognitive_coefficient c = default f1 (last_set (fun s => match s with SetCognitive x => Some x | _ => None end) setters) /\
  social_coefficient c = default (f_of_nat 3) (last_set (fun s => match s with SetSocial x => Some x | _ => None end) setters) /\
  pso_function c = default rosenbrock (last_set (fun s => match s with SetFunction g => Some g | _ => None end) setters) /\
  termination c = default (GenerationLimit 500) (last_set (fun s => match s with SetTermination t => Some t | SetGenerationLimit n => Some (GenerationLimit n) | SetTimeLimit t => Some (TimeLimit t) | _ => None end) setters) /\
  pso_probe c = default 0 (last_set (fun s => match s with PsoModel.SetProbe p => Some p | _ => None end) setters).
Proof.
  induction setters as [|s l IH] using rev_ind; [cbn; repeat split; reflexivity|]. cbv zeta in *. rewrite foldl_app. cbn [foldl]. rewrite !last_set_snoc.
  set (c := foldl pso_set (pso_default rosenbrock) l) in *. clearbody c. destruct c as [d lo hi n w c1 c2 g t p].
  cbn [dimensions lower_bound upper_bound particle_count inertia_weight cognitive_coefficient social_coefficient pso_function termination pso_probe] in IH.
  destruct IH as (I1 & I2 & I3 & I4 & I5 & I6 & I7 & I8 & I9 & I10).
  destruct s; cbn [pso_set dimensions lower_bound upper_bound particle_count inertia_weight cognitive_coefficient social_coefficient pso_function termination pso_probe default]; split_and!; auto.
Qed.
End Builder.
