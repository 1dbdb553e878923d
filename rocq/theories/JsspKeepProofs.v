(** * What scheduling and local search leave unchanged *)
From Verif Require Export JsspInstProofs.
Open Scope nat_scope.

(** Everything about an operation except its links and its critical path data *)
Definition keep (o : operation) : operation := set_edges [] (set_mpred None (set_critical None 0%N o)).
(** ... and except its finish time *)
Definition base (o : operation) : operation := set_finish None (keep o).
Lemma map_insert_same {A B} (f : A -> B) (l : list A) i x y : l !! i = Some x -> f y = f x -> map f (<[i := y]> l) = map f l.
Proof. intros H E. change (f <$> <[i := y]> l = f <$> l). rewrite list_fmap_insert. apply list_insert_id. rewrite list_lookup_fmap, H. cbn. f_equal. symmetry. exact E. Qed.
Lemma index_inv {A} (l : list A) i x : index l i = Ok x -> l !! i = Some x.
Proof. unfold index. destruct (l !! i); cbn; congruence. Qed.
Lemma bind_inv {A B} (m : outcome A) (f : A -> outcome B) b : (x ← m; f x) = Ok b -> exists a, m = Ok a /\ f a = Ok b.
Proof. destruct m; cbn; [|discriminate|discriminate]. eauto. Qed.

Lemma link_base ops prv j ops' : link_machine ops prv j = Ok ops' -> map keep ops' = map keep ops.
Proof.
  destruct prv as [l|]; cbn [link_machine]; [|congruence]. intros H. apply bind_inv in H as (o & Ho & H). apply bind_inv in H as (oj & Hoj & H). injection H as <-.
  apply index_inv in Ho, Hoj. rewrite (map_insert_same keep _ j oj) by (auto; reflexivity). apply (map_insert_same keep _ l o); auto.
Qed.
Lemma keep_base ops ops' : map keep ops' = map keep ops -> map base ops' = map base ops.
Proof.
  intros H. assert (E : forall l, map base l = map (set_finish None) (map keep l)) by (intros l; rewrite map_map; reflexivity). rewrite !E, H. reflexivity.
Qed.
Lemma schedule_op_base j s s' : schedule_op j s = Ok s' -> map base (s_ops s') = map base (s_ops s).
Proof.
  unfold schedule_op. intros H. repeat (apply bind_inv in H as (? & ? & H)). injection H as <-. cbn [s_ops].
  match goal with Hl : link_machine _ _ _ = Ok _ |- _ => apply link_base, keep_base in Hl; rewrite Hl end.
  match goal with Hi : index (s_ops s) j = Ok ?o |- _ => apply index_inv in Hi; eapply map_insert_same; [exact Hi|reflexivity] end.
Qed.
Lemma schedule_feasibles_base dc c n md t : forall fuel fs j s s', schedule_feasibles fuel dc c n md t fs j s = Ok s' -> map base (s_ops s') = map base (s_ops s).
Proof.
  induction fuel as [|fuel IH]; intros fs j s s' H; destruct fs; cbn [schedule_feasibles] in H; try congruence.
  apply bind_inv in H as (s1 & E1 & H). apply schedule_op_base in E1. destruct (decide _); [congruence|]. apply bind_inv in H as (d & _ & H). apply bind_inv in H as ([fs' j'] & _ & H). apply IH in H. congruence.
Qed.
Lemma schedule_all_base dc c n md : forall fuel t s s', schedule_all fuel dc c n md t s = Ok s' -> map base (s_ops s') = map base (s_ops s).
Proof.
  induction fuel as [|fuel IH]; intros t s s' H; cbn [schedule_all] in H; destruct (decide _); try congruence.
  apply bind_inv in H as (d & _ & H). apply bind_inv in H as ([fs j] & _ & H). apply bind_inv in H as (s1 & E1 & H). apply schedule_feasibles_base in E1.
  apply bind_inv in H as (t' & _ & H). apply IH in H. congruence.
Qed.

(** ** Local search *)
Lemma finish_vertex_keep ops v o ops' : ops !! v = Some o -> finish_vertex ops v o = Ok ops' -> map keep ops' = map keep ops.
Proof.
  intros Ho. unfold finish_vertex. destruct (op_edges o).
  - intros [= <-]. apply (map_insert_same keep _ v o _ Ho). reflexivity.
  - intros H. apply bind_inv in H as (? & _ & H). apply bind_inv in H as (? & _ & H). apply bind_inv in H as (? & _ & H). injection H as <-. apply (map_insert_same keep _ v o _ Ho). reflexivity.
Qed.
Lemma critical_dfs_keep : forall fuel ops vis st ops', critical_dfs fuel ops vis st = Ok ops' -> map keep ops' = map keep ops.
Proof.
  induction fuel as [|fuel IH]; intros ops vis st ops' H; destruct st as [|v st]; cbn [critical_dfs] in H; try congruence.
  apply bind_inv in H as (b & _ & H). destruct b; [apply IH in H; exact H|]. apply bind_inv in H as (o & Ho & H). apply bind_inv in H as (pushed & _ & H). destruct pushed.
  - apply bind_inv in H as (ops1 & E1 & H). apply IH in H. apply (finish_vertex_keep _ _ _ _ (index_inv _ _ _ Ho)) in E1. congruence.
  - apply IH in H. exact H.
Qed.
Lemma determine_makespan_keep fuel ops ops' m : determine_makespan fuel ops = Ok (ops', m) -> map keep ops' = map keep ops.
Proof. unfold determine_makespan. intros H. apply bind_inv in H as (ops1 & E1 & H). apply bind_inv in H as (o & _ & H). injection H as <- <-. apply critical_dfs_keep in E1. exact E1. Qed.
Lemma update_op_keep ops i f ops' : (forall o o', f o = Ok o' -> keep o' = keep o) -> update_op ops i f = Ok ops' -> map keep ops' = map keep ops.
Proof. intros Hf H. unfold update_op in H. apply bind_inv in H as (o & Ho & H). apply bind_inv in H as (o' & E & H). injection H as <-. apply (map_insert_same keep _ i o _ (index_inv _ _ _ Ho)), Hf, E. Qed.
Lemma set_second_keep x o o' : set_second_edge x o = Ok o' -> keep o' = keep o.
Proof. unfold set_second_edge. intros H. apply bind_inv in H as (? & _ & H). injection H as <-. reflexivity. Qed.
Lemma swap_ops_keep ops u v ops' : swap_ops ops u v = Ok ops' -> map keep ops' = map keep ops.
Proof.
  assert (P : forall g, (forall o, keep (g o) = keep o) -> forall o o', (fun o => Ok (g o)) o = Ok o' -> keep o' = keep o) by (intros g Hg o o' [= <-]; apply Hg).
  intros H. unfold swap_ops in H. apply bind_inv in H as (_ & _ & H). apply bind_inv in H as (ov & _ & H). apply bind_inv in H as (ops1 & E1 & H). apply bind_inv in H as (ou & _ & H). apply bind_inv in H as (ops2 & E2 & H).
  assert (A1 : map keep ops1 = map keep ops).
  { destruct (op_edges ov !! 1) as [e|].
    - apply bind_inv in E1 as (a & Ea & E1). apply bind_inv in E1 as (b & Eb & E1).
      apply (update_op_keep _ _ _ _ (set_second_keep _)) in Ea. apply (update_op_keep _ _ _ _ (set_second_keep _)) in E1. apply update_op_keep in Eb; [congruence|]. apply (P (set_mpred (Some u))). reflexivity.
    - apply bind_inv in E1 as (a & Ea & E1). apply update_op_keep in Ea; [|apply (P (fun o => set_edges (drop_last (op_edges o)) o)); reflexivity].
      apply update_op_keep in E1; [congruence|apply (P (fun o => set_edges (op_edges o ++ [Edge u MachineSucc]) o)); reflexivity]. }
  assert (A2 : map keep ops2 = map keep ops1).
  { destruct (op_mpred ou) as [p|].
    - apply bind_inv in E2 as (a & Ea & E2). apply (update_op_keep _ _ _ _ (set_second_keep _)) in Ea. apply update_op_keep in E2; [congruence|]. apply (P (set_mpred (Some p))). reflexivity.
    - apply update_op_keep in E2; [exact E2|]. apply (P (set_mpred None)). reflexivity. }
  apply update_op_keep in H; [congruence|]. apply (P (set_mpred (Some v))). reflexivity.
Qed.
Lemma try_swap_keep fuel ops cur u v ops' m b : try_swap fuel ops cur u v = Ok (ops', m, b) -> map keep ops' = map keep ops.
Proof.
  unfold try_swap. intros H. apply bind_inv in H as (ops1 & E1 & H). apply bind_inv in H as ([ops2 m2] & E2 & H). apply swap_ops_keep in E1. apply determine_makespan_keep in E2.
  destruct (_ <? _)%N; [injection H as <- <- <-; congruence|]. apply bind_inv in H as (ops3 & E3 & H). apply swap_ops_keep in E3. injection H as <- <- <-. congruence.
Qed.
Lemma try_blocks_keep fuel len : forall blocks i ops cur ops' m b, try_blocks fuel ops cur i len blocks = Ok (ops', m, b) -> map keep ops' = map keep ops.
Proof.
  induction blocks as [|block blocks IH]; intros i ops cur ops' m b H; cbn [try_blocks] in H; [congruence|].
  apply bind_inv in H as ([[ops1 cur1] b1] & E1 & H). apply bind_inv in H as ([[ops2 cur2] b2] & E2 & H).
  assert (A1 : map keep ops1 = map keep ops).
  { destruct (decide (0 < i /\ 2 <= length block)); [|injection E1 as <- <- <-; reflexivity]. apply bind_inv in E1 as (u & _ & E1). apply bind_inv in E1 as (v & _ & E1). apply try_swap_keep in E1. exact E1. }
  assert (A2 : map keep ops2 = map keep ops1).
  { destruct (decide (i <> len - 1 /\ b1 = false /\ 2 <= length block)); [|injection E2 as <- <- <-; reflexivity]. apply bind_inv in E2 as (u & _ & E2). apply bind_inv in E2 as (v & _ & E2). apply try_swap_keep in E2. exact E2. }
  destruct b2; [injection H as <- <- <-; congruence|]. apply IH in H. congruence.
Qed.
Lemma local_search_loop_keep fuel : forall rounds ops ops' m, local_search_loop rounds fuel ops = Ok (ops', m) -> map keep ops' = map keep ops.
Proof.
  induction rounds as [|rounds IH]; intros ops ops' m H; cbn [local_search_loop] in H; [discriminate|].
  apply bind_inv in H as ([ops1 cur] & E1 & H). apply bind_inv in H as (blocks & _ & H). apply bind_inv in H as ([[ops2 cur2] b] & E2 & H).
  apply determine_makespan_keep in E1. apply try_blocks_keep in E2. destruct b; [apply IH in H|injection H as <- <-]; congruence.
Qed.
Lemma local_search_keep fuel ops ops' m : local_search fuel ops = Ok (ops', m) -> map keep ops' = map keep ops.
Proof. apply local_search_loop_keep. Qed.

(** ** Scheduling does not look at critical path data *)
Definition blank (o : operation) : operation := set_critical None 0%N o.
Definition omap_ok {A B} (f : A -> B) (m : outcome A) : outcome B := match m with Ok a => Ok (f a) | Panic => Panic | Diverge => Diverge end.
Definition blank_s (s : sched) : sched := Sched (map blank (s_ops s)) (s_machines s) (s_ft s) (s_count s) (s_g s) (s_last s).
Lemma index_map {A B} (f : A -> B) l i : index (map f l) i = omap_ok f (index l i).
Proof. unfold index. change (map f l) with (f <$> l). rewrite list_lookup_fmap. destruct (l !! i); reflexivity. Qed.
Lemma omap_bind {A B C} (f : B -> C) (m : outcome A) (k : A -> outcome B) : omap_ok f (x ← m; k x) = (x ← m; omap_ok f (k x)).
Proof. destruct m; reflexivity. Qed.
Lemma bind_omap {A B C} (f : A -> B) (m : outcome A) (k : B -> outcome C) : (x ← omap_ok f m; k x) = (x ← m; k (f x)).
Proof. destruct m; reflexivity. Qed.
Lemma map_insert' {A B} (f : A -> B) (l : list A) i x : <[i := f x]> (map f l) = map f (<[i := x]> l).
Proof. change (<[i := f x]> (f <$> l) = f <$> <[i := x]> l). rewrite list_fmap_insert. reflexivity. Qed.
Lemma link_blank ops prv j : link_machine (map blank ops) prv j = omap_ok (map blank) (link_machine ops prv j).
Proof.
  destruct prv as [l|]; cbn [link_machine]; [|reflexivity]. rewrite index_map, bind_omap, omap_bind. destruct (index ops l) as [o| |]; [|reflexivity|reflexivity]. cbn [mbind outcome_bind].
  change (set_edges (op_edges (blank o) ++ [Edge j MachineSucc]) (blank o)) with (blank (set_edges (op_edges o ++ [Edge j MachineSucc]) o)). rewrite map_insert', index_map, bind_omap, omap_bind.
  destruct (index _ j) as [oj| |]; [|reflexivity|reflexivity]. cbn [mbind outcome_bind omap_ok]. change (set_mpred (Some l) (blank oj)) with (blank (set_mpred (Some l) oj)). rewrite map_insert'. reflexivity.
Qed.
Lemma schedule_op_blank j s : schedule_op j (blank_s s) = omap_ok blank_s (schedule_op j s).
Proof.
  unfold schedule_op. cbn [blank_s s_ops s_machines s_ft s_count s_g s_last]. rewrite index_map, bind_omap, omap_bind. destruct (index (s_ops s) j) as [o| |]; [|reflexivity|reflexivity]. cbn [mbind outcome_bind].
  change (op_preds (blank o)) with (op_preds o). change (op_machine (blank o)) with (op_machine o). change (op_duration (blank o)) with (op_duration o). change (op_id (blank o)) with (op_id o).
  rewrite omap_bind. destruct (unwrap (last (op_preds o))) as [p| |]; [|reflexivity|reflexivity]. cbn [mbind outcome_bind].
  rewrite omap_bind. destruct (index (s_ft s) p) as [pf| |]; [|reflexivity|reflexivity]. cbn [mbind outcome_bind].
  rewrite omap_bind. destruct (index (s_machines s) (op_machine o)) as [m| |]; [|reflexivity|reflexivity]. cbn [mbind outcome_bind].
  rewrite omap_bind. destruct (idle_starts m pf (op_duration o) (s_ft s)) as [st| |]; [|reflexivity|reflexivity]. cbn [mbind outcome_bind].
  rewrite omap_bind. destruct (unwrap (list_min st)) as [start| |]; [|reflexivity|reflexivity]. cbn [mbind outcome_bind].
  rewrite omap_bind. destruct (uadd start (op_duration o)) as [fin| |]; [|reflexivity|reflexivity]. cbn [mbind outcome_bind].
  rewrite omap_bind. destruct (assign (s_ft s) (op_id o) fin) as [ft| |]; [|reflexivity|reflexivity]. cbn [mbind outcome_bind].
  change (set_finish (Some fin) (blank o)) with (blank (set_finish (Some fin) o)). rewrite map_insert', link_blank, bind_omap, omap_bind.
  destruct (link_machine _ _ _) as [ops| |]; reflexivity.
Qed.
Lemma ofold_map {A S} (f : S -> A -> outcome S) (g : A -> A) : (forall s x, f s (g x) = f s x) -> forall l s, ofold f s (map g l) = ofold f s l.
Proof. intros H. induction l as [|x l IH]; intros s; [reflexivity|]. cbn [map ofold]. rewrite H. destruct (f s x); [apply IH|reflexivity|reflexivity]. Qed.
Lemma update_feasibles_blank c ops ft delay time : update_feasibles c (map blank ops) ft delay time = update_feasibles c ops ft delay time.
Proof. unfold update_feasibles. rewrite map_length. cbv zeta. rewrite ofold_map; [reflexivity|]. intros [[fs best] h] o. reflexivity. Qed.
Lemma schedule_feasibles_blank dc c n md t : forall fuel fs j s, schedule_feasibles fuel dc c n md t fs j (blank_s s) = omap_ok blank_s (schedule_feasibles fuel dc c n md t fs j s).
Proof.
  induction fuel as [|fuel IH]; intros fs j s; destruct fs; cbn [schedule_feasibles]; try reflexivity. rewrite schedule_op_blank, bind_omap, omap_bind. destruct (schedule_op j s) as [s1| |]; [|reflexivity|reflexivity]. cbn [mbind outcome_bind].
  change (s_g (blank_s s1)) with (s_g s1). change (s_ft (blank_s s1)) with (s_ft s1). change (s_ops (blank_s s1)) with (map blank (s_ops s1)). destruct (decide (n < s_g s1)); [reflexivity|].
  rewrite omap_bind. destruct (delay_for_g dc c n (s_g s1) md) as [d| |]; [|reflexivity|reflexivity]. cbn [mbind outcome_bind]. rewrite update_feasibles_blank, omap_bind.
  destruct (update_feasibles c (s_ops s1) (s_ft s1) d t) as [[fs' j']| |]; [|reflexivity|reflexivity]. cbn [mbind outcome_bind]. apply IH.
Qed.
Lemma schedule_all_blank dc c n md : forall fuel t s, schedule_all fuel dc c n md t (blank_s s) = omap_ok blank_s (schedule_all fuel dc c n md t s).
Proof.
  induction fuel as [|fuel IH]; intros t s; cbn [schedule_all]; change (s_count (blank_s s)) with (s_count s); destruct (decide (s_count s < n + 1)); try reflexivity.
  change (s_g (blank_s s)) with (s_g s). change (s_ft (blank_s s)) with (s_ft s). change (s_ops (blank_s s)) with (map blank (s_ops s)).
  rewrite omap_bind. destruct (delay_for_g dc c n (s_g s) md) as [d| |]; [|reflexivity|reflexivity]. cbn [mbind outcome_bind]. rewrite update_feasibles_blank, omap_bind.
  destruct (update_feasibles c (s_ops s) (s_ft s) d t) as [[fs j]| |]; [|reflexivity|reflexivity]. cbn [mbind outcome_bind]. rewrite schedule_feasibles_blank, bind_omap, omap_bind.
  destruct (schedule_feasibles (S fuel) dc c n md t fs j s) as [s1| |]; [|reflexivity|reflexivity]. cbn [mbind outcome_bind]. change (s_ft (blank_s s1)) with (s_ft s1). rewrite omap_bind.
  destruct (unwrap (list_min (List.filter (λ t0 : N, (t <? t0)%N) (s_ft s1)))) as [t'| |]; [|reflexivity|reflexivity]. cbn [mbind outcome_bind]. apply IH.
Qed.
