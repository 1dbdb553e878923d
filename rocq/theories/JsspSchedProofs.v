(** * The decoder of the job shop example builds feasible schedules *)
From Verif Require Export JsspListProofs JsspFloatProofs.
Open Scope nat_scope.

Lemma total_perm_aux {A} (f : A -> N) l l' : l ≡ₚ l' -> foldr (fun i acc => (f i + acc)%N) 0%N l = foldr (fun i acc => (f i + acc)%N) 0%N l'.
Proof. induction 1; cbn; lia. Qed.

Section Shop.
(** Real operations are numbered from 1 to n; jpred is the preceding operation of the job (0 for its first operation), jsucc the following one. *)
Variables (n nm : nat) (dur : nat -> N) (mach jpred jsucc : nat -> nat) (zedges : list edge).
Hypothesis jpred_lt : forall i, 1 <= i <= n -> jpred i < i.
Hypothesis mach_lt : forall i, 1 <= i <= n -> mach i < nm.

Definition total (l : list nat) : N := foldr (fun i acc => (dur i + acc)%N) 0%N l.
Hypothesis total_small : (total (seq 1 n) <= 2 ^ 50)%N.

Lemma total_app l k : total (l ++ k) = (total l + total k)%N.
Proof. induction l as [|i l IH]; cbn; [reflexivity|]. unfold total in *. lia. Qed.
Lemma total_sub l : NoDup l -> Forall (fun i => 1 <= i <= n) l -> (total l <= 2 ^ 50)%N.
Proof.
  intros Hd Hr. assert (S : l ⊆+ seq 1 n).
  { apply NoDup_submseteq; [exact Hd|]. intros i Hi. rewrite Forall_forall in Hr. specialize (Hr i Hi). apply elem_of_seq. lia. }
  apply submseteq_Permutation in S as [k S]. pose proof (total_perm_aux dur _ _ S) as E. fold (total (seq 1 n)) in E. fold (total (l ++ k)) in E.
  rewrite total_app in E. lia.
Qed.

Definition scheduled (done : list nat) (i : nat) : Prop := i = 0 \/ i ∈ done.
Definition ftv (done : list nat) (fin : nat -> N) (i : nat) : N := if decide (scheduled done i) then fin i else usize_max.
Definition on (m : nat) (done : list nat) : list nat := filter (fun i => mach i = m) done.
(** [t] is a possible start of [i] after the operations [before]: its job predecessor has finished, and its machine is free *)
Definition slot (fin : nat -> N) (before : list nat) (i : nat) (t : N) : Prop :=
  (fin (jpred i) <= t)%N /\ forall i', i' ∈ before -> mach i' = mach i -> (t + dur i <= fin i' - dur i')%N \/ (fin i' <= t)%N.
(** Every operation was placed at the earliest possible start with respect to those placed before *)
Definition greedy (fin : nat -> N) (done : list nat) : Prop :=
  forall before i after, done = before ++ i :: after ->
    scheduled before (jpred i) /\ (dur i <= fin i)%N /\ slot fin before i (fin i - dur i) /\ forall t, slot fin before i t -> (fin i - dur i <= t)%N.

Definition static (i : nat) (o : operation) : Prop :=
  op_id o = i /\
  (1 <= i <= n -> op_duration o = dur i /\ op_machine o = mach i /\ last (op_preds o) = Some (jpred i)) /\
  (i = 0 -> op_duration o = 0%N /\ op_edges o = zedges) /\
  (i = n + 1 -> op_duration o = 0%N /\ op_preds o = seq 0 (n + 1) /\ op_edges o = [] /\ op_cp_edge o = None).
Definition machine_edge (v : option nat) : list edge := match v with Some v => [Edge v MachineSucc] | None => [] end.
(** The edges of a real operation, given the order of the operations on each machine *)
Definition linked (chain : nat -> list nat) (i : nat) (o : operation) : Prop :=
  op_edges o = Edge (jsucc i) JobSucc :: machine_edge (next (chain (mach i)) i) /\ op_mpred o = prev (chain (mach i)) i.

Record inv (done : list nat) (fin : nat -> N) (s : sched) : Prop := {
  i_nodup : NoDup done;
  i_range : Forall (fun i => 1 <= i <= n) done;
  i_fin0 : fin 0 = 0%N;
  i_len : length (s_ops s) = n + 2;
  i_static : forall i o, s_ops s !! i = Some o -> static i o;
  i_linked : forall i o, 1 <= i <= n -> s_ops s !! i = Some o -> linked (fun m => on m done) i o;
  i_finish : forall i o, scheduled done i -> s_ops s !! i = Some o -> op_finish o = Some (fin i);
  i_ftlen : length (s_ft s) = n + 2;
  i_ft : forall i, i < n + 2 -> s_ft s !! i = Some (ftv done fin i);
  i_mlen : length (s_machines s) = nm;
  i_mach : forall m, m < nm -> s_machines s !! m = Some (Machine (map (fun i => ((fin i - dur i)%N, fin i)) (on m done)) (last (on m done)));
  i_count : s_count s = 1 + length done;
  i_g : s_g s = 1 + length done;
  i_last_ge : forall i, i ∈ done -> (fin i <= s_last s)%N;
  i_last_in : s_last s = 0%N \/ exists i, i ∈ done /\ fin i = s_last s;
  i_total : (s_last s <= total done)%N;
  i_greedy : greedy fin done }.

Section Inv.
Context (done : list nat) (fin : nat -> N) (s : sched) (I : inv done fin s).
Lemma inv_small i : scheduled done i -> (fin i <= 2 ^ 50)%N.
Proof.
  intros [->|Hi]; [rewrite (i_fin0 _ _ _ I); lia|]. pose proof (i_last_ge _ _ _ I i Hi). pose proof (i_total _ _ _ I).
  pose proof (total_sub done (i_nodup _ _ _ I) (i_range _ _ _ I)). lia.
Qed.
Lemma inv_last_small : (s_last s <= 2 ^ 50)%N.
Proof. pose proof (i_total _ _ _ I). pose proof (total_sub done (i_nodup _ _ _ I) (i_range _ _ _ I)). lia. Qed.
Lemma inv_not_max i : scheduled done i -> fin i <> usize_max.
Proof. intros H%inv_small. unfold usize_max. intros E. rewrite E in H. vm_compute in H. apply H. reflexivity. Qed.
Lemma done_len : length done <= n.
Proof.
  assert (S : done ⊆+ seq 1 n).
  { apply NoDup_submseteq; [exact (i_nodup _ _ _ I)|]. intros i Hi. pose proof (i_range _ _ _ I) as Hr. rewrite Forall_forall in Hr. specialize (Hr i Hi). apply elem_of_seq. lia. }
  apply submseteq_length in S. rewrite seq_length in S. exact S.
Qed.
(** While not all operations are scheduled there is one whose job predecessor is *)
Lemma some_unscheduled : length done < n -> exists i, 1 <= i <= n /\ i ∉ done.
Proof.
  intros H. destruct (decide (Forall (fun i => i ∈ done) (seq 1 n))) as [F|F].
  - exfalso. assert (S : seq 1 n ⊆+ done). { apply NoDup_submseteq; [apply NoDup_seq|]. rewrite Forall_forall in F. exact F. }
    apply submseteq_length in S. rewrite seq_length in S. lia.
  - apply not_Forall_Exists in F; [|intros ?; apply _]. apply Exists_exists in F as (i & Hi & Hn). apply elem_of_seq in Hi. exists i. split; [lia|exact Hn].
Qed.
Lemma some_next : length done < n -> exists i, 1 <= i <= n /\ i ∉ done /\ scheduled done (jpred i).
Proof.
  intros H. destruct (some_unscheduled H) as (i & Hi & Hn). revert Hi Hn. induction i as [i IH] using lt_wf_ind. intros Hi Hn.
  destruct (decide (scheduled done (jpred i))) as [Hs|Hs]; [exists i; auto|].
  apply (IH (jpred i)); [apply jpred_lt; exact Hi| |intros Hd; apply Hs; right; exact Hd].
  pose proof (jpred_lt i Hi). assert (jpred i <> 0) by (intros E; apply Hs; left; exact E). lia.
Qed.
Lemma op_at_index i : i < n + 2 -> exists o, s_ops s !! i = Some o /\ static i o.
Proof.
  intros H. destruct (lookup_lt_is_Some_2 (s_ops s) i) as [o Ho]; [rewrite (i_len _ _ _ I); exact H|]. exists o. split; [exact Ho|]. apply (i_static _ _ _ I). exact Ho.
Qed.
Lemma ops_ids : map op_id (s_ops s) = seq 0 (n + 2).
Proof.
  change (map op_id (s_ops s)) with (op_id <$> s_ops s). apply list_eq. intros i. destruct (decide (i < n + 2)) as [H|H].
  - destruct (op_at_index i H) as (o & Ho & St). rewrite list_lookup_fmap, Ho. cbn. rewrite lookup_seq_lt by exact H. f_equal. apply St.
  - rewrite list_lookup_fmap, (lookup_ge_None_2 (s_ops s)) by (rewrite (i_len _ _ _ I); lia). rewrite lookup_seq_ge by lia. reflexivity.
Qed.

(** *** The delay feasible set *)
Definition limit_of (time : N) (delay : f64) : f64 := fadd (f_of_N time) delay.
Definition ready (limit : f64) (i : nat) : Prop := 1 <= i <= n /\ i ∉ done /\ fgt (f_of_N (ftv done fin (jpred i))) limit = false.
Context (time : N) (delay : f64) (Ht : (time <= 2 ^ 53)%N) (Hd : good_delay delay) (Hlen : length done < n).
Lemma none_too_late_sink k : k <= n + 1 -> (exists i, i < k /\ ~ scheduled done i) -> none_too_late (s_ft s) (limit_of time delay) (seq 0 k) = Ok false.
Proof.
  intros Hk (i & Hi & Hn). assert (G : forall m a, a + m = k -> a <= i -> none_too_late (s_ft s) (limit_of time delay) (seq a m) = Ok false).
  { induction m as [|m IH]; intros a Ha Hai; [lia|]. cbn [seq none_too_late]. unfold too_late. rewrite (index_eq _ _ _ (i_ft _ _ _ I a ltac:(lia))). cbn [mbind outcome_bind].
    destruct (fgt (f_of_N (ftv done fin a)) (limit_of time delay)) eqn:E; [reflexivity|]. destruct (decide (a = i)) as [->|]; [|apply IH; lia].
    unfold ftv in E. rewrite decide_False in E by exact Hn. unfold limit_of in E. rewrite unscheduled_too_late in E by assumption. discriminate. }
  apply (G k 0); lia.
Qed.
Lemma delay_feasible_spec i o : s_ops s !! i = Some o -> exists b, delay_feasible (length (s_ops s)) (s_ft s) (limit_of time delay) o = Ok b /\ (b = true <-> ready (limit_of time delay) i).
Proof.
  intros Ho. assert (Hi : i < n + 2) by (rewrite <- (i_len _ _ _ I); apply lookup_lt_Some in Ho; exact Ho).
  pose proof (i_static _ _ _ I i o Ho) as (Eid & St & _ & Sk). unfold delay_feasible. rewrite Eid, (index_eq _ _ _ (i_ft _ _ _ I i Hi)). cbn [mbind outcome_bind].
  unfold ftv at 1. destruct (decide (scheduled done i)) as [Hs|Hs].
  - rewrite (proj2 (N.eqb_neq _ _) (inv_not_max i Hs)). exists false. split; [reflexivity|]. split; [discriminate|]. intros ((R & _) & Hn & _). destruct Hs as [->|Hs]; [lia|contradiction].
  - rewrite N.eqb_refl. rewrite (i_len _ _ _ I). destruct (decide (i = n + 2 - 1)) as [E|E].
    + destruct (Sk ltac:(lia)) as (_ & -> & _). rewrite none_too_late_sink; [|lia|].
      * exists false. split; [reflexivity|]. split; [discriminate|]. intros ((? & ?) & _). lia.
      * destruct (some_unscheduled Hlen) as (i' & Hr & Hn). exists i'. split; [lia|]. intros [->|?]; [lia|contradiction].
    + assert (R : 1 <= i <= n). { split; [|lia]. destruct i; [exfalso; apply Hs; left; reflexivity|lia]. }
      destruct (St R) as (_ & _ & ->). unfold too_late. rewrite (index_eq _ _ _ (i_ft _ _ _ I (jpred i) ltac:(pose proof (jpred_lt i R); lia))). cbn [mbind outcome_bind].
      eexists. split; [reflexivity|]. rewrite negb_true_iff. unfold ready. split; [|tauto]. intros ->. split; [exact R|]. split; [|reflexivity]. intros H. apply Hs. right. exact H.
Qed.
Lemma ready_scheduled i : ready (limit_of time delay) i -> scheduled done (jpred i).
Proof.
  intros (R & Hn & H). unfold ftv in H. destruct (decide (scheduled done (jpred i))) as [Hs|Hs]; [exact Hs|].
  unfold limit_of in H. rewrite unscheduled_too_late in H by assumption. discriminate.
Qed.
Lemma ready_reached i : 1 <= i <= n -> i ∉ done -> scheduled done (jpred i) -> (fin (jpred i) <= time)%N -> ready (limit_of time delay) i.
Proof. intros R Hn Hs Hle. split; [exact R|]. split; [exact Hn|]. unfold ftv. rewrite decide_True by exact Hs. apply reached_not_too_late; assumption. Qed.

Definition gene (c : list f64) (i : nat) : f64 := nth (i - 1) c f0.
Lemma update_feasibles_spec c : length c = 2 * n -> Forall is_gene c ->
  exists fs best, update_feasibles c (s_ops s) (s_ft s) delay time = Ok (fs, best) /\
    (forall i, i ∈ fs <-> ready (limit_of time delay) i) /\ (fs <> [] -> best ∈ fs /\ forall i, i ∈ fs -> flt (gene c i) (gene c best) = true \/ (fle (gene c i) (gene c best) = true /\ best <= i)).
Proof.
  intros Hc Hg. unfold update_feasibles. cbv zeta. fold (limit_of time delay).
  assert (Gn : forall i, 1 <= i <= n -> op_priority c i = Ok (gene c i) /\ is_gene (gene c i)).
  { intros i R. destruct (lookup_lt_is_Some_2 c (i - 1)) as [x Hx]; [lia|]. unfold gene. rewrite (nth_lookup_Some _ _ _ _ Hx).
    split; [|exact (proj1 (Forall_lookup _ _) Hg _ _ Hx)]. destruct i as [|i]; [lia|]. cbn [op_priority]. replace (S i - 1) with i in Hx by lia. apply index_eq. exact Hx. }
  set (step := fun '(fs, best, highest) o => _).
  set (top := fun (fs : list nat) best h => best ∈ fs /\ h = gene c best /\ forall i, i ∈ fs -> flt (gene c i) h = true \/ (fle (gene c i) h = true /\ best <= i)).
  assert (G : forall l a fs best h, (forall k o, l !! k = Some o -> s_ops s !! (a + k) = Some o) ->
    (forall i, i ∈ fs -> 1 <= i <= n /\ i < a) ->
    (fs = [] /\ h = fmin \/ top fs best h) ->
    exists fs' best' h', ofold step (fs, best, h) l = Ok (fs', best', h') /\
      (forall i, i ∈ fs' <-> i ∈ fs \/ (i ∈ map op_id l /\ ready (limit_of time delay) i)) /\
      (fs' = [] /\ h' = fmin \/ top fs' best' h')).
  { induction l as [|o l IH]; intros i fs best h Hl Hfs Hb.
    - exists fs, best, h. split; [reflexivity|]. split; [|exact Hb]. intros i'. cbn [map]. rewrite elem_of_nil. tauto.
    - pose proof (Hl 0 o eq_refl) as Ho. rewrite Nat.add_0_r in Ho. assert (Hl' : forall k o', l !! k = Some o' -> s_ops s !! (S i + k) = Some o') by (intros k o' Hk; replace (S i + k) with (i + S k) by lia; apply Hl; exact Hk). pose proof (i_static _ _ _ I i o Ho) as (Eid & _).
      destruct (delay_feasible_spec i o Ho) as (b & Eb & Rb). cbn [ofold]. unfold step at 2. cbv beta iota.
rewrite Eb. cbn [mbind outcome_bind].
      destruct b.
      + assert (Rd : ready (limit_of time delay) i) by (apply Rb; reflexivity). destruct (Gn i (proj1 Rd)) as [Ep Gi]. rewrite Eid, Ep. cbn [mbind outcome_bind].
        assert (Hfs' : forall i', i' ∈ fs ++ [i] -> 1 <= i' <= n /\ i' < S i).
        { intros i' [H|H]%elem_of_app; [destruct (Hfs i' H); split; [auto|lia]|]. apply elem_of_list_singleton in H as ->. split; [apply Rd|lia]. }
        destruct (fgt (gene c i) h) eqn:Eg.
        * destruct (IH (S i) (fs ++ [i]) i (gene c i)) as (fs' & best' & h' & E & M & B).
          { exact Hl'. } { exact Hfs'. }
          { right. split; [apply elem_of_app; right; apply elem_of_list_here|]. split; [reflexivity|].
            intros i' [H|H]%elem_of_app; [|apply elem_of_list_singleton in H as ->; right; split; [apply fle_refl; exact (flt_nan_r _ _ Eg)|lia]].
            left. destruct Hb as [[-> _]|(_ & _ & Hb)]; [apply elem_of_nil in H; tauto|]. apply (fle_lt_trans _ h); [destruct (Hb _ H) as [Hb'|[Hb' _]]; [apply flt_le|]; exact Hb'|exact Eg]. }
          exists fs', best', h'. split; [exact E|]. split; [|exact B]. intros i'. rewrite M, elem_of_app, elem_of_list_singleton. cbn [map]. rewrite elem_of_cons, Eid.
          split; [intros [[?| ->]|?]; tauto|intros [?|[[->|?] ?]]; tauto].
        * destruct (IH (S i) (fs ++ [i]) best h) as (fs' & best' & h' & E & M & B).
          { exact Hl'. } { exact Hfs'. }
          { destruct Hb as [[-> ->]|(Hin & -> & Hb)].
            - rewrite (gene_priority _ Gi) in Eg. discriminate.
            - right. split; [apply elem_of_app; left; exact Hin|]. split; [reflexivity|]. intros i' [H|H]%elem_of_app; [auto|].
              apply elem_of_list_singleton in H as ->. right. split; [|destruct (Hfs best Hin); lia]. unfold fgt in Eg. apply not_flt_fle; [|apply (fle_nan_l _ f1), Gi|exact Eg].
              destruct (Gn best) as [_ Gb]; [apply Hfs, Hin|]. apply (fle_nan_l _ f1), Gb. }
          exists fs', best', h'. split; [exact E|]. split; [|exact B]. intros i'. rewrite M, elem_of_app, elem_of_list_singleton. cbn [map]. rewrite elem_of_cons, Eid.
          split; [intros [[?| ->]|?]; tauto|intros [?|[[->|?] ?]]; tauto].
      + destruct (IH (S i) fs best h) as (fs' & best' & h' & E & M & B); [exact Hl'|intros i' H; destruct (Hfs i' H); split; [auto|lia]|exact Hb|].
        exists fs', best', h'. split; [exact E|]. split; [|exact B]. intros i'. rewrite M. cbn [map]. rewrite elem_of_cons, Eid.
        split; [tauto|]. intros [?|[[->|?] ?]]; [tauto| |tauto]. exfalso. assert (false = true) by (apply Rb; assumption). discriminate. }
  destruct (G (s_ops s) 0 [] 0 fmin) as (fs & best & h & E & M & B).
  { intros k o Ho. exact Ho. } { intros i H. apply elem_of_nil in H. tauto. } { left. auto. }
  rewrite E. cbn [mbind outcome_bind]. exists fs, best. split; [reflexivity|]. split.
  - intros i. rewrite M, ops_ids, elem_of_nil, elem_of_seq. split; [tauto|]. intros Rd. right. split; [destruct Rd as ((? & ?) & _); lia|exact Rd].
  - intros Hne. destruct B as [[-> _]|(Hin & -> & Hb)]; [congruence|]. auto.
Qed.
End Inv.

(** *** Placing one operation *)
Definition upd (fin : nat -> N) (j : nat) (f : N) (i : nat) : N := if decide (i = j) then f else fin i.
Lemma upd_same fin j f : upd fin j f j = f.
Proof. unfold upd. rewrite decide_True by reflexivity. reflexivity. Qed.
Lemma upd_other fin j f i : i <> j -> upd fin j f i = fin i.
Proof. intros H. unfold upd. rewrite decide_False by exact H. reflexivity. Qed.
Lemma on_snoc m done j : on m (done ++ [j]) = on m done ++ (if decide (mach j = m) then [j] else []).
Proof. unfold on. rewrite filter_app. f_equal. Qed.
Lemma on_in m done i : i ∈ on m done <-> mach i = m /\ i ∈ done.
Proof. unfold on. rewrite elem_of_list_filter. reflexivity. Qed.
Lemma on_nodup m done : NoDup done -> NoDup (on m done).
Proof. apply NoDup_filter. Qed.

Lemma link_spec ops prv j : (forall l, prv = Some l -> l < length ops /\ l <> j) -> j < length ops ->
  exists ops', link_machine ops prv j = Ok ops' /\ length ops' = length ops /\
    forall i o', ops' !! i = Some o' -> exists o, ops !! i = Some o /\
      op_id o' = op_id o /\ op_duration o' = op_duration o /\ op_machine o' = op_machine o /\ op_finish o' = op_finish o /\ op_preds o' = op_preds o /\
      op_cp_edge o' = op_cp_edge o /\
      op_edges o' = op_edges o ++ (if decide (prv = Some i) then [Edge j MachineSucc] else []) /\
      op_mpred o' = (if decide (i = j) then match prv with Some l => Some l | None => op_mpred o end else op_mpred o).
Proof.
  intros Hp Hj. destruct prv as [l|]; cbn [link_machine].
  - destruct (Hp l eq_refl) as [Hl Hlj]. destruct (lookup_lt_is_Some_2 ops l Hl) as [ol Hol]. destruct (lookup_lt_is_Some_2 ops j Hj) as [oj Hoj].
    rewrite (index_eq _ _ _ Hol). cbn [mbind outcome_bind].
    assert (E : <[l:=set_edges (op_edges ol ++ [Edge j MachineSucc]) ol]> ops !! j = Some oj) by (rewrite list_lookup_insert_ne by exact Hlj; exact Hoj).
    rewrite (index_eq _ _ _ E). cbn [mbind outcome_bind]. eexists. split; [reflexivity|]. split; [rewrite !insert_length; reflexivity|].
    intros i o' Ho'. destruct (decide (i = j)) as [->|Hij].
    + rewrite list_lookup_insert in Ho' by (rewrite insert_length; exact Hj). injection Ho' as <-. exists oj. split; [exact Hoj|]. cbn.
      rewrite decide_False by congruence. rewrite app_nil_r. repeat split; reflexivity.
    + rewrite list_lookup_insert_ne in Ho' by congruence. destruct (decide (i = l)) as [->|Hil].
      * rewrite list_lookup_insert in Ho' by exact Hl. injection Ho' as <-. exists ol. split; [exact Hol|]. cbn. rewrite decide_True by reflexivity. repeat split; reflexivity.
      * rewrite list_lookup_insert_ne in Ho' by congruence. exists o'. split; [exact Ho'|]. rewrite decide_False by congruence. rewrite app_nil_r. repeat split; reflexivity.
  - exists ops. split; [reflexivity|]. split; [reflexivity|]. intros i o' Ho'. exists o'. split; [exact Ho'|]. rewrite decide_False by discriminate. rewrite app_nil_r.
    repeat split; try reflexivity. destruct (decide (i = j)); reflexivity.
Qed.
Lemma last_in {A} (l : list A) x : last l = Some x -> x ∈ l.
Proof. intros E. apply last_Some in E as [l' ->]. apply elem_of_app. right. apply elem_of_list_here. Qed.
Lemma next_last l i : NoDup l -> last l = Some i -> next l i = None.
Proof.
  intros Hl E. apply last_Some in E as [l' ->]. rewrite next_app; [reflexivity|]. apply NoDup_app in Hl as (_ & Hd & _).
  intros H. apply (Hd i H). apply elem_of_list_here.
Qed.
Lemma snoc_split {A} (l : list A) j before i after : l ++ [j] = before ++ i :: after ->
  (before = l /\ i = j /\ after = []) \/ exists after', after = after' ++ [j] /\ l = before ++ i :: after'.
Proof.
  destruct after as [|a after] using rev_ind; intros E.
  - apply app_inj_tail in E as [-> ->]. left. auto.
  - right. exists after. rewrite app_comm_cons, app_assoc in E. apply app_inj_tail in E as [-> ->]. auto.
Qed.

Lemma schedule_op_step done fin s j : inv done fin s -> 1 <= j <= n -> j ∉ done -> scheduled done (jpred j) ->
  exists s' f, schedule_op j s = Ok s' /\ inv (done ++ [j]) (upd fin j f) s'.
Proof.
  intros I Hj Hn Hp. destruct (op_at_index done fin s I j ltac:(lia)) as (o & Ho & St). pose proof St as (Eid & St1 & _ & _). destruct (St1 Hj) as (Ed & Em & Epr).
  unfold schedule_op. rewrite (index_eq _ _ _ Ho). cbn [mbind outcome_bind]. rewrite Epr. cbn [unwrap mbind outcome_bind].
  rewrite (index_eq _ _ _ (i_ft _ _ _ I (jpred j) ltac:(pose proof (jpred_lt j Hj); lia))). cbn [mbind outcome_bind]. unfold ftv. rewrite decide_True by exact Hp.
  rewrite Em, Ed, Eid. rewrite (index_eq _ _ _ (i_mach _ _ _ I (mach j) (mach_lt j Hj))). cbn [mbind outcome_bind].
  set (M := Machine _ _).
  assert (Hdj : (dur j <= 2 ^ 50)%N).
  { pose proof (total_sub [j] (NoDup_singleton j) ltac:(constructor; [exact Hj|constructor])) as H. cbn in H. lia. }
  assert (Hft : forall t, t ∈ s_ft s -> t <> usize_max -> exists i, scheduled done i /\ t = fin i).
  { intros t Hin Hm. apply elem_of_list_lookup in Hin as [i Hi]. assert (i < n + 2) by (rewrite <- (i_ftlen _ _ _ I); apply lookup_lt_Some in Hi; exact Hi).
    rewrite (i_ft _ _ _ I i) in Hi by assumption. apply (inj Some) in Hi. unfold ftv in Hi. destruct (decide (scheduled done i)) as [Hs|Hs]; [exists i; auto|congruence]. }
  assert (Hft' : forall i, scheduled done i -> fin i ∈ s_ft s).
  { intros i Hs. assert (i < n + 2). { destruct Hs as [->|Hs]; [lia|]. pose proof (i_range _ _ _ I) as R. rewrite Forall_forall in R. specialize (R i Hs). lia. }
    apply elem_of_list_lookup. exists i. rewrite (i_ft _ _ _ I i) by assumption. unfold ftv. rewrite decide_True by exact Hs. reflexivity. }
  destruct (idle_starts_spec M (fin (jpred j)) (dur j) (s_ft s)) as (l & El & Hl).
  { intros t Hin Hm. destruct (Hft t Hin Hm) as (i & Hs & ->). pose proof (inv_small done fin s I i Hs). assert ((2 ^ 50 + 2 ^ 50 <= usize_max)%N) by (vm_compute; discriminate). lia. }
  rewrite El. cbn [mbind outcome_bind].
  assert (Idle : forall t, is_idle M t (t + dur j) = true <-> forall i', i' ∈ done -> mach i' = mach j -> (t + dur j <= fin i' - dur i')%N \/ (fin i' <= t)%N).
  { intros t. rewrite is_idle_spec. unfold M. cbn [m_busy]. split.
    - intros H i' Hi' Hm'. apply (H ((fin i' - dur i')%N, fin i')). apply elem_of_list_fmap. exists i'. split; [reflexivity|]. apply on_in. auto.
    - intros H r Hr. apply elem_of_list_fmap in Hr as (i' & -> & Hi'). apply on_in in Hi' as [Hm' Hi']. cbn [fst snd]. apply H; assumption. }
  assert (Hlast : s_last s ∈ l).
  { apply Hl. assert (Hs : exists i, scheduled done i /\ fin i = s_last s).
    { destruct (i_last_in _ _ _ I) as [E|(i & Hi & E)]; [exists 0; split; [left; reflexivity|rewrite (i_fin0 _ _ _ I), E; reflexivity]|exists i; split; [right; exact Hi|exact E]]. }
    destruct Hs as (i & Hs & E). split; [rewrite <- E; apply Hft'; exact Hs|]. split; [rewrite <- E; exact (inv_not_max done fin s I i Hs)|].
    split; [destruct Hp as [E0|Hp]; [rewrite E0, (i_fin0 _ _ _ I); lia|exact (i_last_ge _ _ _ I _ Hp)]|].
    apply Idle. intros i' Hi' _. right. exact (i_last_ge _ _ _ I _ Hi'). }
  destruct (list_min_ex l _ Hlast) as (start & Est). rewrite Est. cbn [unwrap mbind outcome_bind]. destruct (list_min_Some _ _ Est) as [Hin Hmin].
  pose proof (Hmin _ Hlast) as Hsl. apply Hl in Hin as (Hin & _ & Hpf & Hidle).
  assert (Hbig : (start + dur j <= usize_max)%N).
  { pose proof (inv_last_small done fin s I). assert ((2 ^ 50 + 2 ^ 50 <= usize_max)%N) by (vm_compute; discriminate). lia. }
  rewrite (uadd_Ok _ _ Hbig). cbn [mbind outcome_bind]. set (f := (start + dur j)%N) in *.
  rewrite assign_eq by (rewrite (i_ftlen _ _ _ I); lia). cbn [mbind outcome_bind].
  set (ops1 := <[j := set_finish (Some f) o]> (s_ops s)).
  assert (Hl1 : length ops1 = n + 2) by (unfold ops1; rewrite insert_length; exact (i_len _ _ _ I)).
  assert (Hch : NoDup (on (mach j) done)) by (apply on_nodup, (i_nodup _ _ _ I)).
  assert (Hnj : j ∉ on (mach j) done) by (rewrite on_in; tauto).
  pose proof (i_range _ _ _ I) as Rg. rewrite Forall_forall in Rg.
  destruct (link_spec ops1 (m_last M) j) as (ops' & El' & Len' & Ops').
  { unfold M. cbn [m_last]. intros l0 Hl0. apply last_in, on_in in Hl0 as [_ Hl0]. split; [rewrite Hl1; specialize (Rg l0 Hl0); lia|]. intros ->. contradiction. }
  { rewrite Hl1. lia. }
  rewrite El'. cbn [mbind outcome_bind]. unfold M in Ops'. cbn [m_last] in Ops'.
  assert (Old : forall i o', ops' !! i = Some o' -> exists o0, s_ops s !! i = Some o0 /\ op_id o' = op_id o0 /\ op_duration o' = op_duration o0 /\ op_machine o' = op_machine o0 /\
      op_finish o' = (if decide (i = j) then Some f else op_finish o0) /\ op_preds o' = op_preds o0 /\ op_cp_edge o' = op_cp_edge o0 /\
      op_edges o' = op_edges o0 ++ (if decide (last (on (mach j) done) = Some i) then [Edge j MachineSucc] else []) /\
      op_mpred o' = (if decide (i = j) then match last (on (mach j) done) with Some l => Some l | None => op_mpred o0 end else op_mpred o0)).
  { intros i o' Ho'. destruct (Ops' i o' Ho') as (o1 & Ho1 & E1 & E2 & E3 & E4 & E5 & E6 & E7 & E8). unfold ops1 in Ho1. destruct (decide (i = j)) as [->|Hij].
    - rewrite list_lookup_insert in Ho1 by (rewrite (i_len _ _ _ I); lia). injection Ho1 as <-. exists o. cbn in *. repeat split; assumption.
    - rewrite list_lookup_insert_ne in Ho1 by congruence. exists o1. repeat split; assumption. }
  assert (Fin' : forall i, i ∈ done -> upd fin j f i = fin i) by (intros i Hi; apply upd_other; intros ->; contradiction).
  assert (Fin0 : upd fin j f 0 = 0%N) by (rewrite upd_other by lia; exact (i_fin0 _ _ _ I)).
  eexists _, f. split; [reflexivity|].
  assert (Sch : forall i, scheduled (done ++ [j]) i <-> scheduled done i \/ i = j) by (intros i; unfold scheduled; rewrite elem_of_app, elem_of_list_singleton; tauto).
  constructor; cbn [s_ops s_machines s_ft s_count s_g s_last].
  - apply NoDup_app. split; [exact (i_nodup _ _ _ I)|]. split; [intros i Hi ->%elem_of_list_singleton; contradiction|apply NoDup_singleton].
  - apply Forall_app. split; [exact (i_range _ _ _ I)|]. constructor; [exact Hj|constructor].
  - exact Fin0.
  - rewrite Len'. exact Hl1.
  - intros i o' Ho'. destruct (Old i o' Ho') as (o0 & Ho0 & E1 & E2 & E3 & E4 & E5 & E6 & E7 & E8). destruct (i_static _ _ _ I i o0 Ho0) as (S1 & S2 & S3 & S4).
    assert (NL : i = 0 \/ i = n + 1 -> last (on (mach j) done) <> Some i).
    { intros Hi Hla. apply last_in, on_in in Hla as [_ Hla]. specialize (Rg i Hla). lia. }
    split; [congruence|]. split; [rewrite E2, E3, E5; exact S2|]. split.
    + intros Hi. rewrite E2, E7, decide_False by (apply NL; left; exact Hi). rewrite app_nil_r. apply S3, Hi.
    + intros Hi. rewrite E2, E5, E6, E7, decide_False by (apply NL; right; exact Hi). rewrite app_nil_r. apply S4, Hi.
  - intros i o' Hi Ho'. destruct (Old i o' Ho') as (o0 & Ho0 & E1 & E2 & E3 & E4 & E5 & E6 & E7 & E8). destruct (i_linked _ _ _ I i o0 Hi Ho0) as [L1 L2].
    unfold linked. rewrite E7, E8, on_snoc. destruct (decide (mach j = mach i)) as [Emm|Emm].
    + rewrite <- Emm in *. rewrite next_snoc, prev_snoc by assumption. rewrite L1, L2. split.
      * destruct (decide (last (on (mach j) done) = Some i)) as [E|E]; [|rewrite app_nil_r; reflexivity].
        rewrite (next_last _ _ Hch E). reflexivity.
      * destruct (decide (i = j)) as [->|Hij]; [|reflexivity]. rewrite prev_not_in by exact Hnj.
        destruct (last (on (mach j) done)); reflexivity.
    + rewrite app_nil_r. rewrite decide_False.
      * rewrite app_nil_r. split; [exact L1|]. rewrite decide_False; [exact L2|]. intros ->. congruence.
      * intros E. apply last_in, on_in in E as [E _]. congruence.
  - intros i o' Hs Ho'. destruct (Old i o' Ho') as (o0 & Ho0 & E1 & E2 & E3 & E4 & _). rewrite E4. destruct (decide (i = j)) as [->|Hij]; [rewrite upd_same; reflexivity|].
    rewrite upd_other by exact Hij. apply (i_finish _ _ _ I i o0); [|exact Ho0]. apply Sch in Hs as [Hs|Hs]; [exact Hs|contradiction].
  - rewrite insert_length. exact (i_ftlen _ _ _ I).
  - intros i Hi. destruct (decide (i = j)) as [->|Hij].
    + rewrite list_lookup_insert by (rewrite (i_ftlen _ _ _ I); lia). unfold ftv. rewrite decide_True by (apply Sch; auto). rewrite upd_same. reflexivity.
    + rewrite list_lookup_insert_ne by congruence. rewrite (i_ft _ _ _ I i Hi). unfold ftv. rewrite upd_other by exact Hij.
      destruct (decide (scheduled done i)) as [Hs|Hs]; [rewrite decide_True by (apply Sch; auto); reflexivity|]. rewrite decide_False; [reflexivity|]. rewrite Sch. tauto.
  - rewrite insert_length. exact (i_mlen _ _ _ I).
  - intros m Hm. rewrite on_snoc.
    assert (Emap : map (fun i => ((upd fin j f i - dur i)%N, upd fin j f i)) (on m done) = map (fun i => ((fin i - dur i)%N, fin i)) (on m done)).
    { apply map_ext_in. intros i Hi%elem_of_list_In. apply on_in in Hi as [_ Hi]. rewrite Fin' by exact Hi. reflexivity. }
    destruct (decide (mach j = m)) as [<-|Hmm].
    + rewrite list_lookup_insert by (rewrite (i_mlen _ _ _ I); exact Hm). unfold reserve, M. cbn [m_busy]. rewrite map_app, Emap. cbn [map]. rewrite upd_same.
      rewrite stdpp.list.last_snoc. reflexivity.
    + rewrite list_lookup_insert_ne by exact Hmm. rewrite app_nil_r, Emap. apply (i_mach _ _ _ I). exact Hm.
  - rewrite (i_count _ _ _ I), app_length. cbn. lia.
  - rewrite (i_g _ _ _ I), app_length. cbn. lia.
  - intros i [Hi|Hi]%elem_of_app.
    + rewrite Fin' by exact Hi. pose proof (i_last_ge _ _ _ I i Hi). lia.
    + apply elem_of_list_singleton in Hi as ->. rewrite upd_same. lia.
  - destruct (N.max_spec (s_last s) f) as [[_ E]|[_ E]]; rewrite E.
    + right. exists j. split; [apply elem_of_app; right; apply elem_of_list_here|apply upd_same].
    + destruct (i_last_in _ _ _ I) as [E'|(i & Hi & E')]; [left; exact E'|]. right. exists i. split; [apply elem_of_app; left; exact Hi|]. rewrite Fin' by exact Hi. exact E'.
  - rewrite total_app. cbn. pose proof (i_total _ _ _ I). lia.
  - intros before i after E. destruct (snoc_split _ _ _ _ _ E) as [(-> & -> & ->)|(after' & -> & E')].
    + assert (Jp : jpred j <> j) by (pose proof (jpred_lt j Hj); lia). split; [exact Hp|]. rewrite upd_same. split; [lia|].
      replace (f - dur j)%N with start by lia. unfold slot. rewrite upd_other by exact Jp. split.
      * split; [exact Hpf|]. intros i' Hi' Hm'. rewrite Fin' by exact Hi'. apply (proj1 (Idle start) Hidle i' Hi' Hm').
      * intros t [Ht1 Ht2].
        destruct (list_max_ex (fin (jpred j) :: map fin (filter (fun i' => mach i' = mach j /\ (fin i' <= t)%N) done)) ltac:(discriminate)) as (c & Ec).
        destruct (list_max_Some _ _ Ec) as [Hc1 Hc2].
        assert (Hct : (c <= t)%N).
        { apply elem_of_cons in Hc1 as [->|Hc1]; [exact Ht1|]. apply elem_of_list_fmap in Hc1 as (i' & -> & Hi'). apply elem_of_list_filter in Hi' as [[_ H] _]. exact H. }
        apply N.le_trans with c; [|exact Hct]. apply Hmin. apply Hl.
        assert (Hcs : exists i', scheduled done i' /\ c = fin i').
        { apply elem_of_cons in Hc1 as [->|Hc1]; [exists (jpred j); auto|]. apply elem_of_list_fmap in Hc1 as (i' & -> & Hi'). apply elem_of_list_filter in Hi' as [_ H]. exists i'. split; [right; exact H|reflexivity]. }
        destruct Hcs as (ic & Hs & Eq). split; [rewrite Eq; apply Hft'; exact Hs|]. split; [rewrite Eq; exact (inv_not_max done fin s I ic Hs)|].
        split; [apply Hc2; left|]. apply Idle. intros i' Hi' Hm'. destruct (N.le_gt_cases (fin i') t) as [Hle|Hgt].
        -- right. apply Hc2. right. apply elem_of_list_fmap. exists i'. split; [reflexivity|]. apply elem_of_list_filter. auto.
        -- left. destruct (Ht2 i' Hi' Hm') as [H|H]; rewrite Fin' in H by exact Hi'; lia.
    + destruct (i_greedy _ _ _ I before i after' E') as (G1 & G2 & G3 & G4).
      assert (Hi : i ∈ done) by (rewrite E'; apply elem_of_app; right; left). assert (Hb : forall i', i' ∈ before -> i' ∈ done) by (intros i' Hi'; rewrite E'; apply elem_of_app; left; exact Hi').
      assert (Ejp : upd fin j f (jpred i) = fin (jpred i)).
      { destruct G1 as [E0|G1]; [rewrite E0, Fin0, (i_fin0 _ _ _ I); reflexivity|apply Fin', Hb, G1]. }
      assert (Sl : forall t, slot (upd fin j f) before i t <-> slot fin before i t).
      { intros t. unfold slot. rewrite Ejp. split; intros [A B]; (split; [exact A|]); intros i' Hi' Hm'; specialize (B i' Hi' Hm'); pose proof (Fin' i' (Hb i' Hi')) as Ef; [rewrite <- Ef|rewrite Ef]; exact B. }
      rewrite (Fin' i Hi). split; [exact G1|]. split; [exact G2|]. split; [apply Sl, G3|]. intros t Ht. apply G4, Sl, Ht.
Qed.

(** *** The loops *)
Section Loops.
Context (dc : f64) (c : list f64) (maxdur : N).
Context (Hdc : is_delay_const dc) (Hlen : length c = 2 * n) (Hgenes : Forall is_gene c) (Hmax : (maxdur <= 2 ^ 50)%N).
(** The delay of iteration g *)
Definition delay_at (g : nat) : f64 := fmul (fmul (nth (n + g - 1) c f0) dc) (f_of_N maxdur).
Lemma delay_for_g_spec g : 1 <= g <= n -> delay_for_g dc c n g maxdur = Ok (delay_at g) /\ good_delay (delay_at g).
Proof.
  intros Hg. destruct (lookup_lt_is_Some_2 c (n + g - 1)) as [x Hx]; [lia|]. unfold delay_for_g, delay_at. rewrite (index_eq _ _ _ Hx), (nth_lookup_Some _ _ _ _ Hx). cbn [mbind outcome_bind].
  split; [reflexivity|]. apply delay_good; auto. exact (proj1 (Forall_lookup _ _) Hgenes _ _ Hx).
Qed.
(** The order of placement: at the scheduling time T, with the operations [before] placed, the candidates *)
Definition cand (before : list nat) (fin : nat -> N) (T : N) (i : nat) : Prop := ready before fin (limit_of T (delay_at (1 + length before))) i.
Definition moment (before : list nat) (fin : nat -> N) (prev t : N) : Prop := t = prev \/ ((prev < t)%N /\ exists i, i ∈ before /\ fin i = t).
Definition waited (before : list nat) (fin : nat -> N) (prev T : N) : Prop := moment before fin prev T /\ forall t i, moment before fin prev t -> (t < T)%N -> ~ cand before fin t i.
Definition chosen (before : list nat) (fin : nat -> N) (T : N) (i : nat) : Prop :=
  cand before fin T i /\ forall i', cand before fin T i' -> flt (gene c i') (gene c i) = true \/ (fle (gene c i') (gene c i) = true /\ i <= i').
Definition traced (done : list nat) (fin : nat -> N) (times : list N) : Prop :=
  length times = length done /\ forall before i after, done = before ++ i :: after ->
  exists T, times !! length before = Some T /\ waited before fin (List.last (take (length before) times) 0%N) T /\ chosen before fin T i.
Section Ext.
Context (before : list nat) (fin fin' : nat -> N) (Heq : forall i, scheduled before i -> fin' i = fin i).
Lemma cand_ext T i : cand before fin' T i <-> cand before fin T i.
Proof.
  unfold cand, ready. assert (E : ftv before fin' (jpred i) = ftv before fin (jpred i)) by (unfold ftv; destruct (decide _) as [H|H]; [apply Heq, H|reflexivity]). rewrite E. reflexivity.
Qed.
Lemma moment_ext prev t : moment before fin' prev t <-> moment before fin prev t.
Proof.
  unfold moment. split; (intros [H|(H & i & Hi & E)]; [left; exact H|right; split; [exact H|]; exists i; split; [exact Hi|]]).
  - rewrite <- Heq by (right; exact Hi). exact E.
  - rewrite Heq by (right; exact Hi). exact E.
Qed.
Lemma waited_ext prev T : waited before fin prev T -> waited before fin' prev T.
Proof.
  intros [A B]. split; [apply moment_ext, A|]. intros t i M L C. apply (B t i); [apply moment_ext, M|exact L|apply cand_ext, C].
Qed.
Lemma chosen_ext T i : chosen before fin T i -> chosen before fin' T i.
Proof. intros [A B]. split; [apply cand_ext, A|]. intros i' C. apply B, cand_ext, C. Qed.
End Ext.
Lemma traced_ext done fin fin' times : (forall i, scheduled done i -> fin' i = fin i) -> traced done fin times -> traced done fin' times.
Proof.
  intros Heq [L H]. split; [exact L|]. intros before i after E. destruct (H _ _ _ E) as (T & ET & W & C). exists T. split; [exact ET|].
  assert (Heq' : forall i, scheduled before i -> fin' i = fin i). { intros i' [->|Hi]; apply Heq; [left; reflexivity|right; rewrite E; apply elem_of_app; left; exact Hi]. }
  split; [exact (waited_ext _ _ _ Heq' _ _ W)|exact (chosen_ext _ _ _ Heq' _ _ C)].
Qed.
Lemma traced_snoc done fin times T j : traced done fin times -> waited done fin (List.last times 0%N) T -> chosen done fin T j -> traced (done ++ [j]) fin (times ++ [T]).
Proof.
  intros [L H] W C. split; [rewrite !app_length; cbn; lia|]. intros before i after E. destruct (snoc_split _ _ _ _ _ E) as [(-> & -> & ->)|(a' & -> & Ed)].
  - exists T. rewrite <- L. split; [rewrite lookup_app_r, Nat.sub_diag by lia; reflexivity|]. rewrite take_app. auto.
  - destruct (H _ _ _ Ed) as (T' & ET & W' & C'). exists T'. split; [apply lookup_app_l_Some; exact ET|].
    apply lookup_lt_Some in ET. rewrite take_app_le by lia. auto.
Qed.
Lemma waited_now before fin T : waited before fin T T.
Proof. split; [left; reflexivity|]. intros t i [->|[L _]] L2; [destruct (N.lt_irrefl _ L2)|destruct (N.lt_irrefl _ (N.lt_trans _ _ _ L L2))]. Qed.
(** No operation whose job predecessor is scheduled can start by [time] *)
Definition exhausted (done : list nat) (fin : nat -> N) (time : N) : Prop :=
  forall i, 1 <= i <= n -> i ∉ done -> scheduled done (jpred i) -> (time < fin (jpred i))%N.

Lemma schedule_feasibles_spec time : (time <= 2 ^ 53)%N -> forall k done fin s fs j times,
  inv done fin s -> length done < n -> good_delay (delay_at (1 + length done)) -> traced done fin times -> waited done fin (List.last times 0%N) time ->
  (forall i, i ∈ fs <-> cand done fin time i) ->
  (fs <> [] -> j ∈ fs /\ forall i, i ∈ fs -> flt (gene c i) (gene c j) = true \/ (fle (gene c i) (gene c j) = true /\ j <= i)) -> n - length done <= k ->
  exists s' fin' more times', (forall fuel, k <= fuel -> schedule_feasibles fuel dc c n maxdur time fs j s = Ok s') /\ inv (done ++ more) fin' s' /\
    (forall i, scheduled done i -> fin' i = fin i) /\ traced (done ++ more) fin' times' /\
    (length (done ++ more) = n \/ (exhausted (done ++ more) fin' time /\ waited (done ++ more) fin' (List.last times' 0%N) time /\ forall i, ~ cand (done ++ more) fin' time i)).
Proof.
  intros Ht. induction k as [|k IH]; intros done fin s fs j times I Hd Gd Tr Wt Hfs Hj Hk; [lia|]. set (delay := delay_at (1 + length done)) in *.
  destruct fs as [|i0 fs0] eqn:Efs.
  - exists s, fin, [], times. rewrite app_nil_r. split; [intros [|fuel] _; reflexivity|]. split; [exact I|]. split; [reflexivity|]. split; [exact Tr|]. right. split; [|split; [exact Wt|intros i Hc; apply Hfs, elem_of_nil in Hc; exact Hc]]. intros i Hi Hn Hs.
    destruct (N.lt_ge_cases time (fin (jpred i))) as [H|H]; [exact H|]. exfalso. apply (proj1 (elem_of_nil i)). apply Hfs.
    apply (ready_reached done fin time delay); assumption.
  - rewrite <- Efs in *. assert (Hne : fs <> []) by (rewrite Efs; discriminate). assert (Hr : ready done fin (limit_of time delay) j) by (apply Hfs, Hj; exact Hne).
    destruct (schedule_op_step done fin s j I (proj1 Hr) (proj1 (proj2 Hr))) as (s' & f & Es & I').
    { apply (ready_scheduled done fin time delay Ht Gd j Hr). }
    pose proof (done_len _ _ _ I') as Hdl. rewrite app_length in Hdl. cbn [length] in Hdl.
    assert (Keep : forall i, scheduled done i -> upd fin j f i = fin i).
    { intros i Hs. apply upd_other. intros ->. destruct Hr as (R & Hn & _). destruct Hs as [->|Hs]; [lia|contradiction]. }
    assert (Tr' : traced (done ++ [j]) (upd fin j f) (times ++ [time])).
    { apply traced_snoc; [exact (traced_ext _ _ _ _ Keep Tr)|exact (waited_ext _ _ _ Keep _ _ Wt)|]. apply (chosen_ext _ _ _ Keep). split; [exact Hr|]. intros i' C. apply (Hj Hne), Hfs, C. }
    assert (Unf : forall fuel, S k <= fuel -> schedule_feasibles fuel dc c n maxdur time fs j s =
      if decide (n < 1 + (length done + 1)) then Ok s' else delay ← delay_for_g dc c n (1 + (length done + 1)) maxdur; '(fs, j) ← update_feasibles c (s_ops s') (s_ft s') delay time; schedule_feasibles (fuel - 1) dc c n maxdur time fs j s').
    { intros [|fuel] Hf; [lia|]. rewrite Efs. cbn [schedule_feasibles]. rewrite Es. cbn [mbind outcome_bind]. rewrite (i_g _ _ _ I'), app_length. cbn [length]. rewrite Nat.sub_succ, Nat.sub_0_r. reflexivity. }
    destruct (decide (n < 1 + (length done + 1))) as [Hall|Hall].
    + exists s', (upd fin j f), [j], (times ++ [time]). split; [exact Unf|]. split; [exact I'|]. split; [exact Keep|]. split; [exact Tr'|]. left. rewrite app_length. cbn [length]. lia.
    + destruct (delay_for_g_spec (1 + (length done + 1)) ltac:(lia)) as (Ed & Gd').
      assert (Hd' : length (done ++ [j]) < n) by (rewrite app_length; cbn [length]; lia).
      destruct (update_feasibles_spec _ _ _ I' time _ Ht Gd' Hd' c Hlen Hgenes) as (fs' & j' & Eu & Hfs' & Hj').
      destruct (IH (done ++ [j]) (upd fin j f) s' fs' j' (times ++ [time]) I' Hd') as (s2 & fin2 & more & times2 & E2 & I2 & K2 & T2 & X2).
      { rewrite app_length. exact Gd'. } { exact Tr'. } { rewrite List.last_last. apply waited_now. } { unfold cand. rewrite app_length. exact Hfs'. } { exact Hj'. }
      { rewrite app_length. cbn [length]. lia. }
      exists s2, fin2, ([j] ++ more), times2. rewrite app_assoc. split; [|split; [exact I2|split; [|split; [exact T2|exact X2]]]].
      * intros fuel Hf. rewrite (Unf fuel Hf), Ed. cbn [mbind outcome_bind]. rewrite Eu. cbn [mbind outcome_bind]. apply E2. lia.
      * intros i Hs. rewrite K2; [apply Keep, Hs|]. destruct Hs as [->|Hs]; [left; reflexivity|right; apply elem_of_app; left; exact Hs].
Qed.

Definition later (done : list nat) (fin : nat -> N) (time : N) : nat := length (filter (fun i => (time < fin i)%N) done).
Lemma filter_length_le {A} (P Q : A -> Prop) `{forall x, Decision (P x), forall x, Decision (Q x)} l :
  (forall x, x ∈ l -> P x -> Q x) -> length (filter P l) <= length (filter Q l).
Proof.
  induction l as [|x l IH]; intros HPQ; [reflexivity|]. assert (IH' := IH ltac:(intros y Hy; apply HPQ; right; exact Hy)).
  rewrite !filter_cons. destruct (decide (P x)) as [HP|HP]; destruct (decide (Q x)) as [HQ|HQ]; cbn [length]; try lia.
  exfalso. apply HQ, HPQ; [left|exact HP].
Qed.
Lemma filter_length_lt {A} (P Q : A -> Prop) `{forall x, Decision (P x), forall x, Decision (Q x)} l y :
  (forall x, x ∈ l -> P x -> Q x) -> y ∈ l -> Q y -> ~ P y -> length (filter P l) < length (filter Q l).
Proof.
  induction l as [|x l IH]; intros HPQ Hy HQy HPy; [apply elem_of_nil in Hy; tauto|].
  assert (HPQ' : forall z, z ∈ l -> P z -> Q z) by (intros z Hz; apply HPQ; right; exact Hz).
  rewrite !filter_cons. apply elem_of_cons in Hy as [<-|Hy].
  - rewrite (decide_False (P := P y)), (decide_True (P := Q y)) by assumption. cbn [length]. pose proof (filter_length_le P Q l HPQ'). lia.
  - specialize (IH HPQ' Hy HQy HPy). destruct (decide (P x)) as [HP|HP]; destruct (decide (Q x)) as [HQ|HQ]; cbn [length]; try lia.
    exfalso. apply HQ, HPQ; [left|exact HP].
Qed.
Lemma schedule_all_spec : forall k done fin s time times, inv done fin s -> (length done < n -> (time <= 2 ^ 50)%N) ->
  traced done fin times -> (length done < n -> waited done fin (List.last times 0%N) time) ->
  2 * (n - length done) + later done fin time <= k ->
  exists s' done' fin', (forall fuel, k <= fuel -> schedule_all fuel dc c n maxdur time s = Ok s') /\ inv done' fin' s' /\ length done' = n /\ exists times', traced done' fin' times'.
Proof.
  induction k as [|k IH]; intros done fin s time times I Ht Tr Wt Hk; pose proof (done_len _ _ _ I) as Hdl.
  - exists s, done, fin. split; [|split; [exact I|split; [lia|exists times; exact Tr]]]. intros [|fuel] _; cbn [schedule_all]; rewrite (i_count _ _ _ I), decide_False by lia; reflexivity.
  - destruct (decide (1 + length done < n + 1)) as [Hlt|Hge].
    2:{ exists s, done, fin. split; [|split; [exact I|split; [lia|exists times; exact Tr]]]. intros [|fuel] _; cbn [schedule_all]; rewrite (i_count _ _ _ I), decide_False by lia; reflexivity. }
    assert (Hd : length done < n) by lia. specialize (Ht Hd). specialize (Wt Hd).
    destruct (delay_for_g_spec (1 + length done) ltac:(lia)) as (Ed & Gd).
    assert (Ht' : (time <= 2 ^ 53)%N) by lia.
    destruct (update_feasibles_spec _ _ _ I time _ Ht' Gd Hd c Hlen Hgenes) as (fs & j & Eu & Hfs & Hj).
    destruct (schedule_feasibles_spec time Ht' (S k) done fin s fs j times I Hd Gd Tr Wt Hfs Hj ltac:(lia)) as (s' & fin' & more & times' & Es & I' & K & Tr' & X).
    pose proof (done_len _ _ _ I') as Hdl'.
    assert (Hsink : usize_max ∈ s_ft s').
    { apply elem_of_list_lookup. exists (n + 1). rewrite (i_ft _ _ _ I' (n + 1)) by lia. unfold ftv. rewrite decide_False; [reflexivity|].
      intros [?|H]; [lia|]. pose proof (i_range _ _ _ I') as R. rewrite Forall_forall in R. specialize (R _ H). lia. }
    destruct (list_min_ex (List.filter (fun t => (time <? t)%N) (s_ft s')) usize_max) as (time' & Em).
    { apply elem_of_list_In, filter_In. split; [apply elem_of_list_In; exact Hsink|]. apply N.ltb_lt. assert ((2 ^ 50 < usize_max)%N) by reflexivity. lia. }
    assert (Unf : forall fuel, S k <= fuel -> schedule_all fuel dc c n maxdur time s = schedule_all (fuel - 1) dc c n maxdur time' s').
    { intros [|fuel] Hf; [lia|]. rewrite Nat.sub_succ, Nat.sub_0_r. cbn [schedule_all]. rewrite (i_count _ _ _ I), decide_True by exact Hlt. rewrite (i_g _ _ _ I), Ed. cbn [mbind outcome_bind]. rewrite Eu. cbn [mbind outcome_bind].
      rewrite (Es (S fuel) Hf). cbn [mbind outcome_bind]. rewrite Em. reflexivity. }
    assert (Fin : (exists s2 done2 fin2, (forall fuel, k <= fuel -> schedule_all fuel dc c n maxdur time' s' = Ok s2) /\ inv done2 fin2 s2 /\ length done2 = n /\ exists times2, traced done2 fin2 times2) ->
      exists s2 done2 fin2, (forall fuel, S k <= fuel -> schedule_all fuel dc c n maxdur time s = Ok s2) /\ inv done2 fin2 s2 /\ length done2 = n /\ exists times2, traced done2 fin2 times2).
    { intros (s2 & d2 & f2 & E & H). exists s2, d2, f2. split; [|exact H]. intros fuel Hf. rewrite (Unf fuel Hf). apply E. lia. }
    apply Fin. clear Unf Fin. apply list_min_Some in Em as [Hin Hmin]. apply elem_of_list_In, filter_In in Hin as [Hin Hlt']. apply N.ltb_lt in Hlt'.
    set (done' := done ++ more) in *. destruct (decide (length done' = n)) as [Hall|Hall].
    + apply (IH done' fin' s' time' times' I'); [lia|exact Tr'|lia|].
      assert (L : later done' fin' time' <= later done fin time + length more).
      { unfold later, done'. rewrite filter_app, app_length. apply Nat.add_le_mono; [|apply filter_length].
        transitivity (length (filter (fun i => (time < fin' i)%N) done)); [apply filter_length_le; intros; lia|].
        apply filter_length_le. intros i Hi. rewrite K by (right; exact Hi). auto. }
      unfold done' in *. rewrite app_length in *. lia.
    + destruct X as [X|(X & Wt' & Nc)]; [contradiction|]. assert (Hd' : length done' < n) by (pose proof (done_len _ _ _ I'); lia).
      destruct (some_next done' Hd') as (i & Hi & Hn & Hs). pose proof (X i Hi Hn Hs) as Hlate.
      assert (Hin' : fin' (jpred i) ∈ s_ft s').
      { apply elem_of_list_lookup. exists (jpred i). rewrite (i_ft _ _ _ I' (jpred i)) by (pose proof (jpred_lt i Hi); lia). unfold ftv. rewrite decide_True by exact Hs. reflexivity. }
      assert (Hle : (time' <= fin' (jpred i))%N). { apply Hmin. apply elem_of_list_In, filter_In. split; [apply elem_of_list_In; exact Hin'|]. apply N.ltb_lt. exact Hlate. }
      pose proof (inv_small _ _ _ I' _ Hs) as Hsm.
      assert (Hel : exists i0, i0 ∈ done' /\ fin' i0 = time').
      { apply elem_of_list_In, elem_of_list_lookup in Hin as [i0 Hi0]. assert (i0 < n + 2) by (rewrite <- (i_ftlen _ _ _ I'); apply lookup_lt_Some in Hi0; exact Hi0).
        rewrite (i_ft _ _ _ I' i0) in Hi0 by assumption. apply (inj Some) in Hi0. unfold ftv in Hi0. destruct (decide (scheduled done' i0)) as [Hs0|Hs0].
        - destruct Hs0 as [->|Hs0]; [rewrite (i_fin0 _ _ _ I') in Hi0; lia|]. exists i0. auto.
        - exfalso. rewrite <- Hi0 in Hle. assert ((2 ^ 50 < usize_max)%N) by reflexivity. lia. }
      destruct Hel as (i0 & Hi0 & E0).
      assert (Wt2 : waited done' fin' (List.last times' 0%N) time').
      { destruct Wt' as [Wa Wb]. assert (Hp : (List.last times' 0 <= time)%N) by (destruct Wa as [->|[? _]]; lia). split; [right; split; [lia|exists i0; auto]|].
        intros t i' M Hlt2. destruct (N.lt_trichotomy t time) as [Hc|[->|Hc]]; [apply Wb; assumption|apply Nc|]. exfalso.
        destruct M as [->|(_ & i2 & Hi2 & E2)]; [lia|]. assert (Hc2 : (time' <= fin' i2)%N); [|lia]. apply Hmin. apply elem_of_list_In, filter_In. split; [|apply N.ltb_lt; lia].
        apply elem_of_list_In, elem_of_list_lookup. exists i2. pose proof (i_range _ _ _ I') as R. rewrite Forall_forall in R. specialize (R _ Hi2). rewrite (i_ft _ _ _ I' i2) by lia. unfold ftv. rewrite decide_True by (right; exact Hi2). reflexivity. }
      apply (IH done' fin' s' time' times' I'); [intros; lia|exact Tr'|intros _; exact Wt2|].
      assert (L1 : later done' fin' time' < later done' fin' time) by (apply (filter_length_lt _ _ done' i0); [intros; lia|exact Hi0|lia|lia]).
      assert (L2 : later done' fin' time <= later done fin time + length more).
      { unfold later, done'. rewrite filter_app, app_length. apply Nat.add_le_mono; [|apply filter_length].
        apply filter_length_le. intros i' Hi'. rewrite K by (right; exact Hi'). auto. }
      unfold done' in *. rewrite app_length in *. lia.
Qed.
End Loops.
End Shop.
