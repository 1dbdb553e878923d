(** * Evaluating an individual of the job shop example *)
From Verif Require Export JsspKeepProofs.
Open Scope nat_scope.

Lemma repeat_lookup {A} (x : A) m i : i < m -> repeat x m !! i = Some x.
Proof. revert i. induction m as [|m IH]; intros [|i] H; cbn; [lia|lia|reflexivity|]. apply IH. lia. Qed.

(** ** Positions in a list *)
Fixpoint pos (l : list nat) (v : nat) : nat := match l with [] => 0 | x :: l => if decide (x = v) then 0 else S (pos l v) end.
Lemma pos_app a v b : v ∉ a -> pos (a ++ v :: b) v = length a.
Proof. induction a as [|x a IH]; intros H; cbn; [rewrite decide_True by reflexivity; reflexivity|]. apply not_elem_of_cons in H as [? ?]. rewrite decide_False by congruence. rewrite IH by assumption. reflexivity. Qed.
Lemma pos_lt l v : v ∈ l -> pos l v < length l.
Proof. induction l as [|x l IH]; intros H; [apply elem_of_nil in H; tauto|]. cbn. case_decide; [lia|]. apply elem_of_cons in H as [?|H]; [congruence|]. specialize (IH H). lia. Qed.
Lemma pos_before a v b w : NoDup (a ++ v :: b) -> w ∈ b -> pos (a ++ v :: b) v < pos (a ++ v :: b) w.
Proof.
  intros H Hw. assert (Hva : v ∉ a). { apply NoDup_app in H as (_ & H & _). intros K. apply (H v K). left. }
  rewrite pos_app by exact Hva. destruct (split_in b w Hw) as (b1 & b2 & -> & Hb1).
  replace (a ++ v :: b1 ++ w :: b2) with ((a ++ v :: b1) ++ w :: b2) in * by (rewrite <- app_assoc; reflexivity). rewrite pos_app; [rewrite app_length; cbn; lia|].
  apply NoDup_app in H as (_ & H & _). intros K. apply (H w K). left.
Qed.
Lemma next_filter (P : nat -> Prop) `{forall x, Decision (P x)} l v w : next (filter P l) v = Some w -> exists a b, l = a ++ v :: b /\ w ∈ b.
Proof.
  induction l as [|x l IH]; [discriminate|]. rewrite filter_cons. destruct (decide (P x)) as [HP|HP].
  - cbn [next]. destruct (decide (x = v)) as [->|Hx].
    + intros E. exists [], l. split; [reflexivity|]. destruct (filter P l) as [|y f] eqn:Ef; [discriminate|]. injection E as ->. assert (Hin : w ∈ filter P l) by (rewrite Ef; left). apply elem_of_list_filter in Hin. tauto.
    + intros E. destruct (IH E) as (a & b & -> & Hw). exists (x :: a), b. auto.
  - intros E. destruct (IH E) as (a & b & -> & Hw). exists (x :: a), b. auto.
Qed.

Section Eval.
Context (nm : nat) (jobs : shop) (V : valid_shop nm jobs) (dc : f64) (Hdc : is_delay_const dc).
Notation n := (n_tasks jobs).
Notation dur := (dur_of jobs).
Notation mach := (mach_of jobs).
Notation jpred := (jpred_of jobs).
Notation jsucc := (jsucc_of jobs).
Notation Inv := (inv n nm dur mach jpred jsucc (zero_edges jobs)).
Notation Shaped := (shaped n dur mach jpred jsucc (zero_edges jobs)).
Notation Orders := (orders n mach).
Notation Ranked := (ranked n mach jsucc (zero_edges jobs)).
Notation Solves := (solves n dur mach jsucc (zero_edges jobs)).
Notation nothing := (fun _ : nat => @nil nat).

Lemma fact_jpred_jsucc i : 1 <= i <= n -> jsucc i <= n -> jpred (jsucc i) = i.
Proof.
  intros Hi Hs. destruct (real_task jobs i Hi) as (j & k & m & d & T & E). destruct (fact_task jobs j k m d T) as (_ & _ & _ & _ & job & Hj & Hk & Es & _). rewrite <- E in *. rewrite Es in *.
  destruct (decide (S k = length job)) as [|H']; [lia|]. destruct (lookup_lt_is_Some_2 job (S k) ltac:(lia)) as [[m' d'] H2]. assert (T' : task jobs j (S k) m' d') by (exists job; auto).
  destruct (fact_task jobs j (S k) m' d' T') as (_ & _ & _ & Ep & _). rewrite op_number_S, <- E in Ep. rewrite Ep, decide_False by lia. lia.
Qed.
Lemma dur_small i : 1 <= i <= n -> (dur i <= 2 ^ 50)%N.
Proof.
  intros Hi. pose proof (total_sub n dur (fact_total_small nm jobs V) [i] (NoDup_singleton i) ltac:(constructor; [exact Hi|constructor])) as H. cbn in H. lia.
Qed.
Lemma shop_shaped : Shaped nothing (shop_ops jobs).
Proof.
  split; [apply shop_ops_length|]. split; [apply fact_static|]. intros i o Hi Ho. destruct (fact_linked jobs i o Hi Ho) as [A B]. split; [exact A|exact B].
Qed.
Lemma max_dur ops md : Shaped nothing ops -> list_max_N (map op_duration ops) = Some md -> (md <= 2 ^ 50)%N.
Proof.
  intros (L & S & _) E. apply list_max_Some in E as [Hin _]. change (map op_duration ops) with (op_duration <$> ops) in Hin. apply elem_of_list_fmap in Hin as (o & -> & Ho). apply elem_of_list_lookup in Ho as [i Ho].
  destruct (S i o Ho) as (_ & S1 & S2 & S3). assert (Hi : i < n + 2) by (rewrite <- L; apply lookup_lt_Some in Ho; exact Ho).
  destruct (decide (i = 0)) as [E0|E0]; [destruct (S2 E0) as [-> _]; lia|]. destruct (decide (i = n + 1)) as [E1|E1]; [destruct (S3 E1) as [-> _]; lia|].
  destruct (S1 ltac:(lia)) as [-> _]. apply dur_small. lia.
Qed.
Lemma initial_inv ops : Shaped nothing ops -> exists s0, initial_sched ops (repeat new_machine nm) n = Ok s0 /\ Inv [] (fun _ => 0%N) s0 /\ map op_duration (s_ops s0) = map op_duration ops.
Proof.
  intros (L & S & Lk). destruct (lookup_lt_is_Some_2 ops 0) as [o Ho]; [lia|]. unfold initial_sched. rewrite (index_eq _ _ _ Ho). cbn [mbind outcome_bind]. eexists. split; [reflexivity|].
  split; [|cbn [s_ops]; apply (map_insert_same op_duration _ 0 o _ Ho); reflexivity].
  assert (Old : forall i o', <[0 := set_finish (Some 0%N) o]> ops !! i = Some o' -> exists o0, ops !! i = Some o0 /\ op_id o' = op_id o0 /\ op_duration o' = op_duration o0 /\ op_machine o' = op_machine o0 /\ op_preds o' = op_preds o0 /\
     op_edges o' = op_edges o0 /\ op_mpred o' = op_mpred o0 /\ op_cp_edge o' = op_cp_edge o0 /\ (i = 0 -> op_finish o' = Some 0%N)).
  { intros i o' Ho'. destruct (decide (i = 0)) as [->|Hi].
    - rewrite list_lookup_insert in Ho' by lia. injection Ho' as <-. exists o. repeat split; auto.
    - rewrite list_lookup_insert_ne in Ho' by congruence. exists o'. repeat split; auto. intros; lia. }
  constructor; cbn [s_ops s_machines s_ft s_count s_g s_last length].
  - constructor.
  - constructor.
  - reflexivity.
  - rewrite insert_length. exact L.
  - intros i o' Ho'. destruct (Old i o' Ho') as (o0 & H0 & E1 & E2 & E3 & E4 & E5 & E6 & E7 & _). destruct (S i o0 H0) as (S1 & S2 & S3 & S4). unfold static. rewrite E1, E2, E3, E4, E5, E7. auto.
  - intros i o' Hi Ho'. destruct (Old i o' Ho') as (o0 & H0 & E1 & E2 & E3 & E4 & E5 & E6 & E7 & _). destruct (Lk i o0 Hi H0) as [A B]. split; [rewrite E5; exact A|rewrite E6; exact B].
  - intros i o' [->|H] Ho'; [|apply elem_of_nil in H; tauto]. destruct (Old 0 o' Ho') as (o0 & _ & _ & _ & _ & _ & _ & _ & _ & E). auto.
  - rewrite insert_length, repeat_length. reflexivity.
  - intros i Hi. unfold ftv. destruct (decide (i = 0)) as [->|H0].
    + rewrite list_lookup_insert by (rewrite repeat_length; lia). rewrite decide_True by (left; reflexivity). reflexivity.
    + rewrite list_lookup_insert_ne by congruence. rewrite decide_False by (intros [?|H]; [congruence|apply elem_of_nil in H; tauto]). apply repeat_lookup. exact Hi.
  - apply repeat_length.
  - intros m Hm. cbn. apply repeat_lookup. exact Hm.
  - reflexivity.
  - reflexivity.
  - intros i H. apply elem_of_nil in H. tauto.
  - left. reflexivity.
  - reflexivity.
  - intros before i after E. destruct before; discriminate.
Qed.

Definition scheduled_by (c : list f64) (ops : list operation) (s : sched) : Prop :=
  exists s0 md, initial_sched ops (repeat new_machine nm) n = Ok s0 /\ list_max_N (map op_duration (s_ops s0)) = Some md /\ forall fuel, 2 * n <= fuel -> schedule_all fuel dc c n md 0 s0 = Ok s.
Notation Traced := (traced n jpred).
Lemma schedule_spec_order c ops : genes_for jobs c -> Shaped nothing ops -> exists s done fin, scheduled_by c ops s /\ Inv done fin s /\ length done = n /\
  exists md times, list_max_N (map op_duration ops) = Some md /\ Traced dc c md done fin times.
Proof.
  intros [Lc Gc] Sh. destruct (initial_inv ops Sh) as (s0 & E0 & I0 & Ed).
  assert (Hne : map op_duration ops <> []). { destruct Sh as (L & _). destruct ops; [cbn in L; lia|discriminate]. }
  destruct (list_max_ex _ Hne) as (md & Emd). pose proof (max_dur ops md Sh Emd) as Hmd.
  destruct (schedule_all_spec n nm dur mach jpred jsucc (zero_edges jobs) (fact_jpred_lt jobs) (fact_mach_lt nm jobs V) (fact_total_small nm jobs V) dc c md Hdc Lc Gc Hmd (2 * n) [] (fun _ => 0%N) s0 0%N [] I0) as (s & done & fin & E & I & Ld & times & Tr).
  - intros _. lia.
  - split; [reflexivity|]. intros before i after E. destruct before; discriminate.
  - intros _. apply waited_now.
  - cbn [length later filter]. unfold later. cbn. lia.
  - exists s, done, fin. split; [|split; [exact I|split; [exact Ld|exists md, times; auto]]]. exists s0, md. rewrite Ed. auto.
Qed.
Lemma schedule_spec c ops : genes_for jobs c -> Shaped nothing ops -> exists s done fin, scheduled_by c ops s /\ Inv done fin s /\ length done = n.
Proof. intros G Sh. destruct (schedule_spec_order c ops G Sh) as (s & done & fin & A & B & C & _). exists s, done, fin. auto. Qed.

(** ** The decoded schedule *)
Section Decoded.
Context (done : list nat) (fin : nat -> N) (s : sched) (I : Inv done fin s) (Ld : length done = n).
Lemma done_range i : i ∈ done -> 1 <= i <= n.
Proof. intros H. pose proof (i_range _ _ _ _ _ _ _ _ _ _ I) as R. rewrite Forall_forall in R. exact (R i H). Qed.
Lemma done_all i : 1 <= i <= n -> i ∈ done.
Proof.
  intros Hi. destruct (decide (i ∈ done)) as [H|H]; [exact H|]. exfalso.
  assert (S : i :: done ⊆+ seq 1 n).
  { apply NoDup_submseteq; [constructor; [exact H|exact (i_nodup _ _ _ _ _ _ _ _ _ _ I)]|]. intros x [->|Hx]%elem_of_cons; apply elem_of_seq; [lia|pose proof (done_range x Hx); lia]. }
  apply submseteq_length in S. rewrite seq_length in S. cbn [length] in S. lia.
Qed.
Lemma done_split i : 1 <= i <= n -> exists before after, done = before ++ i :: after.
Proof. intros Hi. destruct (split_in done i (done_all i Hi)) as (a & b & E & _). eauto. Qed.
Lemma placed i : 1 <= i <= n -> (dur i <= fin i)%N /\ (fin (jpred i) <= fin i - dur i)%N.
Proof. intros Hi. destruct (done_split i Hi) as (a & b & E). destruct (i_greedy _ _ _ _ _ _ _ _ _ _ I a i b E) as (_ & G2 & (G3 & _) & _). auto. Qed.
Lemma disjoint i i' : 1 <= i <= n -> 1 <= i' <= n -> i <> i' -> mach i = mach i' -> (fin i <= fin i' - dur i')%N \/ (fin i' <= fin i - dur i)%N.
Proof.
  intros Hi Hi' Hne Em. destruct (done_split i Hi) as (a & b & E). pose proof (done_all i' Hi') as Hin. rewrite E in Hin. apply elem_of_app in Hin as [Hin|Hin].
  - destruct (i_greedy _ _ _ _ _ _ _ _ _ _ I a i b E) as (_ & G2 & (_ & G3) & _). destruct (G3 i' Hin (eq_sym Em)) as [H|H]; [left; lia|right; exact H].
  - apply elem_of_cons in Hin as [?|Hin]; [congruence|]. destruct (split_in b i' Hin) as (b1 & b2 & -> & _).
    replace (a ++ i :: b1 ++ i' :: b2) with ((a ++ i :: b1) ++ i' :: b2) in E by (rewrite <- app_assoc; reflexivity).
    destruct (i_greedy _ _ _ _ _ _ _ _ _ _ I _ i' b2 E) as (_ & G2 & (_ & G3) & _). destruct (G3 i ltac:(apply elem_of_app; right; left) Em) as [H|H]; [right; lia|left; exact H].
Qed.
Definition start_of (j k : nat) : N := (fin (op_number jobs j k) - dur (op_number jobs j k))%N.
Lemma decoded_feasible : feasible jobs start_of.
Proof.
  split.
  - intros j k m d m' d' T T'. destruct (fact_task jobs j k m d T) as (Hi & Ed & _). destruct (fact_task jobs j (S k) m' d' T') as (Hi' & Ed' & _ & Ep & _). rewrite decide_False in Ep by lia. rewrite op_number_S in *.
    assert (Ep' : jpred (op_number jobs j k + 1) = op_number jobs j k) by lia. destruct (placed _ Hi) as [P1 _]. destruct (placed _ Hi') as [_ P2]. rewrite Ep' in P2. unfold start_of. rewrite op_number_S, <- Ed. lia.
  - intros j k j' k' m d d' T T' Hne. destruct (fact_task jobs j k m d T) as (Hi & Ed & Em & _). destruct (fact_task jobs j' k' m d' T') as (Hi' & Ed' & Em' & _).
    assert (op_number jobs j k <> op_number jobs j' k') by (intros E; apply Hne; destruct (task_number_inj jobs _ _ _ _ _ _ _ _ T T' E) as [-> ->]; reflexivity).
    destruct (placed _ Hi) as [P1 _]. destruct (placed _ Hi') as [P1' _]. unfold start_of. destruct (disjoint _ _ Hi Hi' H ltac:(congruence)) as [D|D]; rewrite <- Ed, <- Ed'; [left|right]; lia.
Qed.
Lemma decoded_makespan : has_makespan jobs start_of (s_last s).
Proof.
  split.
  - intros j k m d T. destruct (fact_task jobs j k m d T) as (Hi & Ed & _). destruct (placed _ Hi) as [P1 _]. unfold start_of. rewrite <- Ed. pose proof (i_last_ge _ _ _ _ _ _ _ _ _ _ I _ (done_all _ Hi)). lia.
  - assert (E : exists i, 1 <= i <= n /\ fin i = s_last s).
    { destruct (i_last_in _ _ _ _ _ _ _ _ _ _ I) as [E|(i & Hi & E)]; [|exists i; split; [apply done_range, Hi|exact E]].
      pose proof (fact_n_pos nm jobs V) as Hn. exists 1. split; [lia|]. pose proof (i_last_ge _ _ _ _ _ _ _ _ _ _ I _ (done_all 1 ltac:(lia))). lia. }
    destruct E as (i & Hi & E). destruct (real_task jobs i Hi) as (j & k & m & d & T & ->). exists j, k, m, d. split; [exact T|]. destruct (fact_task jobs j k m d T) as (_ & Ed & _). unfold start_of. rewrite <- Ed, <- E.
    destruct (placed _ Hi). lia.
Qed.

(** ** The machine orders of the decoded schedule *)
Definition chains (m : nat) : list nat := on mach m done.
Definition chain_rank (v : nat) : nat := if decide (v = 0) then n + 2 else if decide (v <= n) then n + 1 - pos done v else 0.
Lemma chains_orders : Orders chains.
Proof. intros m. split; [apply on_nodup, (i_nodup _ _ _ _ _ _ _ _ _ _ I)|]. intros i. unfold chains. rewrite on_in. split; [intros [H1 H2]; split; [apply done_range, H2|exact H1]|]. intros [H1 H2]. split; [exact H2|apply done_all, H1]. Qed.
Lemma chains_ranked : Ranked chains chain_rank.
Proof.
  intros v e He. assert (Later : forall a v b w, done = a ++ v :: b -> w ∈ b -> chain_rank w < chain_rank v).
  { intros a v0 b w E Hw. assert (Hv0 : 1 <= v0 <= n) by (apply done_range; rewrite E; apply elem_of_app; right; left). assert (Hwr : 1 <= w <= n) by (apply done_range; rewrite E; apply elem_of_app; right; right; exact Hw).
    unfold chain_rank. rewrite !(decide_False (P := _ = 0)) by lia. rewrite !decide_True by lia. pose proof (i_nodup _ _ _ _ _ _ _ _ _ _ I) as Nd. rewrite E in Nd. pose proof (pos_before a v0 b w Nd Hw). rewrite <- E in *.
    pose proof (pos_lt done w (done_all w Hwr)). lia. }
  unfold succs in He. destruct (decide (v = 0)) as [->|H0].
  - destruct (fact_zedges_ok nm jobs V e He) as [_ Hr]. unfold chain_rank at 2. rewrite decide_True by reflexivity. unfold chain_rank. rewrite decide_False by lia. rewrite decide_True by lia. lia.
  - destruct (decide (v <= n)) as [Hv|Hv]; [|apply elem_of_nil in He; tauto]. apply elem_of_cons in He as [->|He].
    + cbn [neigh_id]. pose proof (fact_jsucc_gt jobs v ltac:(lia)) as Hg. destruct (decide (jsucc v <= n)) as [Hs|Hs].
      * destruct (done_split (jsucc v) ltac:(lia)) as (a & b & E). destruct (i_greedy _ _ _ _ _ _ _ _ _ _ I a _ b E) as (G & _). rewrite fact_jpred_jsucc in G by lia. destruct G as [?|G]; [lia|].
        destruct (split_in a v G) as (a1 & a2 & -> & _). rewrite <- app_assoc in E. cbn [app] in E. apply (Later _ _ _ _ E). apply elem_of_app. right. left.
      * unfold chain_rank. rewrite (decide_False (P := jsucc v = 0)), (decide_False (P := jsucc v <= n)), (decide_False (P := v = 0)), (decide_True (P := v <= n)) by lia. pose proof (pos_lt done v (done_all v ltac:(lia))). lia.
    + destruct (next (chains (mach v)) v) as [w|] eqn:En; cbn in He; [|apply elem_of_nil in He; tauto]. apply elem_of_list_singleton in He as ->. cbn [neigh_id].
      unfold chains, on in En. apply next_filter in En as (a & b & E & Hw). exact (Later _ _ _ _ E Hw).
Qed.
Lemma chains_shaped : Shaped chains (s_ops s).
Proof. split; [exact (i_len _ _ _ _ _ _ _ _ _ _ I)|]. split; [exact (i_static _ _ _ _ _ _ _ _ _ _ I)|exact (i_linked _ _ _ _ _ _ _ _ _ _ I)]. Qed.
End Decoded.

(** ** The schedule of a plan *)
Section Planned.
Context (chain : nat -> list nat) (rank : nat -> nat) (D : nat -> N) (O : Orders chain) (R : Ranked chain rank) (S : Solves chain D).
Definition late_start (j k : nat) : N := (D 0%nat - D (op_number jobs j k))%N.
Notation fpos := (fact_n_pos nm jobs V).
Notation flast := (fact_jsucc_last nm jobs V).
Notation ftot := (fact_total_small nm jobs V).
Lemma plan_job i : 1 <= i <= n -> (dur i + D (jsucc i) <= D i)%N.
Proof. apply (D_job n dur mach jsucc (zero_edges jobs) fpos flast ftot chain D S). Qed.
Lemma plan_le i : 1 <= i <= n -> (dur i <= D i)%N /\ (D i <= D 0%nat)%N.
Proof.
  intros Hi. split; [pose proof (plan_job i Hi); lia|].
  exact (D_le_0 n dur mach jpred jsucc (zero_edges jobs) fpos (fact_zedges_first jobs) (fact_jpred_lt jobs) (fact_jsucc_jpred jobs) flast ftot chain D S i Hi).
Qed.
Lemma plan_feasible : feasible jobs late_start.
Proof.
  split.
  - intros j k m d m' d' T T'. destruct (fact_task jobs j k m d T) as (Hi & Ed & _ & _ & job & Hj & Hk & Es & _). destruct (fact_task jobs j (Datatypes.S k) m' d' T') as (Hi' & Ed' & _).
    rewrite decide_False in Es. 2: { destruct T' as (job' & Hj' & Hk'). rewrite Hj in Hj'. injection Hj' as <-. apply lookup_lt_Some in Hk'. lia. }
    pose proof (plan_job _ Hi) as P. rewrite Es, Ed in P. destruct (plan_le _ Hi). unfold late_start. rewrite op_number_S in *. lia.
  - intros j k j' k' m d d' T T' Hne. destruct (fact_task jobs j k m d T) as (Hi & Ed & Em & _). destruct (fact_task jobs j' k' m d' T') as (Hi' & Ed' & Em' & _).
    assert (H : op_number jobs j k <> op_number jobs j' k') by (intros E; apply Hne; destruct (task_number_inj jobs _ _ _ _ _ _ _ _ T T' E) as [-> ->]; reflexivity).
    destruct (plan_le _ Hi). destruct (plan_le _ Hi'). unfold late_start.
    destruct (D_machine n dur mach jsucc (zero_edges jobs) fpos flast ftot chain D O S _ _ Hi Hi' H ltac:(congruence)) as [P|P]; [left|right]; lia.
Qed.
Lemma plan_makespan : has_makespan jobs late_start (D 0%nat).
Proof.
  split.
  - intros j k m d T. destruct (fact_task jobs j k m d T) as (Hi & Ed & _). destruct (plan_le _ Hi). unfold late_start. lia.
  - destruct (D_last n dur mach jsucc (zero_edges jobs) fpos (fact_zedges_ne nm jobs V) (fact_zedges_ok nm jobs V) (fact_jsucc_gt jobs) flast ftot chain rank D O R S) as (i & Hi & E).
    destruct (real_task jobs i Hi) as (j & k & m & d & T & ->). exists j, k, m, d. split; [exact T|]. destruct (fact_task jobs j k m d T) as (_ & Ed & _). destruct (plan_le _ Hi). unfold late_start. lia.
Qed.
End Planned.
End Eval.
