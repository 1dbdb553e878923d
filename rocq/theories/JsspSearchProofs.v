(** * The result of the local search of the job shop example is a local optimum *)
From Verif Require Export JsspOrderProofs.
Open Scope nat_scope.

Section Search.
Context (nm : nat) (jobs : shop) (V : valid_shop nm jobs).
Notation n := (n_tasks jobs).
Notation dur := (dur_of jobs).
Notation mach := (mach_of jobs).
Notation jpred := (jpred_of jobs).
Notation jsucc := (jsucc_of jobs).
Notation name := (name_of jobs).
Notation Orders := (orders n mach).
Notation Ranked := (ranked n mach jsucc (zero_edges jobs)).
Notation Solves := (solves n dur mach jsucc (zero_edges jobs)).
Notation Shaped := (shaped n dur mach jpred jsucc (zero_edges jobs)).
Notation fpos := (fact_n_pos nm jobs V).
Notation flast := (fact_jsucc_last nm jobs V).
Notation ftot := (fact_total_small nm jobs V).
Definition seqs_of (chain : nat -> list nat) (m : nat) : list (nat * nat) := map name (chain m).

Lemma name_task i : 1 <= i <= n -> task jobs (name i).1 (name i).2 (mach i) (dur i) /\ op_number jobs (name i).1 (name i).2 = i.
Proof. intros Hi. destruct (real_task jobs i Hi) as (j & k & m & d & T & ->). rewrite (name_number jobs _ _ _ _ T). cbn [fst snd]. destruct (fact_task jobs _ _ _ _ T) as (_ & -> & -> & _). auto. Qed.
Lemma name_inj i i' : 1 <= i <= n -> 1 <= i' <= n -> name i = name i' -> i = i'.
Proof. intros Hi Hi' E. rewrite <- (proj2 (name_task i Hi)), <- (proj2 (name_task i' Hi')), E. reflexivity. Qed.
Lemma task_det j k m d m' d' : task jobs j k m d -> task jobs j k m' d' -> m = m' /\ d = d'.
Proof. intros (job & A & B) (job' & A' & B'). rewrite A in A'. injection A' as <-. rewrite B in B'. injection B' as -> ->. auto. Qed.
Lemma duration_eq i : 1 <= i <= n -> duration jobs (name i) = dur i.
Proof. intros Hi. destruct (name_task i Hi) as [(job & A & B) _]. unfold duration. rewrite A, B. reflexivity. Qed.
Lemma succ_name i : 1 <= i <= n -> 1 <= jsucc i <= n -> name (jsucc i) = ((name i).1, S (name i).2).
Proof.
  intros Hi Hs. destruct (real_task jobs i Hi) as (j & k & m & d & T & ->). rewrite (name_number jobs _ _ _ _ T). cbn [fst snd]. destruct (fact_task jobs _ _ _ _ T) as (_ & _ & _ & _ & job & Hj & Hk & Es & _).
  destruct (decide (S k = length job)) as [E|E]; [lia|]. destruct (lookup_lt_is_Some_2 job (S k)) as [[m' d'] H']; [lia|]. assert (T' : task jobs j (S k) m' d') by (exists job; auto).
  rewrite <- (name_number jobs _ _ _ _ T'). f_equal. rewrite Es, op_number_S. reflexivity.
Qed.
Lemma last_name i : 1 <= i <= n -> jsucc i = n + 1 -> forall m d, ~ task jobs (name i).1 (S (name i).2) m d.
Proof.
  intros Hi Hs m' d' T'. destruct (real_task jobs i Hi) as (j & k & m & d & T & ->). rewrite (name_number jobs _ _ _ _ T) in T'. cbn [fst snd] in T'. destruct (fact_task jobs _ _ _ _ T) as (_ & _ & _ & _ & job & Hj & Hk & Es & _).
  rewrite decide_False in Es; [rewrite Es in Hs; destruct (fact_task jobs _ _ _ _ T') as (Hr & _); rewrite op_number_S in Hr; lia|]. intros E. destruct T' as (job' & A & B). rewrite Hj in A. injection A as <-. apply lookup_lt_Some in B. lia.
Qed.

Section Orders.
Context (chain : nat -> list nat) (O : Orders chain).
Lemma chain_real m i : i ∈ chain m -> 1 <= i <= n /\ mach i = m.
Proof. apply O. Qed.
Lemma seqs_orders : machine_orders jobs (seqs_of chain).
Proof.
  intros m. split.
  - change (NoDup (name <$> chain m)). apply NoDup_fmap_2_strong; [|apply O]. intros i i' Hi Hi' E. apply chain_real in Hi as [Hi _], Hi' as [Hi' _]. exact (name_inj i i' Hi Hi' E).
  - intros j k. split.
    + intros H. change (seqs_of chain m) with (name <$> chain m) in H. apply elem_of_list_fmap in H as (i & E & Hi). apply chain_real in Hi as [Hi <-]. destruct (name_task i Hi) as [T _]. rewrite <- E in T. eauto.
    + intros (d & T). destruct (fact_task jobs _ _ _ _ T) as (Hi & _ & Em & _). change (seqs_of chain m) with (name <$> chain m). apply elem_of_list_fmap. exists (op_number jobs j k). rewrite (name_number jobs _ _ _ _ T). split; [reflexivity|]. apply O. auto.
Qed.
Lemma seqs_next m before j k j' k' after : seqs_of chain m = before ++ (j, k) :: (j', k') :: after ->
  exists i i', name i = (j, k) /\ name i' = (j', k') /\ 1 <= i <= n /\ 1 <= i' <= n /\ mach i = m /\ next (chain m) i = Some i'.
Proof.
  intros E. apply map_eq_app in E as (b & r & Ec & _ & Er). destruct r as [|i [|i' r]]; [discriminate|discriminate|]. injection Er as E1 E2 _. exists i, i'. split; [exact E1|]. split; [exact E2|].
  assert (Hi : i ∈ chain m) by (rewrite Ec; apply elem_of_app; right; left). assert (Hi' : i' ∈ chain m) by (rewrite Ec; apply elem_of_app; right; right; left).
  apply chain_real in Hi as [Hi Hm], Hi' as [Hi' _]. split; [exact Hi|]. split; [exact Hi'|]. split; [exact Hm|]. rewrite Ec, next_app; [reflexivity|]. destruct (O m) as [Nd _]. rewrite Ec in Nd. apply NoDup_app in Nd as (_ & Nd & _). intros H. apply (Nd i H). left.
Qed.
Lemma seqs_stores x : Shaped chain (j_ops x) -> stores jobs x (seqs_of chain).
Proof.
  intros (L & St & Lk) j k m d T. destruct (fact_task jobs _ _ _ _ T) as (Hi & _ & Em & _). destruct (lookup_lt_is_Some_2 (j_ops x) (op_number jobs j k)) as [o Ho]; [lia|]. exists o. split; [exact Ho|].
  destruct (Lk _ _ Hi Ho) as [Ee _]. rewrite Em in Ee. intros t. rewrite Ee. split.
  - intros H. apply elem_of_cons in H as [H|H]; [discriminate|]. destruct (next (chain m) (op_number jobs j k)) as [w|] eqn:En; cbn [machine_edge] in H; [|apply elem_of_nil in H; tauto].
    apply elem_of_list_singleton in H. injection H as ->. destruct (next_split _ _ _ En) as (a & b & Ec & _). assert (Hw : 1 <= w <= n) by (apply (chain_real m w); rewrite Ec; apply elem_of_app; right; right; left).
    exists (map name a), (name w).1, (name w).2, (map name b). split; [|symmetry; apply (name_task w Hw)]. unfold seqs_of. rewrite Ec, map_app. cbn [map]. rewrite (name_number jobs _ _ _ _ T). destruct (name w); reflexivity.
  - intros (before & j' & k' & after & E & ->). destruct (seqs_next _ _ _ _ _ _ _ E) as (i & i' & E1 & E2 & R1 & R2 & Mi & En). assert (i = op_number jobs j k) as <-. { rewrite <- (proj2 (name_task i R1)), E1. reflexivity. }
    rewrite En. cbn [machine_edge]. right. apply elem_of_list_singleton. f_equal. rewrite <- (proj2 (name_task i' R2)), E2. reflexivity.
Qed.

Section Solved.
Context (rank : nat -> nat) (D : nat -> N) (R : Ranked chain rank) (S : Solves chain D).
Lemma late_follows : follows jobs (seqs_of chain) (late_start jobs D).
Proof.
  split; [apply (plan_feasible nm jobs V chain D O S)|]. intros m before j k j' k' after d E T. destruct (seqs_next _ _ _ _ _ _ _ E) as (i & i' & E1 & E2 & R1 & R2 & Mi & En).
  destruct (name_task i R1) as [T1 N1]. rewrite E1 in T1, N1. cbn [fst snd] in *. destruct (task_det _ _ _ _ _ _ T T1) as [_ ->]. destruct (name_task i' R2) as [_ N2]. rewrite E2 in N2. cbn [fst snd] in *.
  unfold late_start. rewrite N1, N2. rewrite <- Mi in En. pose proof (D_next n dur mach jsucc (zero_edges jobs) fpos flast ftot chain D S i i' R1 En). pose proof (plan_le nm jobs V chain D S i R1). lia.
Qed.
Lemma follows_bound start t : follows jobs (seqs_of chain) start -> has_makespan jobs start t -> forall r v, rank v < r -> 1 <= v <= n -> (start (name v).1 (name v).2 + D v <= t)%N.
Proof.
  intros [F1 F2] [M _]. induction r as [|r IH]; intros v Hr Hv; [lia|]. destruct (name_task v Hv) as [Tv _].
  destruct (max_dist_in n dur jsucc fpos flast ftot D (succs n mach jsucc (zero_edges jobs) chain v)) as (e & He & E); [apply (succs_ne n mach jsucc (zero_edges jobs) (fact_zedges_ne nm jobs V) chain v); lia|].
  pose proof (S v) as Dv. rewrite E in Dv. unfold vdur in Dv. rewrite decide_True in Dv by exact Hv. pose proof (R v e He) as Hrk.
  unfold succs in He. rewrite decide_False in He by lia. rewrite decide_True in He by lia. apply elem_of_cons in He as [->|He].
  - cbn [neigh_id] in *. destruct (fact_jsucc_gt jobs v Hv) as [G1 G2]. destruct (decide (jsucc v = n + 1)) as [Es|Es].
    + rewrite Es in Dv. rewrite (S (n + 1)), (succs_sink n dur mach jsucc (zero_edges jobs) fpos flast ftot) in Dv. unfold vdur in Dv. rewrite decide_False in Dv by lia. cbn [max_dist] in Dv. specialize (M _ _ _ _ Tv). lia.
    + pose proof (IH (jsucc v) ltac:(lia) ltac:(lia)) as IH'. clear IH. destruct (name_task (jsucc v) ltac:(lia)) as [Ts _]. pose proof (succ_name v Hv ltac:(lia)) as Esn. rewrite Esn in IH', Ts. cbn [fst snd] in *. specialize (F1 _ _ _ _ _ _ Tv Ts). lia.
  - destruct (next (chain (mach v)) v) as [w|] eqn:En; cbn [machine_edge] in He; [|apply elem_of_nil in He; tauto]. apply elem_of_list_singleton in He as ->. cbn [neigh_id] in *.
    destruct (next_split _ _ _ En) as (a & b & Ec & _). assert (Hw : 1 <= w <= n) by (apply (chain_real (mach v) w); rewrite Ec; apply elem_of_app; right; right; left).
    specialize (IH w ltac:(lia) Hw). specialize (F2 (mach v) (map name a) (name v).1 (name v).2 (name w).1 (name w).2 (map name b) (dur v)).
    assert (Es : seqs_of chain (mach v) = map name a ++ ((name v).1, (name v).2) :: ((name w).1, (name w).2) :: map name b). { unfold seqs_of. rewrite Ec, map_app. cbn [map]. destruct (name v), (name w). reflexivity. }
    specialize (F2 Es Tv). lia.
Qed.
Lemma seqs_makespan : orders_makespan jobs (seqs_of chain) (D 0).
Proof.
  split; [exists (late_start jobs D); split; [exact late_follows|exact (plan_makespan nm jobs V chain rank D O R S)]|].
  intros start t F M. destruct (max_dist_in n dur jsucc fpos flast ftot D (succs n mach jsucc (zero_edges jobs) chain 0)) as (e & He & E); [apply (succs_ne n mach jsucc (zero_edges jobs) (fact_zedges_ne nm jobs V) chain 0); lia|].
  pose proof (S 0) as D0. rewrite E in D0. unfold vdur in D0. rewrite decide_False in D0 by lia. unfold succs in He. rewrite decide_True in He by reflexivity. destruct (fact_zedges_ok nm jobs V e He) as [_ Hr].
  pose proof (follows_bound start t F M (Datatypes.S (rank (neigh_id e))) (neigh_id e) ltac:(lia) Hr). lia.
Qed.
End Solved.

(** ** Exchanges *)
Lemma seqs_exchanged u v : next (chain (mach u)) u = Some v -> exchanged (name u) (name v) (seqs_of chain) (seqs_of (swap_chain u v chain)).
Proof.
  intros En. destruct (next_split _ _ _ En) as (a & b & Ec & _). exists (mach u), (map name a), (map name b). unfold seqs_of. rewrite (swap_chain_at n mach chain u v a b O Ec), decide_True by reflexivity. rewrite Ec, !map_app. split; [reflexivity|]. split; [reflexivity|].
  intros m' Hm. rewrite (swap_chain_at n mach chain u v a b O Ec), decide_False by exact Hm. reflexivity.
Qed.
End Orders.
Lemma no_gain_exchange chain D u v : Orders chain -> next (chain (mach u)) u = Some v -> no_gain n dur mach jsucc (zero_edges jobs) chain D u v ->
  exists seqs' t', exchanged (name u) (name v) (seqs_of chain) seqs' /\ orders_makespan jobs seqs' t' /\ (D 0%nat <= t')%N.
Proof.
  intros O En (rank' & D' & O' & R' & S' & Hle). exists (seqs_of (swap_chain u v chain)), (D' 0). split; [exact (seqs_exchanged chain O u v En)|]. split; [|exact Hle].
  exact (seqs_makespan _ O' rank' D' R' S').
Qed.

(** ** The critical path *)
Section Path.
Context (chain : nat -> list nat) (D : nat -> N) (O : Orders chain).
Notation Route := (route n dur mach jsucc chain D).
Lemma block_segment l : l <> [] -> (forall i, i ∈ l -> 1 <= i <= n) -> critical_block dur mach chain D l -> exists a b, chain (mach (hd 0 l)) = a ++ l ++ b.
Proof.
  induction l as [|u l IH]; [congruence|]. intros _ Hr Cb. cbn [hd]. destruct l as [|v l].
  - assert (Hu : u ∈ chain (mach u)) by (apply O; split; [apply Hr; left|reflexivity]). destruct (split_in _ _ Hu) as (a & b & E & _). exists a, b. exact E.
  - destruct (Cb [] u v l eq_refl) as [En _]. destruct (pair_real n mach chain u v O En) as (_ & _ & Em). destruct IH as (a & b & E); [discriminate|intros i Hi; apply Hr; right; exact Hi|intros x u' v' y E; apply (Cb (u :: x) u' v' y); rewrite E; reflexivity|].
    cbn [hd] in E. rewrite Em in E. destruct (next_split _ _ _ En) as (a' & b' & Ec & _). destruct (O (mach u)) as [Nd _].
    assert (a = a' ++ [u]) as ->.
    { rewrite Ec in E. assert (Nd1 := Nd). rewrite Ec in Nd1. clear -E Nd1. change (a' ++ u :: v :: b') with (a' ++ [u] ++ v :: b') in E, Nd1. rewrite app_assoc in E, Nd1. cbn [app] in E. revert E Nd1. generalize (a' ++ [u]) as c. intros c E Nd. clear a' u. revert a E. induction c as [|x c IH]; intros a E.
      - destruct a as [|y a]; [reflexivity|]. cbn in E. injection E as -> E. exfalso. cbn in Nd. apply NoDup_cons in Nd as [Nd _]. apply Nd. rewrite E. apply elem_of_app. right. left.
      - destruct a as [|y a].
        + cbn in E. injection E as -> E. exfalso. cbn in Nd. apply NoDup_cons in Nd as [Nd _]. apply Nd. apply elem_of_app. right. left.
        + cbn in E, Nd. injection E as -> E. apply NoDup_cons in Nd as [_ Nd]. f_equal. exact (IH Nd a E). }
    exists a', b. rewrite E, <- app_assoc. reflexivity.
Qed.
Definition work (l : list nat) : N := foldr (fun i acc => (dur i + acc)%N) 0%N l.
Lemma work_app a b : work (a ++ b) = (work a + work b)%N.
Proof. induction a as [|x a IH]; [reflexivity|]. cbn [app work foldr] in *. unfold work in *. cbn [foldr]. rewrite IH. lia. Qed.
Lemma route_facts v cur bs : Route v cur bs -> (forall i, i ∈ cur -> 1 <= i <= n) ->
  (forall b i, b ∈ bs -> i ∈ b -> 1 <= i <= n) /\ (forall b, b ∈ bs -> b <> []) /\ (1 <= v <= n \/ v = n + 1 /\ cur = [] /\ bs = []) /\
  (1 <= v <= n -> exists b bs', bs = (cur ++ v :: b) :: bs') /\ work (concat bs) = (work cur + D v)%N /\
  (forall q b b', bs !! q = Some b -> bs !! S q = Some b' -> exists u, last b = Some u /\ 1 <= jsucc u <= n /\ head b' = Some (jsucc u)) /\
  (forall u, last (concat bs) = Some u -> jsucc u = n + 1).
Proof.
  intros H. induction H as [D0|v cur bs Hv HD H IH|v w cur bs Hv Cp H IH]; intros Hc.
  - split; [intros b i Hb; apply elem_of_nil in Hb; tauto|]. split; [intros b Hb; apply elem_of_nil in Hb; tauto|]. split; [right; auto|]. split; [lia|]. split; [cbn; lia|]. split; [intros q b b' Hq; destruct q; discriminate|discriminate].
  - destruct (IH ltac:(intros i Hi; apply elem_of_nil in Hi; tauto)) as (A & A1 & B & C & E & F & G). clear IH. split; [|split; [|split; [|split; [|split; [|split]]]]].
    + intros b i [->|Hb]%elem_of_cons Hi; [|exact (A b i Hb Hi)]. apply elem_of_app in Hi as [Hi|Hi]; [exact (Hc i Hi)|]. apply elem_of_list_singleton in Hi as ->. exact Hv.
    + intros b [->|Hb]%elem_of_cons; [destruct cur; discriminate|exact (A1 b Hb)].
    + left. exact Hv.
    + intros _. exists [], bs. reflexivity.
    + cbn [concat]. rewrite work_app, E, work_app, HD. cbn [work foldr]. lia.
    + intros q b b' Hq Hq'. destruct q as [|q]; [|exact (F q b b' Hq Hq')]. cbn in Hq, Hq'. injection Hq as <-. exists v. rewrite stdpp.list.last_snoc. split; [reflexivity|].
      destruct B as [B|(_ & _ & ->)]; [|discriminate]. split; [exact B|]. destruct (C B) as (b & bs' & ->). cbn in Hq'. injection Hq' as <-. reflexivity.
    + intros u Hu. cbn [concat] in Hu. destruct B as [B|(B & _ & ->)].
      * apply G. destruct (C B) as (b & bs' & ->). revert Hu. cbn [concat app]. rewrite last_app. cbn [last]. destruct (last (jsucc v :: b ++ concat bs')) eqn:El; [auto|]. apply last_None in El. discriminate.
      * cbn [concat] in Hu. rewrite app_nil_r, stdpp.list.last_snoc in Hu. injection Hu as <-. exact B.
  - assert (Hc' : forall i, i ∈ cur ++ [v] -> 1 <= i <= n). { intros i Hi. apply elem_of_app in Hi as [Hi|Hi]; [exact (Hc i Hi)|]. apply elem_of_list_singleton in Hi as ->. exact Hv. }
    destruct (IH Hc') as (A & A1 & B & C & E & F & G). clear IH. destruct Cp as [En HD]. destruct (pair_real n mach chain v w O En) as (_ & Hw & _).
    split; [exact A|]. split; [exact A1|]. split; [left; exact Hv|]. split; [|split; [|split; [exact F|exact G]]].
    + intros _. destruct (C Hw) as (b & bs' & ->). exists (w :: b), bs'. rewrite <- app_assoc. reflexivity.
    + rewrite E, work_app, HD. cbn [work foldr]. lia.
Qed.
Lemma seqs_path blocks : critical_route n dur mach jsucc (zero_edges jobs) chain D blocks -> Forall (critical_block dur mach chain D) blocks ->
  critical_path jobs (seqs_of chain) (D 0) (map (map name) blocks).
Proof.
  intros (e & He & ED & Rt) Cb. destruct (fact_zedges_ok nm jobs V e He) as [_ Hr]. destruct (route_facts _ _ _ Rt ltac:(intros i Hi; apply elem_of_nil in Hi; tauto)) as (A & A1 & _ & C & E & F & G).
  rewrite Forall_forall in Cb. assert (Lk : forall q b, map (map name) blocks !! q = Some b -> exists b0, blocks !! q = Some b0 /\ b = map name b0).
  { intros q b Hq. change (map (map name) blocks) with (map name <$> blocks) in Hq. apply list_lookup_fmap_inv in Hq as (b0 & -> & Hq). eauto. }
  assert (Rc : forall i, i ∈ concat blocks -> 1 <= i <= n). { intros i Hi. apply elem_of_list_In, in_concat in Hi as (b & Hb & Hi). apply elem_of_list_In in Hb, Hi. exact (A b i Hb Hi). }
  split; [|split; [|split; [|split]]].
  - intros b Hb. change (map (map name) blocks) with (map name <$> blocks) in Hb. apply elem_of_list_fmap in Hb as (b0 & -> & Hb). split; [pose proof (A1 b0 Hb); destruct b0; [congruence|discriminate]|].
    destruct (block_segment b0 (A1 b0 Hb) (fun i Hi => A b0 i Hb Hi) (Cb b0 Hb)) as (a & c & Ec). exists (mach (hd 0 b0)), (map name a), (map name c). unfold seqs_of. rewrite Ec, !map_app. reflexivity.
  - intros q b b' Hq Hq'. destruct (Lk _ _ Hq) as (b0 & H0 & ->). destruct (Lk _ _ Hq') as (b1 & H1 & ->). destruct (F q b0 b1 H0 H1) as (u & Hl & Hs & Hh).
    assert (Hu : 1 <= u <= n) by (apply (A b0 u (elem_of_list_lookup_2 _ _ _ H0)), last_in, Hl). exists (name u).1, (name u).2. change (map name) with (fmap (M := list) name). rewrite fmap_last, Hl. split; [cbn; destruct (name u); reflexivity|].
    destruct b1 as [|i b1]; [discriminate|]. cbn in Hh. injection Hh as ->. cbn. rewrite (succ_name u Hu Hs). reflexivity.
  - destruct (C Hr) as (b & bs' & ->). cbn [app map concat head]. apply (zero_edge_in jobs) in He as (j & job & Hj & ->). cbn [neigh_id] in *. destruct (first_task nm jobs V j job Hj) as (m & d & T). rewrite (name_number jobs _ _ _ _ T). exists j. reflexivity.
  - rewrite <- concat_map. change (map name) with (fmap (M := list) name). rewrite fmap_last. destruct (last (concat blocks)) as [u|] eqn:El.
    2:{ exfalso. apply last_None in El. destruct (C Hr) as (b & bs' & ->). discriminate. }
    assert (Hu : 1 <= u <= n) by (apply Rc, last_in, El). exists (name u).1, (name u).2. split; [cbn; destruct (name u); reflexivity|]. exact (last_name u Hu (G u eq_refl)).
  - rewrite <- concat_map. cbn [work foldr] in E. rewrite ED, N.add_0_l in E. rewrite <- E. revert Rc. generalize (concat blocks) as l. intros l Rc. induction l as [|i l IH]; [reflexivity|]. cbn [map foldr]. unfold work in *. cbn [foldr]. rewrite IH by (intros; apply Rc; right; assumption).
    rewrite duration_eq by (apply Rc; left). reflexivity.
Qed.
End Path.

(** ** The order in which the operations are placed *)
Lemma placing_seqs done : (forall i, i ∈ done -> 1 <= i <= n) -> forall m, placing_orders jobs (map name done) m = seqs_of (chains jobs done) m.
Proof.
  intros Hr m. unfold placing_orders, seqs_of, chains, on. induction done as [|i done IH]; [reflexivity|]. cbn [map]. rewrite !filter_cons.
  assert (Hi : 1 <= i <= n) by (apply Hr; left). destruct (name_task i Hi) as [(job & A & B) _]. assert (Em : machine_of jobs (name i) = Some (mach i)). { unfold machine_of. rewrite A. cbn. rewrite B. reflexivity. }
  specialize (IH ltac:(intros; apply Hr; right; assumption)). rewrite Em. destruct (decide (mach i = m)) as [<-|E]; [rewrite decide_True by reflexivity; cbn [map]; f_equal; exact IH|rewrite decide_False by congruence; exact IH].
Qed.
Lemma orders_makespan_ext seqs seqs' t : (forall m, seqs m = seqs' m) -> orders_makespan jobs seqs t -> orders_makespan jobs seqs' t.
Proof.
  intros E. assert (F : forall start, follows jobs seqs start <-> follows jobs seqs' start).
  { intros start. split; intros [F1 F2]; (split; [exact F1|]); intros m before j k j' k' after d Es; apply (F2 m before j k j' k' after d); rewrite <- Es; [|symmetry]; apply E. }
  intros [(start & A & B) C]. split; [exists start; split; [apply F, A|exact B]|]. intros start' t' F'. apply C, F, F'.
Qed.

Theorem reachable_local_optimum dc (Hdc : delay_ok dc) p x x' m : standard_shop jobs -> load nm jobs = Ok p -> reachable jobs p dc x -> evaluates dc x x' m ->
  exists start order seqs t t0 s blocks,
    records jobs x' start /\ placed_earliest jobs start order /\ placed_by_priority jobs dc (j_chromosome x) start order /\ has_makespan jobs start s /\
    machine_orders jobs seqs /\ stores jobs x' seqs /\ orders_makespan jobs seqs t /\ m = N.min s t /\
    orders_makespan jobs (placing_orders jobs order) t0 /\ (t <= t0)%N /\
    critical_path jobs seqs t blocks /\ locally_optimal jobs seqs t blocks.
Proof.
  intros Std Lp Rx Ex. pose proof (reachable_ok nm jobs V dc Hdc p x Std Lp Rx) as Ok.
  destruct (evaluate_spec nm jobs V dc Hdc x Std Ok) as (x1 & m1 & E & Ec & Ef & Ev & Ed & Ok' & done & fin & s & chain & rank & D & I & Ld & P & Em & Fin & Opt & Hle & ops & md & times & Sh & Emd & Tr).
  destruct (evaluates_det dc x x' m x1 m1 Ex E) as [<- <-]. pose proof P as (O & R & S & Shx). destruct Opt as (blocks & Rt & Cb & Td).
  exists (start_of jobs fin), (map name done), (seqs_of chain), (D 0), (dist n dur mach jsucc (zero_edges jobs) (chains jobs done) (chain_rank jobs done) 0), (s_last s), (map (map name) blocks).
  split; [intros j k m0 d0 T; apply (recorded_lookup jobs x' j k fin m0 d0 T Fin); exists chain; exact Shx|].
  split; [exact (decoded_earliest nm jobs done fin s I Ld)|].
  split; [apply (decoded_order nm jobs V dc Hdc (j_chromosome x) (proj1 Ok) md (max_dur nm jobs V _ md Sh Emd) done fin s I Ld times Tr); exact (longest_shop nm jobs V _ md Sh Emd)|].
  split; [exact (decoded_makespan nm jobs V done fin s I Ld)|].
  split; [exact (seqs_orders chain O)|]. split; [exact (seqs_stores chain O x' Shx)|]. split; [exact (seqs_makespan chain O rank D R S)|]. split; [exact Em|].
  pose proof (chains_orders nm jobs done fin s I Ld) as O0. pose proof (chains_ranked nm jobs V done fin s I Ld) as R0.
  split. { apply (orders_makespan_ext (seqs_of (chains jobs done))); [intros m0; symmetry; apply (placing_seqs done (done_range nm jobs done fin s I))|].
    apply (seqs_makespan _ O0 (chain_rank jobs done)); [exact R0|]. apply (dist_solves n dur mach jsucc (zero_edges jobs) fpos flast ftot). exact R0. }
  split; [exact Hle|]. split; [exact (seqs_path chain D O blocks Rt Cb)|].
  intros q block Hq. change (map (map name) blocks) with (map name <$> blocks) in Hq. apply list_lookup_fmap_inv in Hq as (b & -> & Hq). destruct (Td q b Hq) as [T1 T2]. cbn [Nat.add] in *. rewrite Forall_lookup in Cb. pose proof (Cb q b Hq) as Cq. rewrite map_length. split.
  - intros u v rest Eb Hq0. destruct b as [|u0 [|v0 b]]; [discriminate|discriminate|]. injection Eb as <- <- <-. destruct (Cq [] u0 v0 b eq_refl) as [En _]. apply (no_gain_exchange chain D u0 v0 O En). apply (T1 u0 v0 b eq_refl). lia.
  - intros rest u v Eb Hql. apply map_eq_app in Eb as (b1 & b2 & -> & _ & E2). destruct b2 as [|u0 [|v0 [|? ?]]]; [discriminate|discriminate| |discriminate]. injection E2 as <- <-. destruct (Cq b1 u0 v0 [] eq_refl) as [En _]. apply (no_gain_exchange chain D u0 v0 O En). apply (T2 b1 u0 v0 eq_refl). apply lookup_lt_Some in Hq. lia.
Qed.
End Search.
