(** * The order in which the decoder of the job shop example places the operations *)
From Verif Require Import F64R.
From Verif Require Export JsspTheorems.
Open Scope nat_scope.

Section Order.
Context (nm : nat) (jobs : shop) (V : valid_shop nm jobs) (dc : f64) (Hdc : delay_ok dc).
Notation n := (n_tasks jobs).
Notation dur := (dur_of jobs).
Notation mach := (mach_of jobs).
Notation jpred := (jpred_of jobs).
Notation jsucc := (jsucc_of jobs).
Notation Inv := (inv n nm dur mach jpred jsucc (zero_edges jobs)).
Notation name := (name_of jobs).

Lemma not_late_fle a t d : (a <= 2 ^ 53)%N -> (t <= 2 ^ 53)%N -> good_delay d -> fgt (f_of_N a) (fadd (f_of_N t) d) = false <-> fle (f_of_N a) (fadd (f_of_N t) d) = true.
Proof.
  intros Ha Ht Hd. destruct (limit_R t d Ht Hd) as (Vl & Fl & _). destruct (f_of_N_exact a Ha) as (Va & Fa & _).
  assert (Na : is_nan (f_of_N a) = false) by (destruct (f_of_N a); try discriminate; reflexivity). assert (Nl : is_nan (fadd (f_of_N t) d) = false) by (destruct (fadd (f_of_N t) d); try discriminate; reflexivity).
  unfold fgt. split; intros H; [apply not_flt_fle; assumption|]. destruct (flt (fadd (f_of_N t) d) (f_of_N a)) eqn:E; [|reflexivity]. exfalso.
  pose proof (fle_lt_trans _ _ _ H E) as X. rewrite flt_irrefl in X. discriminate.
Qed.

Section Decoded.
Context (c : list f64) (Gc : genes_for jobs c) (md : N) (Hmd : (md <= 2 ^ 50)%N).
Context (done : list nat) (fin : nat -> N) (s : sched) (I : Inv done fin s) (Ld : length done = n).
Context (times : list N) (Tr : traced n jpred dc c md done fin times).
Notation start := (start_of jobs fin).
Lemma fin_small i : scheduled done i -> (fin i <= 2 ^ 50)%N.
Proof. apply (inv_small n nm dur mach jpred jsucc (zero_edges jobs) (fact_total_small nm jobs V) done fin s I). Qed.
Lemma delay_ok_at g : 1 <= g <= n -> good_delay (delay_at n dc c md g).
Proof. intros Hg. apply (delay_for_g_spec n dur (fact_total_small nm jobs V) dc c md Hdc (proj1 Gc) (proj2 Gc) Hmd g Hg). Qed.
Lemma start_plus j k m d : task jobs j k m d -> (start j k + d)%N = fin (op_number jobs j k).
Proof.
  intros T. destruct (fact_task jobs j k m d T) as (Hi & Ed & _). destruct (placed nm jobs done fin s I Ld _ Hi) as [P _]. unfold start_of. rewrite Ed in *. lia.
Qed.
Section Prefix.
Context (before : list nat) (Sub : forall i, i ∈ before -> i ∈ done) (Lb : length before < n).
Lemma before_range i : i ∈ before -> 1 <= i <= n.
Proof. intros H. apply (done_range nm jobs done fin s I), Sub, H. Qed.
Lemma cand_eligible T j k m d : (T <= 2 ^ 53)%N -> task jobs j k m d ->
  cand n jpred dc c md before fin T (op_number jobs j k) <-> eligible jobs start (map name before) (window_end jobs dc c md (S (length before)) T) j k.
Proof.
  intros HT Tk. pose proof (delay_ok_at (1 + length before) ltac:(lia)) as Gd. change (window_end jobs dc c md (S (length before)) T) with (limit_of T (delay_at n dc c md (1 + length before))).
  destruct (fact_task jobs j k m d Tk) as (Hi & _ & _ & Ep & _). unfold cand. split.
  - intros Hr. pose proof (ready_scheduled n jpred before fin T _ HT Gd _ Hr) as Hs. destruct Hr as (_ & Hn & Hl). split; [eauto|]. split; [intros H; apply Hn; apply (named_in jobs before j k m d before_range Tk), H|].
    intros k' ->. destruct (prev_task jobs j k' m d Tk) as (m' & d' & T'). rewrite decide_False in Ep by lia. rewrite op_number_S in Ep, Hs, Hl. replace (op_number jobs j k' + 1 - 1) with (op_number jobs j k') in Ep by lia. rewrite Ep in Hs, Hl.
    destruct (fact_task jobs j k' m' d' T') as (Hi' & _). assert (Hb : op_number jobs j k' ∈ before) by (destruct Hs as [Hs|Hs]; [lia|exact Hs]).
    split; [apply (named_in jobs before j k' m' d' before_range T'), Hb|]. intros m2 d2 T2. rewrite (start_plus j k' m2 d2 T2). unfold ftv in Hl. rewrite decide_True in Hl by exact Hs.
    apply not_late_fle; [pose proof (fin_small (op_number jobs j k') ltac:(right; apply Sub, Hb)); lia|exact HT|exact Gd|exact Hl].
  - intros (_ & Hn & Hk). split; [exact Hi|]. split; [intros H; apply Hn; apply (named_in jobs before j k m d before_range Tk), H|]. destruct k as [|k'].
    + rewrite Ep, decide_True by reflexivity. unfold ftv. rewrite decide_True by (left; reflexivity). rewrite (i_fin0 _ _ _ _ _ _ _ _ _ _ I). apply reached_not_too_late; [lia|exact HT|exact Gd].
    + destruct (prev_task jobs j k' m d Tk) as (m' & d' & T'). rewrite decide_False in Ep by lia. rewrite op_number_S in *. replace (op_number jobs j k' + 1 - 1) with (op_number jobs j k') in Ep by lia. rewrite Ep.
      destruct (Hk k' eq_refl) as [Hb Hf]. apply (named_in jobs before j k' m' d' before_range T') in Hb. specialize (Hf m' d' T'). rewrite (start_plus j k' m' d' T') in Hf.
      unfold ftv. rewrite decide_True by (right; exact Hb). apply not_late_fle; [pose proof (fin_small (op_number jobs j k') ltac:(right; apply Sub, Hb)); lia|exact HT|exact Gd|exact Hf].
Qed.
Lemma moment_named prev t : moment before fin prev t <-> moment_from jobs start (map name before) prev t.
Proof.
  unfold moment, moment_from. split; (intros [H|(H & E)]; [left; exact H|right; split; [exact H|]]).
  - destruct E as (i & Hi & E). destruct (real_task jobs i (before_range i Hi)) as (j & k & m & d & T & ->). exists j, k, m, d. split; [apply (named_in jobs before j k m d before_range T), Hi|]. split; [exact T|]. rewrite (start_plus _ _ _ _ T). auto.
  - destruct E as (j & k & m & d & Hin & T & ->). exists (op_number jobs j k). split; [apply (named_in jobs before j k m d before_range T), Hin|]. symmetry. exact (start_plus _ _ _ _ T).
Qed.
End Prefix.
Lemma time_small : forall g T, times !! g = Some T -> (T <= 2 ^ 50)%N.
Proof.
  destruct Tr as [Lt H]. induction g as [g IH] using lt_wf_ind. intros T ET. assert (Hg : g < length done) by (rewrite <- Lt; apply lookup_lt_Some in ET; exact ET).
  destruct (lookup_lt_is_Some_2 done g Hg) as [i Hi]. pose proof (take_drop_middle done g i Hi) as Ed. destruct (H _ _ _ (eq_sym Ed)) as (T' & ET' & [M _] & _). rewrite take_length_le in * by lia. rewrite ET in ET'. injection ET' as <-.
  destruct M as [->|(_ & i' & Hi' & <-)].
  - destruct g as [|g]; [rewrite take_0; cbn; lia|]. destruct (lookup_lt_is_Some_2 times g) as [T0 E0]; [lia|]. rewrite (take_S_r times g T0 E0), List.last_last. apply (IH g ltac:(lia) T0 E0).
  - apply fin_small. right. rewrite <- Ed. apply elem_of_app. left. exact Hi'.
Qed.
Lemma since_small g : g <= length times -> (List.last (take g times) 0 <= 2 ^ 50)%N.
Proof. intros Hg. destruct g as [|g]; [rewrite take_0; cbn; lia|]. destruct (lookup_lt_is_Some_2 times g) as [T0 E0]; [lia|]. rewrite (take_S_r times g T0 E0), List.last_last. exact (time_small g T0 E0). Qed.
Lemma decoded_order : longest jobs md -> placed_by_priority jobs dc c start (map name done).
Proof.
  intros Lg. exists md, times. split; [exact Lg|]. pose proof Tr as [Lt H]. split; [rewrite map_length; exact Lt|]. intros before j k after E.
  assert (T : exists m d, task jobs j k m d). { apply (proj1 (proj2 (decoded_earliest nm jobs done fin s I Ld))). rewrite E. apply elem_of_app. right. left. }
  destruct T as (m & d & T). destruct (name_split nm jobs done fin s I before j k after m d E T) as (before' & after' & Ed & ->). destruct (H _ _ _ Ed) as (T' & ET & [W1 W2] & [C1 C2]). exists T'. rewrite map_length.
  assert (Sub : forall i, i ∈ before' -> i ∈ done) by (intros i Hi; rewrite Ed; apply elem_of_app; left; exact Hi).
  assert (Lb : length before' < n) by (rewrite <- Ld, Ed, app_length; cbn; lia).
  assert (Hs : (List.last (take (length before') times) 0 <= 2 ^ 50)%N) by (apply since_small; rewrite Lt, Ed, app_length; lia).
  split; [exact ET|]. cbv zeta. split; [apply moment_named; assumption|]. split; [apply (cand_eligible before' Sub Lb T' j k m d); [pose proof (time_small _ _ ET); lia|exact T|exact C1]|]. split.
  - intros t j' k' M Hlt El. pose proof El as ((m' & d' & Tk) & _). apply (W2 t (op_number jobs j' k')); [apply moment_named; assumption|exact Hlt|].
    apply (cand_eligible before' Sub Lb t j' k' m' d'); [pose proof (time_small _ _ ET); lia|exact Tk|exact El].
  - intros j' k' El. pose proof El as ((m' & d' & Tk) & _). apply (C2 (op_number jobs j' k')). apply (cand_eligible before' Sub Lb T' j' k' m' d'); [pose proof (time_small _ _ ET); lia|exact Tk|exact El].
Qed.
End Decoded.

Lemma longest_shop ops md : shaped n dur mach jpred jsucc (zero_edges jobs) (fun _ => []) ops -> list_max_N (map op_duration ops) = Some md -> longest jobs md.
Proof.
  intros (L & S & _) E. apply list_max_Some in E as [Hin Hmax]. 
  assert (Ge : forall j k m d, task jobs j k m d -> (d <= md)%N).
  { intros j k m d T. destruct (fact_task jobs j k m d T) as (Hi & Ed & _). apply Hmax. destruct (lookup_lt_is_Some_2 ops (op_number jobs j k)) as [o Ho]; [lia|]. destruct (S _ _ Ho) as (_ & S1 & _). destruct (S1 Hi) as [Eo _].
    change (map op_duration ops) with (op_duration <$> ops). apply elem_of_list_fmap. exists o. split; [congruence|]. eapply elem_of_list_lookup_2, Ho. }
  split; [exact Ge|]. change (map op_duration ops) with (op_duration <$> ops) in Hin. apply elem_of_list_fmap in Hin as (o & -> & Ho). apply elem_of_list_lookup in Ho as [i Ho]. pose proof (lookup_lt_Some _ _ _ Ho) as Hi. rewrite L in Hi.
  destruct (S _ _ Ho) as (_ & S1 & S0 & Sn). destruct (decide (1 <= i <= n)) as [R|R].
  - destruct (S1 R) as [-> _]. destruct (real_task jobs i R) as (j & k & m & d & T & ->). destruct (fact_task jobs j k m d T) as (_ & -> & _). eauto.
  - assert (Z : op_duration o = 0%N). { destruct (decide (i = 0)) as [E0|E0]; [apply (S0 E0)|apply (Sn ltac:(lia))]. } rewrite Z in *.
    pose proof (fact_n_pos nm jobs V) as Hn. destruct (real_task jobs 1 ltac:(lia)) as (j & k & m & d & T & _). specialize (Ge _ _ _ _ T). replace d with 0%N in T by lia. eauto.
Qed.
Theorem fresh_order p c x' m : load nm jobs = Ok p -> genes_for jobs c -> evaluates dc (fresh p c) x' m ->
  exists start order, records jobs x' start /\ placed_earliest jobs start order /\ placed_by_priority jobs dc c start order.
Proof.
  intros Lp Gc (k & E). rewrite load_spec in Lp by apply V. injection Lp as <-. set (y := fresh _ c) in *.
  destruct (schedule_spec_order nm jobs V dc Hdc c (shop_ops jobs) Gc (shop_shaped jobs)) as (s & done & fin & Es & I & Ld & md & times & Emd & Tr).
  specialize (E (2 * n + k) ltac:(lia)). rewrite evaluate_prep in E. cbn [prep j_dirty fresh new_jind y mbind outcome_bind] in E. change (prep y) with (Ok y) in E. cbn [mbind outcome_bind] in E.
  rewrite (evaluate_scheduled nm jobs dc y s (2 * n + k) eq_refl (shop_shaped jobs) Es ltac:(lia)) in E. destruct (local_search (2 * n + k) (s_ops s)) as [[ops m']| |] eqn:El; [|discriminate|discriminate]. cbn in E. injection E as <- <-.
  exists (start_of jobs fin), (map (name_of jobs) done). split; [|split].
  - pose proof (local_search_keep _ _ _ _ El) as K. pose proof (keep_finish _ _ K) as Kf. intros j k0 m0 d0 T. destruct (fact_task jobs j k0 m0 d0 T) as (Hi & _). unfold recorded_start. cbn [j_ops].
    destruct (lookup_lt_is_Some_2 (s_ops s) (op_number jobs j k0)) as [o Ho]; [rewrite (i_len _ _ _ _ _ _ _ _ _ _ I); lia|].
    assert (Hk : map keep ops !! op_number jobs j k0 = Some (keep o)). { rewrite K. change (map keep (s_ops s)) with (keep <$> s_ops s). rewrite list_lookup_fmap, Ho. reflexivity. }
    change (map keep ops) with (keep <$> ops) in Hk. apply list_lookup_fmap_inv in Hk as (o' & Eo & Ho'). rewrite Ho'. cbn.
    assert (Ef : op_finish o' = op_finish o) by (apply (f_equal op_finish) in Eo; exact (eq_sym Eo)). assert (Ed : op_duration o' = op_duration o) by (apply (f_equal op_duration) in Eo; exact (eq_sym Eo)).
    rewrite Ef, Ed, (i_finish _ _ _ _ _ _ _ _ _ _ I _ o ltac:(right; apply (done_all nm jobs done fin s I Ld), Hi) Ho). cbn. destruct (i_static _ _ _ _ _ _ _ _ _ _ I _ o Ho) as (_ & S1 & _). destruct (S1 Hi) as [-> _]. reflexivity.
  - exact (decoded_earliest nm jobs done fin s I Ld).
  - apply (decoded_order c Gc md (max_dur nm jobs V _ md (shop_shaped jobs) Emd) done fin s I Ld times Tr). exact (longest_shop _ md (shop_shaped jobs) Emd).
Qed.
Theorem reachable_order p x x' m : standard_shop jobs -> load nm jobs = Ok p -> reachable jobs p dc x -> evaluates dc x x' m ->
  exists start order, records jobs x' start /\ placed_earliest jobs start order /\ placed_by_priority jobs dc (j_chromosome x) start order.
Proof.
  intros Std Lp Rx (k & E). destruct (reachable_same nm jobs V dc Hdc p x Std Lp Rx) as (k1 & H1). pose proof (reachable_ok nm jobs V dc Hdc p x Std Lp Rx) as Ok.
  apply (fresh_order p (j_chromosome x) x' m Lp); [apply Ok|]. exists (k + k1). intros fuel Hf. rewrite <- H1 by lia. apply E. lia.
Qed.

(** ** The rules determine the schedule *)
Lemma longest_det t t' : longest jobs t -> longest jobs t' -> t = t'.
Proof. intros [A (j & k & m & T)] [A' (j' & k' & m' & T')]. specialize (A _ _ _ _ T'). specialize (A' _ _ _ _ T). lia. Qed.
Section Det.
Context (start start' : nat -> nat -> N) (before : list (nat * nat)).
Context (Heq : forall j k, (j, k) ∈ before -> start' j k = start j k).
Lemma eligible_det l j k : eligible jobs start before l j k -> eligible jobs start' before l j k.
Proof. intros (A & B & C). split; [exact A|]. split; [exact B|]. intros k' ->. destruct (C k' eq_refl) as [Hb F]. split; [exact Hb|]. rewrite (Heq _ _ Hb). exact F. Qed.
Lemma moment_det since t : moment_from jobs start before since t -> moment_from jobs start' before since t.
Proof. intros [H|(H & j & k & m & d & Hb & T & E)]; [left; exact H|right]. split; [exact H|]. exists j, k, m, d. rewrite (Heq _ _ Hb). auto. Qed.
Lemma fits_det j k t : fits jobs start before j k t -> fits jobs start' before j k t.
Proof.
  intros [A B]. split.
  - intros k' ->. destruct (A k' eq_refl) as [Hb F]. split; [exact Hb|]. rewrite (Heq _ _ Hb). exact F.
  - intros j' k' m d d' Hb T T'. rewrite (Heq _ _ Hb). exact (B j' k' m d d' Hb T T').
Qed.
End Det.
Theorem order_unique c start order start' order' : placed_earliest jobs start order -> placed_by_priority jobs dc c start order ->
  placed_earliest jobs start' order' -> placed_by_priority jobs dc c start' order' ->
  order = order' /\ forall j k m d, task jobs j k m d -> start j k = start' j k.
Proof.
  intros (Nd & All & P) (l & times & Hl & Lt & H) (Nd' & All' & P') (l' & times' & Hl' & Lt' & H'). assert (l' = l) as -> by exact (longest_det _ _ Hl' Hl).
  assert (Perm : order ≡ₚ order') by (apply NoDup_Permutation; [exact Nd|exact Nd'|intros [j k]; rewrite All, All'; reflexivity]).
  assert (Len : length order = length order') by (apply Permutation_length, Perm).
  assert (G : forall g, g <= length order -> take g order = take g order' /\ take g times = take g times' /\ forall j k, (j, k) ∈ take g order -> start' j k = start j k).
  { induction g as [|g IH]; intros Hg; [rewrite !take_0; repeat split; intros j k Hn; apply elem_of_nil in Hn; tauto|]. destruct (IH ltac:(lia)) as (E1 & E2 & E3).
    destruct (lookup_lt_is_Some_2 order g) as [[j k] Ho]; [lia|]. destruct (lookup_lt_is_Some_2 order' g) as [[j' k'] Ho']; [lia|].
    pose proof (take_drop_middle order g _ Ho) as D. pose proof (take_drop_middle order' g _ Ho') as D'. rewrite <- E1 in D'.
    destruct (H _ _ _ _ (eq_sym D)) as (T & ET & M & El & Bf & Mx). destruct (H' _ _ _ _ (eq_sym D')) as (T' & ET' & M' & El' & Bf' & Mx'). rewrite take_length_le in * by lia. cbv zeta in *. rewrite <- E2 in *.
    assert (E3' : forall j k, (j, k) ∈ take g order -> start j k = start' j k) by (intros; symmetry; auto).
    assert (T' = T) as ->.
    { destruct (N.lt_trichotomy T T') as [L|[->|L]]; [exfalso|reflexivity|exfalso].
      - apply (Bf' T j k); [apply (moment_det start start' _ E3), M|exact L|apply (eligible_det start start' _ E3), El].
      - apply (Bf T' j' k'); [apply (moment_det start' start _ E3'), M'|exact L|apply (eligible_det start' start _ E3'), El']. }
    assert (Ejk : (j, k) = (j', k')).
    { pose proof (Mx j' k' (eligible_det start' start _ E3' _ _ _ El')) as X. pose proof (Mx' j k (eligible_det start start' _ E3 _ _ _ El)) as Y.
      assert (En : op_number jobs j k = op_number jobs j' k').
      { destruct X as [X|[X X2]], Y as [Y|[Y Y2]]; [exfalso|exfalso|exfalso|lia].
        - pose proof (flt_trans _ _ _ X Y) as Z. rewrite flt_irrefl in Z. discriminate.
        - pose proof (flt_le_trans _ _ _ X Y) as Z. rewrite flt_irrefl in Z. discriminate.
        - pose proof (fle_lt_trans _ _ _ X Y) as Z. rewrite flt_irrefl in Z. discriminate. }
      destruct El as ((m1 & d1 & T1) & _). destruct El' as ((m2 & d2 & T2) & _). destruct (task_number_inj jobs j k m1 d1 j' k' m2 d2 T1 T2 En) as [-> ->]. reflexivity. }
    injection Ejk as <- <-. split; [rewrite (take_S_r _ _ _ Ho), (take_S_r _ _ _ Ho'), E1; reflexivity|]. split; [rewrite (take_S_r _ _ _ ET), (take_S_r _ _ _ ET'), E2; reflexivity|].
    intros j2 k2 Hin. rewrite (take_S_r _ _ _ Ho) in Hin. apply elem_of_app in Hin as [Hin|Hin]; [auto|]. apply elem_of_list_singleton in Hin. injection Hin as -> ->.
    destruct (P _ _ _ _ (eq_sym D)) as [P1 P2]. destruct (P' _ _ _ _ (eq_sym D')) as [P1' P2'].
    specialize (P2 _ (fits_det start' start _ E3' _ _ _ P1')). specialize (P2' _ (fits_det start start' _ E3 _ _ _ P1)). lia. }
  destruct (G (length order) (le_n _)) as (E1 & _ & E3). rewrite Len in E1 at 2. rewrite !firstn_all in E1. split; [exact E1|]. intros j k m d T. symmetry. apply E3. rewrite firstn_all. apply All. eauto.
Qed.
End Order.
