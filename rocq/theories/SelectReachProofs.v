(** * Which selections are possible (C138) *)
From Verif Require Import SelectionModel SelectionSpec SelectionProofs SelectionRProofs TournamentProofs SusProofs F64R.
From Coq Require Import Reals.
From Flocq Require Import Core.
Open Scope nat_scope.

Section Support.
Context {G : Type}.
Implicit Types pop : list (individual G).

Lemma random_support kind count pop sel :
  (exists r r', random_sel kind count pop r = Ok (sel, r')) <-> pop <> [] /\ length sel = count /\ Forall (fun i => i < length pop) sel.
Proof.
  split.
  - intros (r & r' & E). destruct (random_sel_spec kind count pop r) as (H1 & H2 & _).
    assert (Hne : pop <> []) by (intros Hp; rewrite (H1 Hp) in E; discriminate E).
    destruct (H2 Hne) as (sel2 & r2 & E2 & Hl & HF). rewrite E2 in E. injection E as -> _. auto.
  - intros (Hne & Hl & HF). apply (proj2 (proj2 (random_sel_spec kind count pop (fun _ => 0%N)))); assumption.
Qed.
Lemma unique_support count pop sel :
  (exists r r', unique_random count pop r = Ok (sel, r')) <-> length sel = count /\ Forall (fun i => i < length pop) sel /\ NoDup sel.
Proof.
  split.
  - intros (r & r' & E). destruct (unique_random_spec count pop r) as (H1 & H2 & _).
    destruct (decide (count <= length pop)) as [Hc|Hc]; [|rewrite H1 in E by lia; discriminate E].
    destruct (H2 Hc) as (sel2 & r2 & E2 & Hl & HF). rewrite E2 in E. injection E as -> _. auto.
  - intros (Hl & HF & Hn). apply (proj2 (proj2 (unique_random_spec count pop (fun _ => 0%N)))); assumption.
Qed.
Lemma rank_winner_range pop ij s : rank_winner pop ij s -> s < length pop.
Proof. intros (a & b & Ha & Hb & ->). destruct (fle (fitness b) (fitness a)); [exact (lookup_lt_Some _ _ _ Ha)|exact (lookup_lt_Some _ _ _ Hb)]. Qed.
Lemma rank_support count pop sel :
  (exists r r', rank count pop r = Ok (sel, r')) <-> length sel = count /\ Forall (fun i => i < length pop) sel.
Proof.
  split.
  - intros (r & r' & E). destruct (rank_spec count pop r) as (H1 & H2 & _).
    assert (Hc : count = 0 \/ pop <> []).
    { destruct count as [|n]; [left; reflexivity|]. right. intros Hp. rewrite H1 in E; [discriminate E|lia|exact Hp]. }
    destruct (H2 Hc) as (sel2 & draws & r2 & E2 & Hl & HF). rewrite E2 in E. injection E as -> _. split; [exact Hl|].
    apply Forall_lookup. intros k s Hk. destruct (Forall2_lookup_r _ _ _ _ _ HF Hk) as (ij & _ & W). exact (rank_winner_range _ _ _ W).
  - intros (Hl & HF). set (draws := map (fun i => (i, i)) sel).
    destruct (proj2 (proj2 (rank_spec count pop (fun _ => 0%N))) draws) as (r & sel2 & r' & E & W).
    { unfold draws. rewrite map_length. exact Hl. }
    { unfold draws. apply Forall_forall. intros ij Hij. apply elem_of_list_fmap in Hij as (i & -> & Hi). rewrite Forall_forall in HF. cbn [fst snd]. split; exact (HF i Hi). }
    assert (sel2 = sel) as ->.
    { unfold draws in W. clear -W. revert sel2 W. induction sel as [|i sel IH]; intros sel2 W; cbn [map] in W; inversion W as [|x s l l2 Hs Hr]; subst; [reflexivity|].
      f_equal; [|exact (IH _ Hr)]. destruct Hs as (a & b & Ha & Hb & ->). cbn [fst snd]. destruct (fle (fitness b) (fitness a)); reflexivity. }
    exists r, r'. exact E.
Qed.
Lemma rank_r_support rr count pop sel : fle f0 rr = true -> fle rr f1 = true ->
  ((exists r r', rank_r rr count pop r = Ok (sel, r')) <-> pop <> [] /\ length sel = count /\ Forall (fun i => i < length pop) sel).
Proof.
  intros R0 R1. split.
  - intros (r & r' & E). destruct (rank_r_spec rr count pop r) as (H1 & H2).
    assert (Hne : pop <> []) by (intros Hp; rewrite (H1 (or_intror Hp)) in E; discriminate E).
    destruct (H2 R0 R1 Hne) as (sel2 & draws & r2 & E2 & Hl & HF & _). rewrite E2 in E. injection E as -> _. auto.
  - intros (Hne%length_pos_ne & Hl & HF). unfold rank_r. rewrite R0, R1, bool_decide_true by exact Hne. cbn [andb rassert mbind outcome_bind]. subst count.
    destruct (repeatO_surj (rank_r_spin rr pop) sel (fun _ => 0%N)) as [r E].
    { eapply Forall_impl; [exact HF|]. intros i Hi rest. cbv beta in Hi.
      destruct (gen_range_surj 0 (length pop) i (fun k => match k with 0 => 0%N | S k => rest k end)) as [r1 H1']; [lia|].
      destruct (gen_range_surj 0 (length pop) i r1) as [r0 H0]; [lia|].
      exists r0. unfold rank_r_spin. rewrite H0. cbn [mbind outcome_bind]. destruct (lookup_lt_is_Some_2 pop i Hi) as [p Hp].
      rewrite (proj2 (index_Ok _ _ _) Hp). cbn [mbind outcome_bind]. rewrite H1'. cbn [mbind outcome_bind]. rewrite (proj2 (index_Ok _ _ _) Hp). cbn [mbind outcome_bind].
      unfold uni_f64. destruct (flt _ rr); reflexivity. }
    exists r. eexists. exact E.
Qed.

(** Positions of the members not fitter than [w]. *)
Definition below (w : f64) (p : individual G) : bool := fle (fitness p) w.
Lemma positions_count (P : individual G -> bool) pop : forall k,
  length (List.filter (fun j => match pop !! (j - k) with Some p => P p | None => false end) (seq k (length pop))) = length (List.filter P pop).
Proof.
  induction pop as [|p pop IH]; intros k; [reflexivity|]. cbn [length seq List.filter]. rewrite Nat.sub_diag. cbn [lookup list_lookup].
  assert (E : List.filter (fun j => match (p :: pop) !! (j - k) with Some p => P p | None => false end) (seq (S k) (length pop)) =
              List.filter (fun j => match pop !! (j - S k) with Some p => P p | None => false end) (seq (S k) (length pop))).
  { apply List.filter_ext_in. intros j Hj. apply in_seq in Hj. replace (j - k) with (S (j - S k)) by lia. reflexivity. }
  rewrite E. destruct (P p); cbn [length]; rewrite IH; reflexivity.
Qed.
Lemma iter_max_from_last {A} (key : A -> f64) l x : forall acc, is_nan (key acc) = false -> is_nan (key x) = false ->
  fle (key acc) (key x) = true -> Forall (fun y => is_nan (key y) = false /\ fle (key y) (key x) = true) l ->
  iter_max_from key acc (l ++ [x]) = Ok x.
Proof.
  induction l as [|y l IH]; intros acc Ha Hx Hle HF; cbn [app iter_max_from].
  - unfold key_cmp. destruct (fcmp (key acc) (key x)) as [c|] eqn:Ec.
    + cbn [mbind outcome_bind]. destruct c; [reflexivity|reflexivity|]. exfalso. apply fcmp_Gt_flt in Ec.
      pose proof (fle_lt_trans _ _ _ Hle Ec) as Hc. rewrite flt_irrefl in Hc. discriminate Hc.
    + apply fcmp_nan in Ec. destruct Ec as [Ec|Ec]; congruence.
  - apply Forall_cons in HF as [[Hy Hyx] HF]. unfold key_cmp. destruct (fcmp (key acc) (key y)) as [c|] eqn:Ec.
    + cbn [mbind outcome_bind]. destruct c; apply IH; assumption.
    + apply fcmp_nan in Ec. destruct Ec as [Ec|Ec]; congruence.
Qed.
Lemma spin_reach pop size s w rest : comparable pop -> 0 < size -> pop !! s = Some w ->
  size <= length (List.filter (below (fitness w)) pop) -> exists r, tournament_spin size pop r = Ok (s, rest).
Proof.
  intros Hn H0 Hw Hs. rewrite <- (positions_count (below (fitness w)) pop 0) in Hs.
  set (L := List.filter _ (seq 0 (length pop))) in Hs.
  assert (HL : forall j, j ∈ L <-> exists p, pop !! j = Some p /\ fle (fitness p) (fitness w) = true).
  { intros j. unfold L. rewrite elem_of_list_In, filter_In, in_seq, Nat.sub_0_r. split.
    - intros [_ H]. destruct (pop !! j) as [p|]; [|discriminate H]. exists p. auto.
    - intros (p & Hp & H). rewrite Hp. split; [|exact H]. apply lookup_lt_Some in Hp. lia. }
  assert (Hnw : is_nan (fitness w) = false) by (unfold comparable in Hn; rewrite Forall_lookup in Hn; exact (Hn _ _ Hw)).
  assert (NL : NoDup L) by (unfold L; apply NoDup_ListNoDup, List.NoDup_filter, seq_NoDup).
  assert (Hin : s ∈ L) by (apply HL; exists w; split; [exact Hw|apply fle_refl; exact Hnw]).
  apply elem_of_list_split in Hin as (l1 & l2 & EL). set (O := l1 ++ l2).
  assert (PL : L ≡ₚ s :: O) by (rewrite EL; unfold O; symmetry; apply Permutation_middle).
  assert (LO : size - 1 <= length O) by (rewrite PL in Hs; cbn [length] in Hs; lia).
  rewrite PL in NL. apply NoDup_cons in NL as [NsO NO].
  set (idx := take (size - 1) O ++ [s]).
  assert (Hlen : length idx = size) by (unfold idx; rewrite app_length, take_length; cbn [length]; lia).
  assert (Hsub : forall j, j ∈ idx -> exists p, pop !! j = Some p /\ fle (fitness p) (fitness w) = true).
  { intros j Hj. apply HL. rewrite PL. unfold idx in Hj. apply elem_of_app in Hj as [Hj|Hj].
    - right. rewrite <- (take_drop (size - 1) O). apply elem_of_app. left. exact Hj.
    - apply elem_of_list_singleton in Hj as ->. left. }
  assert (Hall : Forall (fun i => i < length pop) idx).
  { apply Forall_forall. intros j Hj. destruct (Hsub j Hj) as (p & Hp & _). exact (lookup_lt_Some _ _ _ Hp). }
  assert (Hnd : NoDup idx).
  { unfold idx. apply NoDup_app. split; [rewrite <- (take_drop (size - 1) O) in NO; apply NoDup_app in NO as (NO & _); exact NO|]. split; [|apply NoDup_singleton].
    intros j Hj Hj2. apply elem_of_list_singleton in Hj2 as ->. apply NsO. rewrite <- (take_drop (size - 1) O). apply elem_of_app. left. exact Hj. }
  destruct (sample_indices_surj (length pop) idx rest Hnd Hall) as [r E]. rewrite Hlen in E. exists r.
  destruct (omapM_pairs_ok pop idx Hall) as (grp & Eg & Hg & HF).
  assert (Em : iter_max (fun ip => fitness ip.2) grp = Ok (Some (s, w))).
  { unfold idx in Hg. destruct (rev grp) as [|x rg] eqn:Er.
    { apply (f_equal (@rev _)) in Er. rewrite rev_involutive in Er. cbn [rev] in Er. subst grp. cbn in Hg. destruct (take (size - 1) O); discriminate Hg. }
    apply (f_equal (@rev _)) in Er. rewrite rev_involutive in Er. cbn [rev] in Er. subst grp. rewrite fmap_app in Hg. cbn [fmap list_fmap] in Hg.
    apply app_inj_tail in Hg as [Hg Hx]. apply Forall_app in HF as [HF Hx2]. apply Forall_cons in Hx2 as [Hx2 _]. rewrite Hx, Hw in Hx2. injection Hx2 as Hx2.
    destruct x as [s' w']. cbn [fst snd] in Hx, Hx2. subst s' w'.
    assert (HK : Forall (fun y : nat * individual G => is_nan (fitness y.2) = false /\ fle (fitness y.2) (fitness w) = true) (rev rg)).
    { apply Forall_forall. intros y Hy. rewrite Forall_forall in HF. pose proof (HF y Hy) as Hy2.
      split; [unfold comparable in Hn; rewrite Forall_lookup in Hn; exact (Hn _ _ Hy2)|].
      destruct (Hsub y.1) as (p & Hp & Hp2); [|rewrite Hp in Hy2; injection Hy2 as <-; exact Hp2].
      unfold idx. apply elem_of_app. left. rewrite <- Hg. apply elem_of_list_fmap. exists y. auto. }
    destruct (rev rg) as [|y l]; [reflexivity|]. cbn [app iter_max]. apply Forall_cons in HK as [[Hy1 Hy2] HK].
    rewrite (iter_max_from_last (fun ip : nat * individual G => fitness ip.2) l (s, w) y); [reflexivity|exact Hy1|exact Hnw|exact Hy2|exact HK]. }
  unfold tournament_spin. rewrite E. cbn [mbind outcome_bind]. rewrite Eg. cbn [mbind outcome_bind]. rewrite Em. reflexivity.
Qed.
Lemma winner_room pop grp s w : NoDup grp -> Forall (fun i => i < length pop) grp -> tournament_winner pop grp s -> pop !! s = Some w ->
  length grp <= length (List.filter (below (fitness w)) pop).
Proof.
  intros Hnd HF [_ Hm] Hw. rewrite <- (positions_count (below (fitness w)) pop 0). apply submseteq_length, NoDup_submseteq; [exact Hnd|].
  intros j Hj. rewrite elem_of_list_In, filter_In, in_seq, Nat.sub_0_r. rewrite Forall_forall in HF. pose proof (HF j Hj) as Hl.
  destruct (lookup_lt_is_Some_2 pop j Hl) as [a Ha]. rewrite Ha. split; [lia|]. exact (Hm j a w Hj Ha Hw).
Qed.
Lemma tournament_support factor count pop sel : fvalid factor -> unit_factor factor -> pop <> [] -> (Z.of_nat (length pop) <= 2 ^ 53)%Z -> comparable pop ->
  ((exists r r', tournament factor count pop r = Ok (sel, r')) <->
   length sel = count /\ Forall (fun s => exists w, pop !! s = Some w /\
     (Z.max (Zfloor (rnd (INR (length pop) * f2r factor))) 1 <= Z.of_nat (length (List.filter (below (fitness w)) pop)))%Z) sel).
Proof.
  intros V U Hne Hb Hn. destruct (tournament_size_bounds factor (length pop) V U) as [[S1 S2] Ez]; [apply length_pos_ne; exact Hne|exact Hb|]. split.
  - intros (r & r' & E). destruct (tournament_spec factor count pop r V U Hne Hb Hn) as (sel2 & groups & r2 & E2 & Hl & HF).
    rewrite E2 in E. injection E as -> _. split; [exact Hl|]. apply Forall_lookup. intros k s Hk.
    destruct (Forall2_lookup_r _ _ _ _ _ HF Hk) as (grp & _ & Hg & Hnd & Hr & W).
    assert (Hs : s < length pop) by (rewrite Forall_forall in Hr; apply Hr; apply W).
    destruct (lookup_lt_is_Some_2 pop s Hs) as [w Hw]. exists w. split; [exact Hw|]. rewrite <- Hg. apply inj_le. exact (winner_room pop grp s w Hnd Hr W Hw).
  - intros (<- & HF). destruct (repeatO_surj (tournament_spin (tournament_size factor (length pop)) pop) sel (fun _ => 0%N)) as [r E].
    { eapply Forall_impl; [exact HF|]. intros s (w & Hw & Hz) rest. apply (spin_reach pop _ s w rest Hn); [lia|exact Hw|]. rewrite <- Ez in Hz. lia. }
    exists r. eexists. unfold tournament. destruct U as [-> ->]. cbn [andb rassert mbind outcome_bind]. exact E.
Qed.

(** ** Individuals of fitness zero *)
Definition zero_fit (p : individual G) : Prop := feq (fitness p) f0 = true.
Lemma zero_cases z : feq z f0 = true -> exists b, z = S754_zero b.
Proof. destruct z as [b|b| |b m e]; [eauto|destruct b; discriminate|discriminate|destruct b; discriminate]. Qed.
Lemma fadd_zero_le t c z : feq z f0 = true -> fle t (fadd c z) = fle t c.
Proof. intros (b & ->)%zero_cases. destruct c as [b2|b2| |b2 m e]; try reflexivity. destruct b2, b; destruct t as [b3|b3| |b3 m3 e3]; reflexivity. Qed.
Lemma cumulative_S fs i f : fs !! S i = Some f -> cumulative fs (S i) = fadd (cumulative fs i) f.
Proof. intros H. unfold cumulative. rewrite (take_S_r fs (S i) f H), foldl_app. reflexivity. Qed.
Lemma hit_zero fs t i f : wheel_hit fs t i -> fs !! i = Some f -> feq f f0 = true -> i = 0.
Proof.
  intros (_ & Hi & Hj) Hf Hz. destruct i as [|i]; [reflexivity|]. rewrite (cumulative_S fs i f Hf), fadd_zero_le in Hi by exact Hz.
  rewrite (Hj i) in Hi by lia. discriminate Hi.
Qed.
Lemma roulette_zero count pop r sel r' s p : roulette_wheel count pop r = Ok (sel, r') -> s ∈ sel -> pop !! s = Some p -> zero_fit p -> s = 0.
Proof.
  unfold roulette_wheel. intros E Hs Hp Hz. injection E as E. pose proof (roulette_spins_spec (total_fitness pop) pop count r) as H. rewrite E in H. cbn [fst] in H.
  rewrite H in Hs. apply elem_of_list_omap in Hs as (k & _ & Hk). apply roulette_scan_hit in Hk.
  apply (hit_zero _ _ _ (fitness p) Hk); [|exact Hz]. change (fitness <$> pop) with (map fitness pop). rewrite list_lookup_fmap, Hp. reflexivity.
Qed.
Lemma sus_zero fuel count pop r sel r' s p : sus fuel count pop r = Ok (sel, r') -> s ∈ sel -> pop !! s = Some p -> zero_fit p -> s = 0.
Proof.
  intros E Hs Hp Hz. destruct (sus_result fuel count pop r sel r' E) as (_ & _ & p0 & _ & _ & Hh & _).
  assert (Hf : (fitness <$> pop) !! s = Some (fitness p)) by (rewrite list_lookup_fmap, Hp; reflexivity).
  apply elem_of_list_lookup in Hs as [k Hk]. destruct s as [|s]; [reflexivity|exfalso].
  revert Hk. induction k as [k IH] using lt_wf_ind. intros Hk.
  destruct (Hh k (S s) Hk) as (_ & Hsf & Hle & Hno).
  destruct (decide (search_from sel k = S s)) as [Es|Es].
  - destruct k as [|k]; [discriminate Es|]. cbn [search_from] in Es. destruct (sel !! k) as [i|] eqn:Ek; [|discriminate Es]. cbn [default from_option id] in Es.
    cbn in Es. subst i. exact (IH k ltac:(lia) Ek).
  - rewrite (cumulative_S _ _ _ Hf), fadd_zero_le, (Hno s) in Hle by (try exact Hz; lia). discriminate Hle.
Qed.
(** The very first individual is selected by the draw 0, even with fitness zero. *)
Lemma roulette_first_zero count p pop : ffinite (total_fitness (p :: pop)) = true -> zero_fit p ->
  roulette_wheel count (p :: pop) (fun _ => 0%N) = Ok (replicate count 0, fun _ => 0%N).
Proof.
  intros F Hz. unfold roulette_wheel. f_equal. set (t := total_fitness (p :: pop)) in *. clearbody t.
  assert (Hh : roulette_scan (fmul t (f_unit 53 (0 mod 2 ^ 53))) f0 0 (p :: pop) = Some 0).
  { apply zero_cases in Hz as (b & Hz). change (f_unit 53 (0 mod 2 ^ 53)) with f0. cbn [roulette_scan]. rewrite Hz.
    destruct t as [b2|b2| |b2 m e]; try discriminate F; destruct b2, b; reflexivity. }
  induction count as [|count IH]; [reflexivity|]. cbn [roulette_spins gen_f64]. change ((fun _ : nat => 0%N) 0) with 0%N. rewrite Hh.
  change (rng_tail (fun _ : nat => 0%N)) with (fun _ : nat => 0%N). rewrite IH. reflexivity.
Qed.
End Support.
