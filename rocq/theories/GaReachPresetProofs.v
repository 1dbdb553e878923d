(** * Every history of populations is possible: the preset solver for bit strings (C137) *)
From Verif Require Import GaReachProofs PresetSpec BuilderModel BuilderSpec PresetProofs GaSpec GaProofs GaAssembleModel GaAssembleProofs GaAssembleRunProofs SelectionModel SelectionSpec SelectionProofs SelectionRProofs CrossoverModel CrossoverProofs MutationModel MutReachSpec PopulationModel F64R.
Open Scope nat_scope.

Section Spins.
Context {G : Type}.
Implicit Types pop : list (individual G).

(** Some tournament outcome is possible, and any stream left over. *)
Lemma spin_some pop size : 0 < size -> size <= length pop -> Forall (fun p => F64.is_nan (fitness p) = false) pop ->
  exists s, s < length pop /\ forall tail, exists r, tournament_spin size pop r = Ok (s, tail).
Proof.
  intros H0 Hs Hn. set (idx := seq 0 size).
  assert (Hall : Forall (fun i => i < length pop) idx) by (apply Forall_forall; intros i Hi; apply elem_of_seq in Hi; lia).
  assert (Hl : length idx = size) by apply seq_length.
  destruct (tournament_group pop idx Hall) as (grp & b & E1 & E2 & Hw); [intros E; rewrite E in Hl; cbn in Hl; lia|exact Hn|].
  exists b.1. split; [rewrite Forall_forall in Hall; apply Hall; apply Hw|]. intros tail.
  destruct (sample_indices_surj (length pop) idx tail) as [r E]; [apply NoDup_seq|exact Hall|]. rewrite Hl in E.
  exists r. unfold tournament_spin. rewrite E. cbn [mbind outcome_bind]. rewrite E1. cbn [mbind outcome_bind]. rewrite E2. reflexivity.
Qed.
Lemma tournament_some pop factor count : unit_factor factor -> fvalid factor -> pop <> [] -> (Z.of_nat (length pop) <= 2 ^ 53)%Z ->
  Forall (fun p => F64.is_nan (fitness p) = false) pop ->
  exists idx, length idx = count /\ Forall (fun i => i < length pop) idx /\ forall tail, exists r, tournament factor count pop r = Ok (idx, tail).
Proof.
  intros Hu V Hne Hb Hn. assert (Hl : 0 < length pop) by (destruct pop; [congruence|cbn; lia]).
  destruct (tournament_size_bounds factor (length pop) V Hu Hl Hb) as [[S1 S2] _].
  destruct (spin_some pop (tournament_size factor (length pop))) as (s & Hs & Hr); [lia|exact S2|exact Hn|].
  exists (replicate count s). split; [apply replicate_length|]. split; [apply Forall_replicate; exact Hs|]. intros tail.
  destruct (repeatO_any (tournament_spin (tournament_size factor (length pop)) pop) (replicate count s)) with (tail := tail) as [r E].
  { apply Forall_replicate. exact Hr. }
  rewrite replicate_length in E. exists r. unfold tournament. destruct Hu as [-> ->]. cbn [andb rassert mbind outcome_bind]. exact E.
Qed.
(** Some children are possible, and any stream left over. *)
Lemma single_some (a b : individual G) dim : 0 < dim -> length (chromosome a) = dim -> length (chromosome b) = dim ->
  exists c d, length (chromosome c) = dim /\ length (chromosome d) = dim /\ forall tail, exists r, lift_single single_point a b r = Ok ((c, d), tail).
Proof.
  intros Hd Ha Hb. destruct (lift_single_ok dim a b (fun _ => 0%N)) as (c & d & r' & E & Hc & Hd2); [exact Hd|exact Ha|exact Hb|].
  exists c, d. split; [exact Hc|]. split; [exact Hd2|]. intros tail. exists (draw_first 0%N tail).
  assert (E1 : gen_range 0 dim (fun _ => 0%N) = Ok (0 + N.to_nat (0 mod N.of_nat (dim - 0)), fun _ => 0%N)) by (unfold gen_range; rewrite decide_True by lia; reflexivity).
  assert (E2 : gen_range 0 dim (draw_first 0%N tail) = Ok (0 + N.to_nat (0 mod N.of_nat (dim - 0)), tail)) by (unfold gen_range; rewrite decide_True by lia; reflexivity).
  revert E. unfold lift_single, single_point. rewrite Ha, E1, E2. cbn [mbind outcome_bind]. destruct (copy_loci (chromosome a) (chromosome b) 0 _ ([], [])) as [x| |]; cbn [mbind outcome_bind]; [|discriminate|discriminate].
  destruct (copy_loci (chromosome b) (chromosome a) _ dim x) as [[c1 c2]| |]; cbn [mbind outcome_bind]; [|discriminate|discriminate]. intros E. injection E as <- <- _. reflexivity.
Qed.
Lemma chunks_some dim : 0 < dim -> forall n (pool : list (individual G)), length pool = n + n -> Forall (fun c => length (chromosome c) = dim) pool ->
  exists ch, length ch = length pool /\ Forall (fun c => length (chromosome c) = dim) ch /\ forall tail, exists r, apply_chunks (lift_single single_point) pool r = Ok (ch, tail).
Proof.
  intros Hd. induction n as [|n IH]; intros pool Hl HF.
  { destruct pool; [|discriminate Hl]. exists []. split; [reflexivity|]. split; [constructor|]. intros tail. exists tail. reflexivity. }
  destruct pool as [|a [|b pool]]; cbn [length] in Hl; [lia|lia|]. apply Forall_cons in HF as [Ha HF]. apply Forall_cons in HF as [Hb HF].
  destruct (IH pool) as (ch & L & HC & Ht); [lia|exact HF|]. destruct (single_some a b dim Hd Ha Hb) as (c & d & Hc & Hd2 & Hs).
  exists (c :: d :: ch). split; [cbn [length]; lia|]. split; [constructor; [exact Hc|constructor; [exact Hd2|exact HC]]|]. intros tail.
  destruct (Ht tail) as [r1 E1]. destruct (Hs r1) as [r E]. exists r. cbn [apply_chunks]. rewrite E. cbn [mbind outcome_bind]. rewrite E1. reflexivity.
Qed.
End Spins.

Section Preset.
Context (p : ga_params) (f : list bool -> f64) (factor rate : f64) (dim : N).
Notation n := (N.to_nat (gp_size p)).
Notation K := (fun ch : list bool => length ch = N.to_nat dim).
Notation cfg := (preset_run_config p f factor (gp_size p) (flip_bit rate) (generate_bit_strings dim)).
Context (Hd : 0 < N.to_nat dim) (Hp : 0 < n) (Hb : (Z.of_nat n <= 2 ^ 53)%Z) (He : Nat.even n = true) (Hfit : forall ch, K ch -> F64.is_nan (f ch) = false).
Context (Hu : unit_factor factor) (V : fvalid factor) (H0 : flt f0 rate = true) (H1 : fle rate largest_draw = true).
Definition whole_state (x : unit) (y : rng * rng) : rng * rng := y.

Lemma preset_step m P x P' : good cfg K P -> good cfg K P' -> exists x', forall y', exists y idx s1 pool ch s2 ch' s3 pop',
  op_select cfg m (rated cfg P) (whole_state x y) = Ok (idx, s1) /\ omapM (index (rated cfg P)) idx = Ok pool /\ op_crossover cfg m pool s1 = Ok (ch, s2) /\
  mutate_all cfg m ch s2 = Ok (ch', s3) /\ op_replace cfg m (rated cfg P) (if op_requires_children_fitness cfg then eval_pop cfg ch' else ch') s3 = Ok (pop', whole_state x' y') /\
  chromosome <$> pop' = P'.
Proof using All.
  intros [HL HK] [HL' HK']. cbn [population_size preset_run_config] in HL, HL'.
  assert (Lr : length (rated cfg P) = n) by (unfold rated; rewrite fmap_length; exact HL).
  destruct (tournament_some (rated cfg P) factor n Hu V) as (idx & Li & Hi & Ht).
  { intros E. rewrite E in Lr. cbn in Lr. lia. }
  { rewrite Lr. exact Hb. }
  { unfold rated. apply Forall_fmap. eapply Forall_impl; [exact HK|]. intros ch Hc. apply Hfit. exact Hc. }
  destruct (omapM_index_ok (rated cfg P) idx Hi) as [pool Hpool].
  assert (Hpk : length pool = n /\ Forall (fun c => length (chromosome c) = N.to_nat dim) pool).
  { pose proof (omapM_index_Forall2_inv _ _ _ Hpool) as F2. split; [apply Forall2_length in F2; congruence|].
    assert (HR : Forall (fun c => length (chromosome c) = N.to_nat dim) (rated cfg P)) by (unfold rated; apply Forall_fmap; exact HK).
    clear -F2 HR. induction F2 as [|i x idx pool Hi F2 IH]; constructor; [|exact IH]. rewrite Forall_forall in HR. apply HR. eapply elem_of_list_lookup_2; eauto. }
  destruct Hpk as [Hlp HKp]. assert (exists h, n = h + h) as [h Hh]. { apply Nat.even_spec in He as [k ->]. exists k. lia. }
  destruct (chunks_some (N.to_nat dim) Hd h pool) as (ch & Lc & HC & Hx); [lia|exact HKp|].
  exists tt. intros y'.
  destruct (mutate_all_reach cfg whole_state K m tt) with (targets := P') (children := ch) (y' := y') as (y & ch' & Em & Et); [|congruence|exact HC|exact HK'|].
  { intros c target [tail ttail] Hc Ht2. destruct (flip_any rate (chromosome c) target tail ttail H0 H1) as [r E2]; [congruence|].
    exists (r, ttail), (Ind target (fitness c)). split; [|reflexivity]. cbn [op_mutate preset_run_config whole_state fst snd]. unfold mutate_individual. rewrite E2. reflexivity. }
  destruct y as [ym yt]. destruct (Hx ym) as [rx Ex]. destruct (Ht rx) as [rs Es].
  exists (rs, yt), idx, (rx, yt), pool, ch, (ym, yt), ch', y', ch'.
  split; [|split; [exact Hpool|split; [|split; [exact Em|split; [reflexivity|exact Et]]]]].
  - cbn [op_select preset_run_config whole_state fst snd]. rewrite Es. reflexivity.
  - cbn [op_crossover preset_run_config fst snd]. unfold crossover_apply. rewrite Hlp, He. cbn [rassert mbind outcome_bind]. rewrite Ex. reflexivity.
Qed.

Lemma preset_history ck m0 P0 future : (forall k, (c_end ck k < gp_duration p)%N) -> length future = N.to_nat (gp_limit p) ->
  Forall (fun P => length P = n /\ Forall (fun ch => length ch = N.to_nat dim) P) (P0 :: future) ->
  exists s evs b m s', run cfg ck m0 s = Ok (evs, b, m, s') /\ populations evs = map (map (fun ch => Ind ch (f ch))) (P0 :: future).
Proof using All.
  intros Hck Hlf HF. apply Forall_cons in HF as [[HL HK] HF].
  destruct (run_reach cfg whole_state K Hp Hfit preset_step ck m0 (ind_from <$> P0) future tt (fun _ => 0%N, fun _ => 0%N) (fun _ => True)) as (s & evs & b & m & s' & _ & E & W).
  - exact Hck.
  - pose proof (from_rows P0) as F. change (map chromosome (ind_from <$> P0)) with (chromosome <$> (ind_from <$> P0)) in F. rewrite F. split; [exact HL|exact HK].
  - exact HF.
  - exact Hlf.
  - intros [ym yt]. destruct (bits_any (N.to_nat dim) P0 ym Hd HK) as [g Eg]. exists (g, yt). split; [exact I|].
    cbn [op_generate preset_run_config population_size fst snd]. rewrite <- HL. unfold gen_bits in Eg. unfold generate_bit_strings.
    destruct (bit_strings_with_rng (N.to_nat dim) g) as [gg| |]; cbn [mbind outcome_bind] in *; try discriminate Eg.
    destruct (bit_strings_generate gg (length P0)) as [pop gg']. injection Eg as -> ->. reflexivity.
  - pose proof (from_rows P0) as F. change (map chromosome (ind_from <$> P0)) with (chromosome <$> (ind_from <$> P0)) in F. rewrite F in W. exists s, evs, b, m, s'. split; [exact E|exact W].
Qed.
End Preset.

Lemma bitstring_history calls dim c cfg P0 future ck m0 :
  bitstring_builder calls = Ok (inl c) -> bitstring_solver c = Some cfg -> last_set p_dims calls = Some dim ->
  (forall ch, length ch = N.to_nat dim -> F64.is_nan (gc_fitness c ch) = false) -> (0 < gp_size (gc_params c) <= 2 ^ 53)%N -> N.even (gp_size (gc_params c)) = true ->
  (forall k, (c_end ck k < gp_duration (gc_params c))%N) -> length future = N.to_nat (gp_limit (gc_params c)) ->
  Forall (fun P => length P = N.to_nat (gp_size (gc_params c)) /\ Forall (fun ch => length ch = N.to_nat dim) P) (P0 :: future) ->
  exists s evs b m s', run cfg ck m0 s = Ok (evs, b, m, s') /\ populations evs = map (map (fun ch => Ind ch (gc_fitness c ch))) (P0 :: future).
Proof.
  intros Hb Hs Hdim Hf Hsz He Hck Hlf HF. destruct (preset_built _ _ _ _ _ Hb) as (f & dim' & _ & Hd' & Hd & ->).
  rewrite Hdim in Hd'. apply (inj Some) in Hd' as <-.
  cbn [bitstring_solver gc_mutation gc_generator gc_selection gc_params gc_fitness] in Hs. apply (inj Some) in Hs as <-. cbn [gc_params gc_fitness] in *.
  remember (GAParams (default 100%N (last_set p_sizes calls)) (default (2 ^ 64 - 1)%N (last_set p_limits calls)) (default ((2 ^ 64 - 1) * 10 ^ 9 + 999999999)%N (last_set p_durations calls))) as p eqn:Ep.
  assert (Es : default 100%N (last_set p_sizes calls) = gp_size p) by (rewrite Ep; reflexivity). rewrite Es. clear Hb Hdim Ep Es.
  apply (preset_history p f f_0_2 f_0_05 dim); auto.
  - lia.
  - lia.
  - lia.
  - apply N.even_spec in He as [k Hk]. apply Nat.even_spec. exists (N.to_nat k). lia.
  - split; reflexivity.
  - reflexivity.
Qed.

(** ** What the result is *)
Lemma result_of_history {G St} (cfg : config G St) ck m0 s evs b m s' (fit : list G -> f64) hist :
  run cfg ck m0 s = Ok (evs, b, m, s') -> populations evs = map (map (fun ch => Ind ch (fit ch))) hist ->
  (forall P ch, P ∈ hist -> ch ∈ P -> F64.is_nan (fit ch) = false) ->
  (exists P ch, P ∈ hist /\ ch ∈ P /\ b = Ind ch (fit ch)) /\ (forall P ch, P ∈ hist -> ch ∈ P -> fle (fitness b) (fit ch) = true).
Proof.
  intros H V Hn. destruct (run_members cfg ck m0 s evs b m s' H) as [HM (q & Hq & Hb)].
  assert (HV : forall q x, q ∈ populations evs -> x ∈ q -> exists P ch, P ∈ hist /\ ch ∈ P /\ x = Ind ch (fit ch)).
  { intros q0 x Hq0 Hx. rewrite V in Hq0. apply elem_of_list_fmap in Hq0 as (P & -> & HP). apply elem_of_list_fmap in Hx as (ch & -> & Hc). eauto. }
  split; [exact (HV q b Hq Hb)|]. intros P ch HP Hc.
  destruct (run_best cfg ck m0 s evs b m s' H) as [_ HB].
  { intros e q0 x He Hs Hx. destruct (HM e x He) as (q1 & Hq1 & Hx1).
    - destruct e; cbn in Hs |- *; try discriminate Hs; injection Hs as ->; auto.
    - destruct (HV q1 x Hq1 Hx1) as (P1 & c1 & HP1 & Hc1 & ->). exact (Hn P1 c1 HP1 Hc1). }
  assert (Hin : map (fun ch => Ind ch (fit ch)) P ∈ populations evs) by (rewrite V; apply elem_of_list_fmap; eauto).
  unfold populations in Hin. apply elem_of_list_omap in Hin as (e & He & Hp).
  apply (HB e (map (fun ch => Ind ch (fit ch)) P) (Ind ch (fit ch)) He).
  - destruct e; cbn in Hp |- *; congruence.
  - apply elem_of_list_fmap. eauto.
Qed.
