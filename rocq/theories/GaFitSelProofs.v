(** * Solvers with RouletteWheel and Boltzmann selection; odd populations *)
From Verif Require Import GaAssembleModel GaAssembleSpec GaAssembleProofs GaAssembleRunProofs GaOrderProofs GaFitSelSpec GaSpec GaProofs SelectionSpec SelectionProofs SelectionRProofs SusProofs PopulationSpec PopulationProofs CrossoverProofs F64R.
From Coq Require Import Reals Lra.
From Flocq Require Import Core BinarySingleNaN.
Open Scope nat_scope.

(** ** Sums of bounded fitness values do not overflow *)
Lemma f2r_2_900 : f2r f_2_900 = bpow radix2 900.
Proof.
  unfold f2r, f_2_900. cbn [SF2R cond_Zopp]. unfold F2R. cbn [Fnum Fexp]. change 4503599627370496%Z with (2 ^ 52)%Z.
  change (IZR (2 ^ 52)) with (bpow radix2 52). rewrite <- bpow_plus. reflexivity.
Qed.
Lemma whole_multiple k : (Z.of_nat k < 2 ^ 53)%Z -> rnd (INR k * bpow radix2 900) = (INR k * bpow radix2 900)%R.
Proof.
  intros H. apply round_generic; [auto with typeclass_instances|]. apply generic_format_FLT.
  apply (FLT_spec radix2 (-1074) 53 _ (Float radix2 (Z.of_nat k) 900)).
  - unfold F2R. cbn [Fnum Fexp]. rewrite <- INR_IZR_INZ. reflexivity.
  - cbn [Fnum]. rewrite Z.abs_eq by lia. exact H.
  - cbn [Fexp]. lia.
Qed.
Lemma below_bound k : (Z.of_nat k < 2 ^ 53)%Z -> (INR k * bpow radix2 900 < bpow radix2 1024)%R.
Proof.
  intros H. apply Rlt_trans with (bpow radix2 53 * bpow radix2 900)%R.
  - apply Rmult_lt_compat_r; [apply bpow_gt_0|]. rewrite INR_IZR_INZ. change (bpow radix2 53) with (IZR (2 ^ 53)). apply IZR_lt. exact H.
  - rewrite <- bpow_plus. apply bpow_lt. lia.
Qed.
Lemma sum_bounded (l : list f64) : forall k acc, (Z.of_nat (k + length l) < 2 ^ 53)%Z ->
  fvalid acc -> ffinite acc = true -> (0 <= f2r acc <= INR k * bpow radix2 900)%R ->
  Forall (fun v => fvalid v /\ fle f0 v = true /\ fle v f_2_900 = true) l ->
  fvalid (foldl fadd acc l) /\ ffinite (foldl fadd acc l) = true /\ (0 <= f2r (foldl fadd acc l))%R.
Proof.
  induction l as [|v l IH]; intros k acc Hk Va Fa Ha HF; cbn [foldl]; [tauto|].
  apply Forall_cons in HF as [(Vv & H0 & H1) HF].
  assert (Fv : ffinite v = true).
  { destruct v as [s|s| |s m e]; try reflexivity; [destruct s; [vm_compute in H0; discriminate H0|vm_compute in H1; discriminate H1]|vm_compute in H0; discriminate H0]. }
  assert (R0 : (0 <= f2r v)%R). { apply fle_R in H0; [rewrite f2r_f0 in H0; exact H0|apply fvalid_f0|exact Vv|reflexivity|exact Fv]. }
  assert (R1 : (f2r v <= bpow radix2 900)%R). { apply fle_R in H1; [rewrite f2r_2_900 in H1; exact H1|exact Vv|reflexivity|exact Fv|reflexivity]. }
  cbn [length] in Hk.
  assert (Hs : (0 <= rnd (f2r acc + f2r v) <= INR (S k) * bpow radix2 900)%R).
  { split; [rewrite <- rnd_0; apply rnd_le; lra|]. rewrite <- (whole_multiple (S k)) by lia. apply rnd_le. rewrite S_INR. lra. }
  destruct (fadd_R acc v Va Vv Fa Fv) as [E F].
  { rewrite Rabs_pos_eq by (apply Hs). eapply Rle_lt_trans; [apply Hs|]. apply below_bound. lia. }
  apply (IH (S k)); [lia|apply fvalid_add; assumption|exact F|rewrite E; exact Hs|exact HF].
Qed.

Section Fills.
Context {G : Type}.
Lemma roulette_fills (size : metrics -> nat) psize (fit : list G -> f64) (K : list G -> Prop) : 0 < psize -> (forall m, size m = psize) ->
  dependable_on SelRouletteWheel psize fit K -> fills_pool SelRouletteWheel size psize fit K.
Proof.
  intros Hpos Hsize [Hn Hf] m pop r Hl HF. unfold select_fn. rewrite Hsize.
  assert (HV : Forall (fun v => fvalid v /\ fle f0 v = true /\ fle v f_2_900 = true) (fitness <$> pop)).
  { apply Forall_fmap. eapply Forall_impl; [exact HF|]. intros x [Hk Hx]. cbn beta. unfold compose. rewrite Hx. apply Hf, Hk. }
  destruct (sum_bounded (fitness <$> pop) 0 f0) as (V & F & P); [rewrite fmap_length; lia|apply fvalid_f0|reflexivity|rewrite f2r_f0; cbn [INR]; lra|exact HV|].
  destruct (roulette_spec psize pop r) as (sel & r' & E & Hlen & _).
  - intros ->. cbn in Hl. lia.
  - apply Forall_fmap in HV. eapply Forall_impl; [exact HV|]. intros x Hx. exact (proj1 Hx).
  - exact F.
  - apply fle_R; [apply fvalid_f0|exact V|reflexivity|exact F|]. rewrite f2r_f0. exact P.
  - exists sel, r'. split; [exact E|]. split; [exact Hlen|].
    destruct (selection_counts pop psize r) as (_ & _ & _ & _ & _ & _ & _ & (sel2 & r2 & E2 & _ & Hb)). rewrite E in E2. injection E2 as <- _. exact Hb.
Qed.
Lemma boltzmann_fills (size : metrics -> nat) powf exp alpha temp_0 max_gen psize (fit : list G -> f64) (K : list G -> Prop) : 0 < psize -> (forall m, size m = psize) ->
  dependable_on (SelBoltzmann powf exp alpha temp_0 max_gen) psize fit K -> fills_pool (SelBoltzmann powf exp alpha temp_0 max_gen) size psize fit K.
Proof.
  intros Hpos Hsize (A0 & A1 & T0 & T1 & _ & Hw) m pop r Hl HF. unfold select_fn. rewrite Hsize.
  destruct (selection_counts pop psize r) as (_ & _ & _ & _ & _ & _ & SB & _).
  destruct (SB powf exp alpha temp_0 (m_generation m) max_gen) as [_ (sel & r' & E & H1 & H2)]; [|eauto].
  intros [B|[B|[B|[_ B]]]].
  - rewrite A0, A1 in B. discriminate.
  - rewrite T0, T1 in B. discriminate.
  - lia.
  - apply Exists_exists in B as (w & Hin & Hb). unfold boltzmann_weights in Hin. apply elem_of_list_fmap in Hin as (x & -> & Hx).
    rewrite Forall_forall in HF. destruct (HF x Hx) as [Hk Hfx]. rewrite Hfx in Hb. pose proof (Hw (chromosome x) (m_generation m) Hk) as W. unfold temperature in W.
    rewrite W in Hb. discriminate.
Qed.
Lemma dependable_on_nan sel n (fit : list G -> f64) (K : list G -> Prop) : dependable_on sel n fit K -> forall ch, K ch -> F64.is_nan (fit ch) = false.
Proof. destruct sel; cbn [dependable_on]; try tauto. intros [_ Hf] ch Hk. destruct (Hf ch Hk) as (_ & H0 & _). exact (fle_nan_r _ _ H0). Qed.
End Fills.
Lemma dependable_on_fills {G} `{EqDecision G} sel size psize (fit : list G -> f64) (K : list G -> Prop) : 0 < psize -> (forall m, size m = psize) ->
  dependable_on sel psize fit K -> fills_pool sel size psize fit K.
Proof.
  intros Hp Hs Hd. pose proof (dependable_on_nan _ _ _ _ Hd) as Hn.
  destruct sel; try (apply dependable_fills; [exact Hp|exact Hs|exact (proj1 Hd)|exact Hn]); [apply roulette_fills|apply boltzmann_fills]; assumption.
Qed.

(** ** Odd populations *)
Section Odd.
Context {G : Type} `{EqDecision G}.
Context (psize glimit : nat) (duration : N) (fit : list G -> f64) (generate : nat -> rng -> outcome (list (individual G) * rng)).
Context (sel : selection_op) (size : metrics -> nat) (xo : crossover_op) (mut : list G -> rng -> rng -> outcome (list G * rng * rng)) (repl : replacement_op).
Context (K : list G -> Prop).
Notation cfg := (assemble psize glimit duration fit generate sel size xo mut repl).
Lemma odd_panics ck m0 s : 
  (forall r, exists raw r', generate psize r = Ok (raw, r') /\ length raw = psize /\ Forall (fun x => K (chromosome x)) raw) ->
  (forall ch, K ch -> F64.is_nan (fit ch) = false) -> fills_pool sel size psize fit K -> Nat.odd psize = true -> 0 < glimit -> run cfg ck m0 s = Panic.
Proof using Type.
  intros HG Hfit Hsel Hodd Hlim. unfold run. cbn [op_generate population_size assemble].
  destruct (HG (st_gen s)) as (pop & r' & E & Hl & HF). rewrite E. cbn [mbind outcome_bind].
  assert (HK : Forall (fun x => K (chromosome x) /\ fitness x = fit (chromosome x)) (eval_pop cfg pop)).
  { apply Forall_fmap. eapply Forall_impl; [exact HF|]. intros x Hx. split; [exact Hx|reflexivity]. }
  assert (Hle : length (eval_pop cfg pop) = psize) by (unfold eval_pop; rewrite fmap_length; exact Hl).
  destruct (find_best_ok (eval_pop cfg pop)) as [best Hb].
  { intros E0. rewrite E0 in Hle. cbn in Hle. rewrite <- Hle in Hodd. discriminate. }
  { eapply Forall_impl; [exact HK|]. intros x [Hk Hx]. cbn beta. rewrite Hx. apply Hfit, Hk. }
  rewrite Hb. cbn [mbind outcome_bind]. cbn [generation_limit assemble].
  destruct glimit as [|l]; [lia|]. cbn [main_loop]. unfold generation.
  rewrite (eval_pop_idem cfg (eval_pop cfg pop) (eval_pop_evaluated cfg pop)).
  cbn [op_select assemble].
  edestruct Hsel as (idx & r2 & E2 & Hli & Hbi); [exact Hle|exact HK|]. rewrite E2. cbn [mbind outcome_bind].
  destruct (omapM_index_ok _ _ Hbi) as [pool Hp].
  match type of Hp with ?x = _ => match goal with |- context [omapM (index ?q) idx] => change (omapM (index q) idx) with x end end. rewrite Hp. cbn [mbind outcome_bind op_crossover assemble].
  apply omapM_index_Forall2_inv, Forall2_length in Hp. rewrite crossover_apply_odd by (rewrite <- Hp, Hli; exact Hodd). reflexivity.
Qed.
End Odd.

(** ** The three families of solvers *)
Section Family.
Context {G : Type} `{EqDecision G}.
Lemma family_runs psize glimit duration (fit : list G -> f64) generate sel size xo mut repl (K : list G -> Prop) ck m0 s :
  (forall a b r, K (chromosome a) -> K (chromosome b) -> exists c d r', crossover_single xo a b r = Ok ((c, d), r') /\ K (chromosome c) /\ K (chromosome d)) ->
  (forall ch r t, K ch -> exists ch' r' t', mut ch r t = Ok (ch', r', t') /\ K ch') ->
  (forall r, exists raw r', generate psize r = Ok (raw, r') /\ length raw = psize /\ Forall (fun x => K (chromosome x)) raw) ->
  0 < psize -> (forall m, size m = psize) -> dependable_on sel psize fit K ->
  (Nat.even psize = true -> exists evs b m s', run (assemble psize glimit duration fit generate sel size xo mut repl) ck m0 s = Ok (evs, b, m, s')) /\
  (Nat.odd psize = true -> 0 < glimit -> run (assemble psize glimit duration fit generate sel size xo mut repl) ck m0 s = Panic).
Proof using Type.
  intros HX HM HG Hp Hs Hd. pose proof (dependable_on_nan _ _ _ _ Hd) as Hn. pose proof (dependable_on_fills sel size psize fit K Hp Hs Hd) as Hf. split.
  - intros He. apply (assemble_live _ _ _ _ _ _ _ _ _ _ K); auto.
  - intros Ho Hl. apply (odd_panics _ _ _ _ _ _ _ _ _ _ K); auto.
Qed.
Lemma perm_family psize glimit duration (fit : list G -> f64) (genes : list G) sel size xo mop repl ck m0 s :
  NoDup genes -> genes <> [] -> order_based xo = true -> enough_fuel xo (length genes) ->
  0 < psize -> (forall m, size m = psize) -> dependable_on sel psize fit (fun ch => ch ≡ₚ genes) ->
  (Nat.even psize = true -> exists evs b m s', run (assemble psize glimit duration fit (gen_permutations genes) sel size xo (mutation_fn mop) repl) ck m0 s = Ok (evs, b, m, s')) /\
  (Nat.odd psize = true -> 0 < glimit -> run (assemble psize glimit duration fit (gen_permutations genes) sel size xo (mutation_fn mop) repl) ck m0 s = Panic).
Proof using Type.
  intros Hnd Hne Ho Hf Hp Hs Hd. assert (Hl : 0 < length genes) by (destruct genes; [congruence|cbn; lia]).
  apply (family_runs _ _ _ _ _ _ _ _ _ _ (fun ch => ch ≡ₚ genes)); auto.
  - intros a c r Ha Hb. apply xo_perm_ok; auto.
  - intros ch r t Hch. destruct (mutation_ok mop ch r t) as (ch' & r' & t' & E & P); [rewrite Hch; exact Hl|]. exists ch', r', t'. split; [exact E|]. rewrite P. exact Hch.
  - intros r. apply gen_permutations_spec.
Qed.
End Family.
Lemma bits_family psize glimit duration fit dim sel size xo (mut : list bool -> rng -> rng -> outcome (list bool * rng * rng)) repl ck m0 s :
  ((exists mop, mut = mutation_fn mop) \/ (exists rate, mut = flip_bit rate)) -> order_based xo = false -> cuts_fit xo dim -> 0 < dim ->
  0 < psize -> (forall m, size m = psize) -> dependable_on sel psize fit (fun ch => length ch = dim) ->
  (Nat.even psize = true -> exists evs b m s', run (assemble psize glimit duration fit (gen_bits dim) sel size xo mut repl) ck m0 s = Ok (evs, b, m, s')) /\
  (Nat.odd psize = true -> 0 < glimit -> run (assemble psize glimit duration fit (gen_bits dim) sel size xo mut repl) ck m0 s = Panic).
Proof.
  intros Hmut Ho Hk Hd Hp Hs Hde. apply (family_runs _ _ _ _ _ _ _ _ _ _ (fun ch => length ch = dim)); auto.
  - intros a c r Ha Hb. apply xo_length_ok; auto.
  - intros ch r t Hl. destruct Hmut as [[mop ->]|[rate ->]]; [apply mutation_length_ok; auto|apply flip_length_ok; auto].
  - intros r. apply gen_bits_spec. exact Hd.
Qed.
Lemma points_family `{EqDecision f64} psize glimit duration fit kind cs sel size xo mop repl ck m0 s :
  order_based xo = false -> cuts_fit xo (length cs) -> cs <> [] -> Forall proper_range cs ->
  0 < psize -> (forall m, size m = psize) -> dependable_on sel psize fit (in_space cs) ->
  (Nat.even psize = true -> exists evs b m s', run (assemble psize glimit duration fit (gen_points kind cs) sel size xo (mutation_fn mop) repl) ck m0 s = Ok (evs, b, m, s')) /\
  (Nat.odd psize = true -> 0 < glimit -> run (assemble psize glimit duration fit (gen_points kind cs) sel size xo (mutation_fn mop) repl) ck m0 s = Panic).
Proof.
  intros Ho Hk Hc Hr Hp Hs Hde. assert (Hd : 0 < length cs) by (destruct cs; [congruence|cbn; lia]).
  apply (family_runs _ _ _ _ _ _ _ _ _ _ (in_space cs)); auto.
  - intros a b r. apply in_space_xo; auto.
  - intros ch r t [Hl HS]. destruct (mutation_ok mop ch r t) as (ch' & r' & t' & E & P); [lia|]. exists ch', r', t'. split; [exact E|]. apply (in_space_perm cs ch ch' P). split; auto.
  - intros r. destruct (gen_points_spec kind cs psize r Hc) as (raw & r' & E & Hl & _). exists raw, r'. split; [exact E|]. split; [exact Hl|]. eapply gen_points_space; [exact Hr|exact E].
Qed.
