(** * Every history of populations is possible (C137) *)
From Verif Require Import GaSpec GaProofs GaAssembleModel GaAssembleSpec GaAssembleProofs GaAssembleRunProofs GaFitSelSpec GaFitSelProofs SelectionProofs MutationModel MutationProofs MutReachSpec MutReachProofs CrossoverProofs PopulationModel.
Open Scope nat_scope.

(** [g] put in front of a stream. *)
Definition draw_first (v : N) (r : rng) : rng := fun n => match n with 0 => v | S k => r k end.

Section Histories.
Context {G St X Y : Type} (cfg : config G St) (mk : X -> Y -> St) (K : list G -> Prop).
Definition rated (P : list (list G)) : list (individual G) := (fun ch => Ind ch (op_fitness cfg ch)) <$> P.
Definition good (P : list (list G)) : Prop := length P = population_size cfg /\ Forall K P.
Context (Hpos : 0 < population_size cfg) (Hfit : forall ch, K ch -> is_nan (op_fitness cfg ch) = false).
Context (STEP : forall m P x P', good P -> good P' -> exists x', forall y', exists y sel s1 pool ch s2 ch' s3 pop',
  op_select cfg m (rated P) (mk x y) = Ok (sel, s1) /\ omapM (index (rated P)) sel = Ok pool /\ op_crossover cfg m pool s1 = Ok (ch, s2) /\
  mutate_all cfg m ch s2 = Ok (ch', s3) /\ op_replace cfg m (rated P) (if op_requires_children_fitness cfg then eval_pop cfg ch' else ch') s3 = Ok (pop', mk x' y') /\
  chromosome <$> pop' = P').

Lemma rated_eval P : eval_pop cfg (rated P) = rated P.
Proof using Type. unfold eval_pop, rated. rewrite <- list_fmap_compose. reflexivity. Qed.
Lemma eval_rated pop : eval_pop cfg pop = rated (chromosome <$> pop).
Proof using Type. unfold eval_pop, rated. rewrite <- list_fmap_compose. reflexivity. Qed.
Lemma rated_best P : good P -> exists b, find_best (rated P) = Ok b.
Proof using Hpos Hfit.
  intros [Hl HK]. apply find_best_ok.
  - intros E. apply (f_equal length) in E. unfold rated in E. rewrite fmap_length in E. cbn in E. lia.
  - unfold rated. apply Forall_fmap. eapply Forall_impl; [exact HK|]. intros ch Hc. apply Hfit. exact Hc.
Qed.

Lemma loop_reach ck : (forall g, (c_end ck g < max_duration cfg)%N) -> forall future g m P best x, good P -> Forall good future ->
  exists x', forall y', exists y evs m' best', main_loop cfg ck (length future) g m (rated P) best (mk x y) = Ok (evs, (m', rated (default P (last future)), best', mk x' y')) /\
    populations evs = rated <$> future.
Proof using All.
  intros Hck. induction future as [|P' future IH]; intros g m P best x HP HF.
  { exists x. intros y'. exists y', [], m, best. split; reflexivity. }
  apply Forall_cons in HF as [HP' HF].
  set (m1 := Metrics g (m_population_size m) (Some (c_start ck g))).
  destruct (STEP m1 P x P' HP HP') as [x1 H1].
  destruct (rated_best P' HP') as [bg Hbg].
  set (improved := flt (fitness bg) (fitness best)).
  set (m2 := Metrics g (population_size cfg) (m_total_dur m1)).
  destruct (IH (g + 1) m2 P' (if improved then bg else best) x1 HP' HF) as [x' H2]. exists x'. intros y'.
  destruct (H2 y') as (y1 & evs2 & m' & best' & E2 & V2).
  destruct (H1 y1) as (y & sel & s1 & pool & ch & s2 & ch' & s3 & pop' & A1 & A2 & A3 & A4 & A5 & A6).
  assert (Hlen : length pop' = population_size cfg) by (rewrite <- (proj1 HP'), <- A6, fmap_length; reflexivity).
  exists y. eexists _, m', best'. split.
  - cbn [length main_loop]. unfold generation. fold m1. rewrite rated_eval, A1. cbn [mbind outcome_bind]. rewrite A2. cbn [mbind outcome_bind]. rewrite A3. cbn [mbind outcome_bind].
    rewrite A4. cbn [mbind outcome_bind]. rewrite A5. cbn [mbind outcome_bind]. rewrite (bool_decide_eq_true_2 (length pop' = population_size cfg)) by exact Hlen. cbn [rassert mbind outcome_bind].
    rewrite Hlen, eval_rated, A6, Hbg. cbn [mbind outcome_bind]. fold improved m2.
    replace (max_duration cfg <=? c_end ck g)%N with false by (symmetry; apply N.leb_gt, Hck). rewrite E2. cbn [mbind outcome_bind].
    replace (default P (last (P' :: future))) with (default P' (last future)) by (destruct future as [|Q future]; [reflexivity|]; cbn [last]; destruct (last_is_Some (Q :: future)) as [_ [z Hz]]; [discriminate|]; cbn [last] in Hz; rewrite Hz; reflexivity).
    reflexivity.
  - unfold populations. rewrite !omap_app. unfold populations in V2. rewrite V2. destruct improved; reflexivity.
Qed.

Lemma run_reach ck m0 raw future x (y' : Y) (Q : St -> Prop) : (forall g, (c_end ck g < max_duration cfg)%N) -> good (chromosome <$> raw) -> Forall good future ->
  length future = generation_limit cfg -> (forall y : Y, exists s, Q s /\ op_generate cfg (population_size cfg) s = Ok (raw, mk x y)) ->
  exists s evs b m s', Q s /\ run cfg ck m0 s = Ok (evs, b, m, s') /\ populations evs = rated <$> ((chromosome <$> raw) :: future).
Proof using All.
  intros Hck HP HF Hl Hgen. set (P0 := chromosome <$> raw) in *.
  destruct (rated_best P0 HP) as [best Hb].
  destruct (loop_reach ck Hck future 1 (Metrics (m_generation m0) (length (rated P0)) (Some (c_init ck))) P0 best x HP HF) as [x' H].
  destruct (H y') as (y & evs & m' & best' & E & V). destruct (Hgen y) as (s & Qs & Es).
  exists s. eexists _, best', _, (mk x' y'). split; [exact Qs|]. split.
  - unfold run. rewrite Es. cbn [mbind outcome_bind]. rewrite eval_rated. fold P0. rewrite Hb. cbn [mbind outcome_bind]. rewrite <- Hl, E. cbn [mbind outcome_bind]. reflexivity.
  - unfold populations. rewrite !omap_app. unfold populations in V. rewrite V. cbn. rewrite app_nil_r. reflexivity.
Qed.
End Histories.

(** Mutating all children into what is wanted. *)
Lemma mutate_all_reach {G St X Y} (cfg : config G St) (mk : X -> Y -> St) (K : list G -> Prop) m x :
  (forall c target y', K (chromosome c) -> K target -> exists y c', op_mutate cfg m c (mk x y) = Ok (c', mk x y') /\ chromosome c' = target) ->
  forall targets children y', length children = length targets -> Forall (fun c => K (chromosome c)) children -> Forall K targets ->
  exists y ch', mutate_all cfg m children (mk x y) = Ok (ch', mk x y') /\ chromosome <$> ch' = targets.
Proof.
  intros H. induction targets as [|t targets IH]; intros [|c children] y' Hl HC HT; try discriminate Hl.
  { exists y', []. split; reflexivity. }
  injection Hl as Hl. apply Forall_cons in HC as [Hc HC]. apply Forall_cons in HT as [Ht HT].
  destruct (IH children y' Hl HC HT) as (y1 & ch' & E & <-). destruct (H c t y1 Hc Ht) as (y & c' & E1 & <-).
  exists y, (c' :: ch'). split; [|reflexivity]. cbn [mutate_all]. rewrite E1. cbn [mbind outcome_bind]. rewrite E. reflexivity.
Qed.

(** FlipBit and Interchange: any target, and any stream left over. *)
Lemma flip_pass rate : flt f0 rate = true -> fle rate largest_draw = true -> forall ttarget pre rest tail t, length ttarget = length rest ->
  exists r, ofold (flip_step rate) (pre ++ rest, r, t) (seq (length pre) (length rest)) = Ok (pre ++ ttarget, tail, t).
Proof.
  intros H0 H1. induction ttarget as [|b ttarget IH]; intros pre [|a rest] tail t Hl; try discriminate Hl.
  { exists tail. reflexivity. }
  injection Hl as Hl. destruct (IH (pre ++ [b]) rest tail t Hl) as [r E].
  exists (draw_first (if Bool.eqb a b then 2 ^ 52 - 1 else 0) r). cbn [length seq].
  assert (Hstep : flip_step rate (pre ++ a :: rest, draw_first (if Bool.eqb a b then 2 ^ 52 - 1 else 0) r, t) (length pre) = Ok ((pre ++ [b]) ++ rest, r, t)).
  { unfold flip_step, uni_f64. change (rng_tail (draw_first (if Bool.eqb a b then 2 ^ 52 - 1 else 0)%N r)) with r.
    assert (Hx : (pre ++ a :: rest) !! length pre = Some a) by (rewrite lookup_app_r, Nat.sub_diag by lia; reflexivity).
    assert (L : flt largest_draw rate = false).
    { destruct (flt largest_draw rate) eqn:E1; [|reflexivity]. pose proof (F64.flt_le_trans _ _ _ E1 H1) as X. rewrite F64.flt_irrefl in X. discriminate. }
    destruct (Bool.eqb a b) eqn:Eab.
    + apply eqb_prop in Eab as ->. change (f_unit 52 (draw_first (2 ^ 52 - 1) r 0 mod 2 ^ 52)) with largest_draw. rewrite L. rewrite <- app_assoc. reflexivity.
    + change (f_unit 52 (draw_first 0 r 0 mod 2 ^ 52)) with f0. rewrite H0. rewrite (proj2 (index_Ok _ _ _) Hx). cbn [mbind outcome_bind].
      unfold assign. rewrite decide_True by (apply lookup_lt_Some in Hx; exact Hx). cbn [mbind outcome_bind].
      rewrite insert_app_r_alt, Nat.sub_diag by lia. rewrite <- app_assoc. destruct a, b; try discriminate Eab; reflexivity. }
  rewrite (ofold_cons_Ok _ _ _ _ _ Hstep). rewrite app_length in E. cbn [length] in E. rewrite Nat.add_1_r in E. rewrite E. rewrite <- app_assoc. reflexivity.
Qed.
Lemma flip_any rate ch target tail t : flt f0 rate = true -> fle rate largest_draw = true -> length target = length ch -> exists r, flip_bit rate ch r t = Ok (target, tail, t).
Proof. intros H0 H1 Hl. exact (flip_pass rate H0 H1 target [] ch tail t Hl). Qed.
Lemma swap_pass {G} rate : flt f0 rate = true -> forall (trest pre rest : list G) tail ttail, rest ≡ₚ trest ->
  exists r t, ofold (interchange_step rate (length (pre ++ rest))) (pre ++ rest, r, t) (seq (length pre) (length rest)) = Ok (pre ++ trest, tail, ttail).
Proof.
  intros H0. induction trest as [|g trest IH]; intros pre rest tail ttail Hp.
  { symmetry in Hp. apply Permutation_nil in Hp. subst rest. exists tail, ttail. reflexivity. }
  assert (Hg : g ∈ rest) by (rewrite Hp; left). apply elem_of_list_split in Hg as (a & b & ->).
  assert (Hab : a ++ b ≡ₚ trest). { apply (Permutation_cons_inv (a := g)). rewrite <- Hp. apply Permutation_middle. }
  assert (Hlen : length (a ++ g :: b) = S (length trest)) by (rewrite (Permutation_length Hp); reflexivity).
  pose (rest' := match a with [] => b | x :: a => a ++ x :: b end).
  assert (Hp' : rest' ≡ₚ trest).
  { unfold rest'. destruct a as [|x a]; [exact Hab|]. rewrite <- Hab. cbn [app]. symmetry. apply Permutation_middle. }
  destruct (IH (pre ++ [g]) rest' tail ttail Hp') as (r & t & E).
  destruct (gen_range_surj 0 (length (pre ++ a ++ g :: b)) (length pre + length a) t) as [t0 Ht]; [rewrite !app_length; cbn; lia|].
  exists (draw_first 0 r), t0. rewrite Hlen. cbn [seq].
  assert (Hstep : interchange_step rate (length (pre ++ a ++ g :: b)) (pre ++ a ++ g :: b, draw_first 0 r, t0) (length pre) = Ok ((pre ++ [g]) ++ rest', r, t)).
  { unfold interchange_step, uni_f64. change (rng_tail (draw_first 0 r)) with r. change (flt (f_unit 52 (draw_first 0 r 0 mod 2 ^ 52)) rate) with (flt f0 rate). rewrite H0, Ht. cbn [mbind outcome_bind].
    assert (Hj : (pre ++ a ++ g :: b) !! (length pre + length a) = Some g).
    { rewrite lookup_app_r by lia. replace (length pre + length a - length pre) with (length a) by lia. rewrite lookup_app_r by lia. rewrite Nat.sub_diag. reflexivity. }
    assert (Hi : exists x, (pre ++ a ++ g :: b) !! length pre = Some x /\ <[length pre := g]> (<[length pre + length a := x]> (pre ++ a ++ g :: b)) = (pre ++ [g]) ++ rest').
    { rewrite lookup_app_r, Nat.sub_diag by lia. unfold rest'. destruct a as [|x a]; cbn [app length].
      - exists g. split; [reflexivity|]. rewrite Nat.add_0_r. rewrite insert_app_r_alt, Nat.sub_diag by lia. rewrite insert_app_r_alt, Nat.sub_diag by lia. cbn. rewrite <- app_assoc. reflexivity.
      - exists x. split; [reflexivity|]. rewrite insert_app_r_alt by lia. rewrite insert_app_r_alt, Nat.sub_diag by lia.
        replace (length pre + S (length a) - length pre) with (S (length a)) by lia. change (<[0:=g]> (<[S (length a):=x]> (x :: a ++ g :: b))) with (g :: <[length a:=x]> (a ++ g :: b)).
        rewrite insert_app_r_alt, Nat.sub_diag by lia. rewrite <- app_assoc. reflexivity. }
    destruct Hi as (x & Hx & Hi).
    rewrite (proj2 (index_Ok _ _ _) Hj). cbn [mbind outcome_bind]. rewrite (proj2 (index_Ok _ _ _) Hx). cbn [mbind outcome_bind].
    unfold assign. rewrite decide_True by (apply lookup_lt_Some in Hj; exact Hj). cbn [mbind outcome_bind].
    rewrite decide_True by (rewrite insert_length; apply lookup_lt_Some in Hx; exact Hx). cbn [mbind outcome_bind]. rewrite Hi. reflexivity. }
  rewrite (ofold_cons_Ok _ _ _ _ _ Hstep).
  replace (pre ++ g :: trest) with ((pre ++ [g]) ++ trest) by (rewrite <- app_assoc; reflexivity). rewrite <- E. rewrite !app_length. cbn [length]. rewrite app_length in Hlen. cbn [length] in Hlen.
  assert (L : length rest' = length trest) by (apply Permutation_length; exact Hp').
  rewrite L. replace (length pre + 1) with (S (length pre)) by lia. replace (length pre + (length a + S (length b))) with (S (length pre) + length trest) by lia. reflexivity.
Qed.
Lemma interchange_any {G} rate (ch target : list G) tail ttail : flt f0 rate = true -> 0 < length ch -> target ≡ₚ ch -> exists r t, interchange rate ch r t = Ok (target, tail, ttail).
Proof.
  intros H0 Hl Hp. symmetry in Hp. destruct (swap_pass rate H0 target [] ch tail ttail Hp) as (r & t & E). exists r, t.
  unfold interchange, rassert. rewrite bool_decide_eq_true_2 by exact Hl. cbn [mbind outcome_bind]. exact E.
Qed.

(** ** Solvers with a stream for each operator *)
Section Assembled.
Context {G : Type} `{EqDecision G}.
Context (psize glimit : nat) (duration : N) (fit : list G -> f64) (generate : nat -> rng -> outcome (list (individual G) * rng)).
Context (sel : selection_op) (size : metrics -> nat) (xo : crossover_op) (mut : list G -> rng -> rng -> outcome (list G * rng * rng)).
Context (K : list G -> Prop).
Notation cfg := (assemble psize glimit duration fit generate sel size xo mut ReplBothParents).
Context (HX : forall a b r, K (chromosome a) -> K (chromosome b) -> exists c d r', crossover_single xo a b r = Ok ((c, d), r') /\ K (chromosome c) /\ K (chromosome d)).
Context (HM : forall ch target tail ttail, K ch -> K target -> exists r t, mut ch r t = Ok (target, tail, ttail)).
Context (Hp : 0 < psize) (Heven : Nat.even psize = true) (Hfit : forall ch, K ch -> is_nan (fit ch) = false) (Hsel : fills_pool sel size psize fit K).
Definition streams_of (x : rng * rng * rng) (y : rng * rng) : streams := Streams x.1.1 x.1.2 x.2 y.1 y.2.

Lemma assemble_step m P x P' : good cfg K P -> good cfg K P' -> exists x', forall y', exists y idx s1 pool ch s2 ch' s3 pop',
  op_select cfg m (rated cfg P) (streams_of x y) = Ok (idx, s1) /\ omapM (index (rated cfg P)) idx = Ok pool /\ op_crossover cfg m pool s1 = Ok (ch, s2) /\
  mutate_all cfg m ch s2 = Ok (ch', s3) /\ op_replace cfg m (rated cfg P) (if op_requires_children_fitness cfg then eval_pop cfg ch' else ch') s3 = Ok (pop', streams_of x' y') /\
  chromosome <$> pop' = P'.
Proof using All.
  intros [HL HK] [HL' HK']. cbn [population_size assemble] in HL, HL'. destruct x as [[g rs] rx].
  destruct (Hsel m (rated cfg P) rs) as (idx & rs' & E & Hl & Hb).
  { unfold rated. rewrite fmap_length. exact HL. }
  { unfold rated. apply Forall_fmap. eapply Forall_impl; [exact HK|]. intros ch Hc. split; [exact Hc|reflexivity]. }
  destruct (omapM_index_ok (rated cfg P) idx Hb) as [pool Hpool].
  assert (Hpk : length pool = psize /\ Forall (fun c => K (chromosome c)) pool).
  { pose proof (omapM_index_Forall2_inv _ _ _ Hpool) as F2. split; [apply Forall2_length in F2; congruence|].
    assert (HR : Forall (fun c => K (chromosome c)) (rated cfg P)) by (unfold rated; apply Forall_fmap; exact HK).
    clear -F2 HR. induction F2 as [|i x idx pool Hi F2 IH]; constructor; [|exact IH]. rewrite Forall_forall in HR. apply HR. eapply elem_of_list_lookup_2; eauto. }
  destruct Hpk as [Hlp HKp].
  destruct (crossover_apply_ok (crossover_single xo) (fun c => K (chromosome c)) pool rx) as (ch & rx' & Ex); [exact HKp|rewrite Hlp; exact Heven| |].
  { intros a b r Ha Hb2. destruct (HX a b r Ha Hb2) as (c & d & r' & E2 & _). eauto. }
  assert (Hlc : length ch = length P') by (destruct (crossover_apply_pairs _ _ _ _ _ Ex) as [Hlen _]; congruence).
  assert (HKc : Forall (fun c => K (chromosome c)) ch).
  { eapply (crossover_apply_post (crossover_single xo) (fun c => K (chromosome c)) (fun c => K (chromosome c)) pool); [exact HKp| |exact Ex].
    intros a b r c d r1 Ha Hb2 E1. destruct (HX a b r Ha Hb2) as (c' & d' & r2 & E2 & Hc & Hd). rewrite E1 in E2. injection E2 as -> -> ->. auto. }
  exists (g, rs', rx'). intros y'.
  destruct (mutate_all_reach cfg streams_of K m (g, rs', rx')) with (targets := P') (children := ch) (y' := y') as (y & ch' & Em & Et); [|exact Hlc|exact HKc|exact HK'|].
  { intros c target [tail ttail] Hc Ht. destruct (HM (chromosome c) target tail ttail Hc Ht) as (r & t & E2). exists (r, t), (Ind target (fitness c)). split; [|reflexivity].
    cbn [op_mutate assemble streams_of st_mut st_thread st_gen st_sel st_xo fst snd]. unfold mutate_individual. rewrite E2. reflexivity. }
  exists y, idx, (streams_of (g, rs', rx) y), pool, ch, (streams_of (g, rs', rx') y), ch', (streams_of (g, rs', rx') y'), ch'.
  split; [|split; [exact Hpool|split; [|split; [exact Em|split; [reflexivity|exact Et]]]]].
  - cbn [op_select assemble streams_of st_mut st_thread st_gen st_sel st_xo fst snd]. rewrite E. reflexivity.
  - cbn [op_crossover assemble streams_of st_mut st_thread st_gen st_sel st_xo fst snd]. rewrite Ex. reflexivity.
Qed.

(** Whatever the generator's, selection's and crossover's draws, the mutation's can bring about any later populations. *)
Lemma any_future ck m0 g rs rx raw g' future : (forall k, (c_end ck k < duration)%N) -> generate psize g = Ok (raw, g') -> length raw = psize -> Forall (fun c => K (chromosome c)) raw ->
  length future = glimit -> Forall (fun P => length P = psize /\ Forall K P) future ->
  exists rm rt evs b m s', run cfg ck m0 (Streams g rs rx rm rt) = Ok (evs, b, m, s') /\
    populations evs = map (map (fun ch => Ind ch (fit ch))) (map chromosome raw :: future).
Proof using All.
  intros Hck Hg Hl HK Hlf HF.
  destruct (run_reach cfg streams_of K Hp Hfit assemble_step ck m0 raw future (g', rs, rx) (g, g) (fun s => exists rm rt, s = Streams g rs rx rm rt)) as (s & evs & b & m & s' & (rm & rt & ->) & E & V).
  - exact Hck.
  - split; [rewrite fmap_length; exact Hl|]. apply Forall_fmap. exact HK.
  - exact HF.
  - exact Hlf.
  - intros [rm rt]. exists (Streams g rs rx rm rt). split; [eauto|]. cbn [op_generate assemble population_size st_gen st_sel st_xo st_mut st_thread]. rewrite Hg. reflexivity.
  - exists rm, rt, evs, b, m, s'. split; [exact E|exact V].
Qed.
End Assembled.

(** ** Generators: any rows, and any stream left over. *)
Lemma repeatM_any {A} (f : rng -> A * rng) (l : list A) : Forall (fun a => forall tail, exists r, f r = (a, tail)) l -> forall tail, exists r, repeatM (length l) f r = (l, tail).
Proof.
  induction 1 as [|a l Ha Hl IH]; intros tail; [exists tail; reflexivity|]. destruct (IH tail) as [r1 E1]. destruct (Ha r1) as [r E].
  exists r. cbn [length repeatM]. rewrite E, E1. reflexivity.
Qed.
Lemma repeatO_any {A} (f : rng -> outcome (A * rng)) (l : list A) : Forall (fun a => forall tail, exists r, f r = Ok (a, tail)) l -> forall tail, exists r, repeatO (length l) f r = Ok (l, tail).
Proof.
  induction 1 as [|a l Ha Hl IH]; intros tail; [exists tail; reflexivity|]. destruct (IH tail) as [r1 E1]. destruct (Ha r1) as [r E].
  exists r. cbn [length repeatO]. rewrite E. cbn [mbind outcome_bind]. rewrite E1. reflexivity.
Qed.
Lemma bits_any dim rows tail : 0 < dim -> Forall (fun row => length row = dim) rows -> exists r, gen_bits dim (length rows) r = Ok (ind_from <$> rows, tail).
Proof.
  intros Hd HF.
  destruct (repeatM_any (repeatM dim gen_bool) rows) with (tail := tail) as [r E].
  { eapply Forall_impl; [exact HF|]. intros row <- t. apply repeatM_any. apply Forall_forall. intros b _ t1. exists (draw_first (if b then 1 else 0) t1). destruct b; reflexivity. }
  exists r. unfold gen_bits, bit_strings_with_rng. rewrite (bool_decide_eq_true_2 (0 < dim)) by exact Hd. cbn [rassert mbind outcome_bind].
  unfold bit_strings_generate. cbn [bs_dim bs_rng]. rewrite E. reflexivity.
Qed.
Lemma permutations_any {G} (genes : list G) rows tail : Forall (fun row => row ≡ₚ genes) rows -> exists r, gen_permutations genes (length rows) r = Ok (ind_from <$> rows, tail).
Proof.
  intros HF. destruct (repeatO_any (shuffle genes) rows) with (tail := tail) as [r E].
  { eapply Forall_impl; [exact HF|]. intros row Hr t. apply shuffle_surj. exact Hr. }
  exists r. unfold gen_permutations, random_permutations_generate. cbn [perm_genes perm_rng]. rewrite E. reflexivity.
Qed.
Lemma from_rows {G} (rows : list (list G)) : map chromosome (ind_from <$> rows) = rows.
Proof. change (chromosome <$> (ind_from <$> rows) = rows). rewrite <- list_fmap_compose. apply list_fmap_id. Qed.

(** ** The two families *)
Section Bits.
Context (psize glimit : nat) (duration : N) (fit : list bool -> f64) (dim : nat) (rate : f64).
Context (sel : selection_op) (size : metrics -> nat) (xo : crossover_op).
Context (Ho : order_based xo = false) (Hc : cuts_fit xo dim) (Hd : 0 < dim) (Hp : 0 < psize) (He : Nat.even psize = true) (Hs : forall m, size m = psize).
Context (Hsel : dependable_on sel psize fit (fun ch => length ch = dim)) (H0 : flt f0 rate = true) (H1 : fle rate largest_draw = true).
Notation cfg := (assemble psize glimit duration fit (gen_bits dim) sel size xo (flip_bit rate) ReplBothParents).
Notation K := (fun ch : list bool => length ch = dim).

Lemma bits_future ck m0 g rs rx raw g' future : (forall k, (c_end ck k < duration)%N) -> gen_bits dim psize g = Ok (raw, g') ->
  length future = glimit -> Forall (fun P => length P = psize /\ Forall (fun ch => length ch = dim) P) future ->
  exists rm rt evs b m s', run cfg ck m0 (Streams g rs rx rm rt) = Ok (evs, b, m, s') /\
    populations evs = map (map (fun ch => Ind ch (fit ch))) (map chromosome raw :: future).
Proof using All.
  intros Hck Hg Hlf HF. destruct (gen_bits_spec dim psize g Hd) as (raw2 & g2 & E2 & L2 & K2). rewrite Hg in E2. injection E2 as <- <-.
  apply (any_future psize glimit duration fit (gen_bits dim) sel size xo (flip_bit rate) K) with (g' := g'); auto.
  - intros a b r Ha Hb. apply xo_length_ok; auto.
  - intros ch target tail ttail Ha Hb. destruct (flip_any rate ch target tail ttail H0 H1) as [r E]; [congruence|]. exists r, ttail. exact E.
  - exact (dependable_on_nan _ _ _ _ Hsel).
  - apply dependable_on_fills; assumption.
Qed.
Lemma bits_history ck m0 rs rx P0 future : (forall k, (c_end ck k < duration)%N) ->
  length future = glimit -> Forall (fun P => length P = psize /\ Forall (fun ch => length ch = dim) P) (P0 :: future) ->
  exists g rm rt evs b m s', run cfg ck m0 (Streams g rs rx rm rt) = Ok (evs, b, m, s') /\
    populations evs = map (map (fun ch => Ind ch (fit ch))) (P0 :: future).
Proof using All.
  intros Hck Hlf HF. apply Forall_cons in HF as [[HL HK] HF]. destruct (bits_any dim P0 (fun _ => 0%N) Hd HK) as [g Eg]. rewrite HL in Eg.
  destruct (bits_future ck m0 g rs rx _ _ future Hck Eg Hlf HF) as (rm & rt & evs & b & m & s' & E & V). rewrite from_rows in V. exists g, rm, rt, evs, b, m, s'. auto.
Qed.
End Bits.

Section Perms.
Context {G : Type} `{EqDecision G} (psize glimit : nat) (duration : N) (fit : list G -> f64) (genes : list G) (rate : f64).
Context (sel : selection_op) (size : metrics -> nat) (xo : crossover_op).
Context (Hnd : NoDup genes) (Hne : genes <> []) (Ho : order_based xo = true) (Hf : enough_fuel xo (length genes)) (Hp : 0 < psize) (He : Nat.even psize = true) (Hs : forall m, size m = psize).
Context (Hsel : dependable_on sel psize fit (fun ch => ch ≡ₚ genes)) (H0 : flt f0 rate = true).
Notation cfg := (assemble psize glimit duration fit (gen_permutations genes) sel size xo (interchange rate) ReplBothParents).
Notation K := (fun ch : list G => ch ≡ₚ genes).

Lemma perms_future ck m0 g rs rx raw g' future : (forall k, (c_end ck k < duration)%N) -> gen_permutations genes psize g = Ok (raw, g') ->
  length future = glimit -> Forall (fun P => length P = psize /\ Forall (fun ch => ch ≡ₚ genes) P) future ->
  exists rm rt evs b m s', run cfg ck m0 (Streams g rs rx rm rt) = Ok (evs, b, m, s') /\
    populations evs = map (map (fun ch => Ind ch (fit ch))) (map chromosome raw :: future).
Proof using All.
  intros Hck Hg Hlf HF. destruct (gen_permutations_spec genes psize g) as (raw2 & g2 & E2 & L2 & K2). rewrite Hg in E2. injection E2 as <- <-.
  assert (Hl : 0 < length genes) by (destruct genes; [congruence|cbn; lia]).
  apply (any_future psize glimit duration fit (gen_permutations genes) sel size xo (interchange rate) K) with (g' := g'); auto.
  - intros a b r Ha Hb. apply xo_perm_ok; auto.
  - intros ch target tail ttail Ha Hb. apply interchange_any; [exact H0|rewrite Ha; exact Hl|rewrite Hb, Ha; reflexivity].
  - exact (dependable_on_nan _ _ _ _ Hsel).
  - apply dependable_on_fills; assumption.
Qed.
Lemma perms_history ck m0 rs rx P0 future : (forall k, (c_end ck k < duration)%N) ->
  length future = glimit -> Forall (fun P => length P = psize /\ Forall (fun ch => ch ≡ₚ genes) P) (P0 :: future) ->
  exists g rm rt evs b m s', run cfg ck m0 (Streams g rs rx rm rt) = Ok (evs, b, m, s') /\
    populations evs = map (map (fun ch => Ind ch (fit ch))) (P0 :: future).
Proof using All.
  intros Hck Hlf HF. apply Forall_cons in HF as [[HL HK] HF]. destruct (permutations_any genes P0 (fun _ => 0%N) HK) as [g Eg]. rewrite HL in Eg.
  destruct (perms_future ck m0 g rs rx _ _ future Hck Eg Hlf HF) as (rm & rt & evs & b & m & s' & E & V). rewrite from_rows in V. exists g, rm, rt, evs, b, m, s'. auto.
Qed.
End Perms.
