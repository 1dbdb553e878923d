(** * Property theorems: firefly algorithm (C46 - C50, C67 - C69) *)
From Verif Require Import FfModel FfSpec FfProofs FfRunProofs FfProbeProofs PsoProbeProofs BuilderSpec ProbeSpec.
Open Scope nat_scope.

(** In the theorems: [f] the objective, [dist] the distance, [powf] and [sq] arbitrary functions for powf and powi(_, 2), [c] the configuration,
    [pop] the initial population, [r] the random numbers, [evs] the callbacks and [pop'] the final population.  [l] lists, for each
    generation, the population after it and the reported value and position. *)

(** ** C46 *)
Theorem C46_bounds_and_shape :
  forall f dist powf sq c pop r evs pop', fle (ff_lower c) (ff_upper c) = true ->
  ff_run f dist powf sq c pop r = Ok (evs, pop') ->
  exists l, evs = ff_protocol l /\ length l = max_generations c /\ pop' = population_after pop l /\
    forall p b x, (p, b, x) ∈ l -> same_shape pop p /\ Forall (Forall (in_bounds (ff_lower c) (ff_upper c))) p /\ x ∈ p.
Proof.
  intros f dist powf sq c pop r evs pop' Hle H. destruct (run_history f dist powf sq c Hle pop r evs pop' H) as (l & L & -> & -> & HH).
  exists l. split; [reflexivity|]. split; [exact L|]. split; [reflexivity|]. intros p b x Hin. apply history_shape in HH; [|exact Hle].
  exact (proj1 (Forall_forall _ _) HH (p, b, x) Hin).
Qed.
Print Assumptions C46_bounds_and_shape.
(** The final population: no hypothesis but a run of at least one generation. *)
Theorem C46_final_population :
  forall f dist powf sq c pop r evs pop', fle (ff_lower c) (ff_upper c) = true -> 0 < max_generations c ->
  ff_run f dist powf sq c pop r = Ok (evs, pop') ->
  length pop' = length pop /\ (forall i x x', pop !! i = Some x -> pop' !! i = Some x' -> length x' = length x) /\
  forall x' v, x' ∈ pop' -> v ∈ x' -> is_nan v = true \/ (fle (ff_lower c) v = true /\ fle v (ff_upper c) = true).
Proof.
  intros f dist powf sq c pop r evs pop' Hle HG H. destruct (C46_bounds_and_shape _ _ _ _ _ _ _ _ _ Hle H) as (l & _ & L & -> & HA).
  destruct l as [|[[p b] x] l _] using rev_ind; [cbn in L; lia|]. unfold population_after. rewrite map_app. cbn [map fst]. rewrite PsoBestProofs.last_snoc.
  destruct (HA p b x) as (SH & FA & _); [apply elem_of_app; right; apply elem_of_list_singleton; reflexivity|]. unfold same_shape in SH. split.
  - apply (f_equal length) in SH. rewrite !map_length in SH. congruence.
  - split.
    + intros i y y' Hy Hy'. apply (f_equal (lookup i)) in SH. change (map length pop) with (length <$> pop) in SH. change (map length p) with (length <$> p) in SH.
      rewrite !list_lookup_fmap, Hy, Hy' in SH. cbn in SH. congruence.
    + intros y v Hy Hv. exact (proj1 (Forall_forall _ _) (proj1 (Forall_forall _ _) FA y Hy) v Hv).
Qed.
Print Assumptions C46_final_population.

Definition ff_square (x : list f64) : f64 := match x with a :: _ => fmul a a | [] => S754_nan end.
Definition ff_first (x : list f64) : f64 := match x with a :: _ => a | [] => S754_nan end.
Definition one_pow (_ _ : f64) : f64 := f1.
Definition self_sq (x : f64) : f64 := fmul x x.
Definition half_draws : rng := fun _ => 4602678819172646912%N.  (* 0.5 *)
(* 0.5, and the least positive number of [0, 1) for the distribution, in turn *)
Definition two_draws : rng := fun n => if Nat.even n then 4602678819172646912%N else 4602678819172646913%N.
(* -0.5, then 0.5 for ever *)
Definition minus_then_plus : rng := fun n => match n with 0 => 13826050856027422720%N | _ => 4602678819172646912%N end.
Definition small_cfg (gens size : nat) : ff_cfg := FfCfg 1 (fneg (f_of_nat 5)) (f_of_nat 5) gens size f1 f1 f_0_01 f_0_97 2 gen_f64.
Definition small_run (f : list f64 -> f64) (gens size : nat) (pop : list (list f64)) (r : rng) : outcome (list ff_event * list (list f64)) :=
  ff_run f (cartesian_distance self_sq) one_pow self_sq (small_cfg gens size) pop r.
Example C46_nonvacuous :
  fle (ff_lower (small_cfg 3 2)) (ff_upper (small_cfg 3 2)) = true /\
  match small_run ff_square 3 2 [[f1]; [f_of_nat 4]; [f_of_nat 2]] half_draws with
  | Ok (evs, pop') => length evs = 11 /\ length pop' = 3 /\ pop' <> [[f1]; [f_of_nat 4]; [f_of_nat 2]]
  | _ => False
  end.
Proof. vm_compute. repeat split; discriminate. Qed.

(** ** C47 *)
Lemma fle_flt_false x y : fle x y = true -> flt y x = false.
Proof.
  intros H. destruct (flt y x) eqn:E; [|reflexivity]. assert (Nx : is_nan x = false) by (eapply flt_nan_r; eauto). assert (Ny : is_nan y = false) by (eapply flt_nan_l; eauto).
  rewrite flt_fle_neg in E by auto. rewrite H in E. discriminate.
Qed.
Lemma feq_fle x y : feq x y = true -> fle x y = true /\ flt x y = false.
Proof. unfold feq, SFeqb, fle, SFleb, flt, SFltb. destruct (SFcompare x y) as [[]|]; try discriminate. auto. Qed.
(** What becomes of a candidate coordinate [x]: NaN and what lies strictly inside is kept, what lies above goes to the upper bound and what
    lies below to the lower bound; but what equals the upper bound goes to the lower bound. *)
Theorem C47_bound_handling :
  forall lo hi x, fle lo hi = true ->
  (is_nan x = true -> bound_step lo hi x = x) /\
  (flt lo x = true -> flt x hi = true -> bound_step lo hi x = x) /\
  (flt hi x = true -> bound_step lo hi x = hi) /\
  (fle x lo = true -> bound_step lo hi x = lo) /\
  (feq x hi = true -> bound_step lo hi x = lo).
Proof.
  intros lo hi x Hle. pose proof (bound_step_settled lo hi x Hle) as S.
  assert (NL : forall y z, flt y z = true -> is_nan y = false /\ is_nan z = false) by (intros y z H; split; [eapply flt_nan_l|eapply flt_nan_r]; eauto).
  assert (NE : forall y z, fle y z = true -> is_nan y = false /\ is_nan z = false) by (intros y z H; destruct y as [[]|[]| |[] ? ?], z as [[]|[]| |[] ? ?]; try discriminate; auto).
  destruct S as [[N E]|[(A & B & E)|[[A E]|[[A|A] E]]]].
  - split_and!; intros; [exact E|exact E| | |]; exfalso.
    + destruct (NL _ _ H). congruence.
    + destruct (NE _ _ H). congruence.
    + destruct (NE _ _ (proj1 (feq_fle _ _ H))). congruence.
  - destruct (NL _ _ A) as [_ N]. split_and!; intros; [exact E|exact E| | |]; exfalso.
    + rewrite (flt_asym _ _ B) in H. discriminate.
    + rewrite (fle_flt_false _ _ H) in A. discriminate.
    + rewrite (proj2 (feq_fle _ _ H)) in B. discriminate.
  - destruct (NL _ _ A) as [_ N]. split_and!; intros; [congruence| |exact E| |]; exfalso.
    + rewrite (flt_asym _ _ A) in H0. discriminate.
    + pose proof (fle_trans _ _ _ H Hle) as X. rewrite (fle_flt_false _ _ X) in A. discriminate.
    + rewrite (fle_flt_false _ _ (proj1 (feq_fle _ _ H))) in A. discriminate.
  - destruct (NE _ _ A) as [N _]. split_and!; intros; [congruence| | |exact E|exact E]; exfalso.
    + rewrite (fle_flt_false _ _ A) in H. discriminate.
    + pose proof (fle_trans _ _ _ A Hle) as X. rewrite (fle_flt_false _ _ X) in H. discriminate.
  - destruct (feq_fle _ _ A) as [X Y]. destruct (NE _ _ X) as [N _]. split_and!; intros; [congruence| | |exact E|exact E]; exfalso.
    + congruence.
    + rewrite (fle_flt_false _ _ X) in H. discriminate.
Qed.
Print Assumptions C47_bound_handling.
(** So it is not a clamp: x = 4.5 plus a step of 0.5 reaches the upper bound 5 and is thrown to the lower bound -5. *)
Theorem C47_clamp_refuted :
  exists f dist powf sq c pop r evs pop', ff_run f dist powf sq c pop r = Ok (evs, pop') /\ fle (ff_lower c) (ff_upper c) = true /\
    pop = [[f_of_bits 4616752568008179712]] /\ (* 4.5 *)
    fadd (f_of_bits 4616752568008179712) fhalf = ff_upper c /\ pop' = [[ff_lower c]].
Proof.
  exists ff_square, (cartesian_distance self_sq), one_pow, self_sq, (small_cfg 1 1), [[f_of_bits 4616752568008179712]], half_draws.
  destruct (small_run ff_square 1 1 [[f_of_bits 4616752568008179712]] half_draws) as [[evs pop']| |] eqn:E; [|vm_compute in E; discriminate E|vm_compute in E; discriminate E].
  exists evs, pop'. split; [exact E|]. vm_compute in E. injection E as _ <-. split; [reflexivity|]. split; [reflexivity|]. split; reflexivity.
Qed.
Print Assumptions C47_clamp_refuted.


(** ** C48 *)
(** In generation 0 every firefly that sees a brighter one among the first population_size ends with each coordinate NaN or at a bound:
    whatever the objective, the distance, the distribution and the other parameters. *)
Theorem C48_first_generation :
  forall f dist powf sq c pop r evs pop', fle (ff_lower c) (ff_upper c) = true -> 0 < max_generations c ->
  ff_run f dist powf sq c pop r = Ok (evs, pop') ->
  exists p b x l, evs = ff_protocol ((p, b, x) :: l) /\
    forall i y z, pop !! i = Some y -> p !! i = Some z ->
      (exists j y', j < ff_population_size c /\ pop !! j = Some y' /\ flt (fdiv f1 (f y)) (fdiv f1 (f y')) = true) ->
      Forall (fun v => is_nan v = true \/ v = ff_lower c \/ v = ff_upper c) z.
Proof.
  intros f dist powf sq c pop r evs pop' Hle HG H. destruct (run_history f dist powf sq c Hle pop r evs pop' H) as (l & L & -> & -> & HH).
  destruct l as [|[[p b] x] l]; [cbn in L; lia|]. exists p, b, x, l. split; [reflexivity|]. intros i y z Hy Hz (j & y' & Hj & Hy' & HB).
  destruct HH as (HM & _). destruct (Forall2_lookup_lr _ _ _ i y z HM Hy Hz) as [(j' & y'' & d & _ & _ & HF)|[HN _]].
  - eapply first_generation; [exact Hle|exact HF].
  - rewrite (HN j y' Hj Hy') in HB. discriminate.
Qed.
Print Assumptions C48_first_generation.
(** Two fireflies of x^2 at 4 and 1: the first flies towards the second and lands on the upper bound. *)
Example C48_nonvacuous :
  flt (fdiv f1 (ff_square [f_of_nat 4])) (fdiv f1 (ff_square [f1])) = true /\
  match small_run ff_square 1 2 [[f_of_nat 4]; [f1]] two_draws with Ok (_, pop') => pop' !! 0 = Some [f_of_nat 5] | _ => False end.
Proof. vm_compute. auto. Qed.

(** ** C49 *)
(** Reported values never increase; each is f64::MAX or the objective at a position reported so far, and is not greater than the objective at any
    position reported so far. *)
Theorem C49_reported_values :
  forall f dist powf sq c pop r evs pop', fle (ff_lower c) (ff_upper c) = true ->
  ff_run f dist powf sq c pop r = Ok (evs, pop') ->
  exists l, evs = ff_protocol l /\ length l = max_generations c /\ forall j p b x, l !! j = Some (p, b, x) ->
    is_nan b = false /\
    (forall k p' b' x', j <= k -> l !! k = Some (p', b', x') -> fle b' b = true) /\
    (b = fmax \/ exists k p' b' x', k <= j /\ l !! k = Some (p', b', x') /\ b = f x') /\
    (forall k p' b' x', k <= j -> l !! k = Some (p', b', x') -> is_nan (f x') = false -> fle b (f x') = true).
Proof.
  intros f dist powf sq c pop r evs pop' Hle H. destruct (run_history f dist powf sq c Hle pop r evs pop' H) as (l & L & -> & -> & HH).
  exists l. split; [reflexivity|]. split; [exact L|]. intros j p b x Hj. pose proof (history_values f dist powf sq c l 0 pop fmax eq_refl HH) as HV.
  destruct (HV j _ Hj) as (A1 & A2 & A3 & A4 & A5). cbn [fst snd] in *. split; [exact A1|]. split; [|split].
  - intros k p' b' x' Hk Hk'. exact (A5 k _ Hk Hk').
  - destruct A4 as [A4|(k & [[p' b'] x'] & Hk & He & A4)]; [auto|]. right. exists k, p', b', x'. auto.
  - intros k p' b' x' Hk Hk' N. destruct (HV k _ Hk') as (_ & _ & B3 & _ & B5). cbn [fst snd] in *. eapply fle_trans; [exact (B5 j _ Hk Hj)|exact (B3 N)].
Qed.
Print Assumptions C49_reported_values.
(** The value and the position of one report do not belong together: 1 goes to 0.5, then back to 1, and the second report is (0.25, [1]). *)
Theorem C49_value_of_position_refuted :
  exists f dist powf sq c pop r evs pop' i b x, ff_run f dist powf sq c pop r = Ok (evs, pop') /\ fle (ff_lower c) (ff_upper c) = true /\
    evs !! i = Some (FfCurrentBest b x) /\ flt b (f x) = true.
Proof.
  exists ff_square, (cartesian_distance self_sq), one_pow, self_sq, (small_cfg 2 1), [[f1]], minus_then_plus.
  destruct (small_run ff_square 2 1 [[f1]] minus_then_plus) as [[evs pop']| |] eqn:E; [|vm_compute in E; discriminate E|vm_compute in E; discriminate E].
  exists evs, pop', 5, (f_of_bits 4598175219545276416), [f1]. split; [exact E|]. split; [reflexivity|]. vm_compute in E. injection E as <- _. split; reflexivity.
Qed.
Print Assumptions C49_value_of_position_refuted.
Example C49_nonvacuous :
  match small_run ff_square 2 1 [[f1]] minus_then_plus with
  | Ok (evs, _) => evs = ff_protocol [([[fhalf]], f_of_bits 4598175219545276416, [fhalf]); ([[f1]], f_of_bits 4598175219545276416, [f1])]
  | _ => False
  end.
Proof. vm_compute. reflexivity. Qed.

(** ** C50 *)
(** What [build] returns, for every sequence of setter calls: the last value set, or the default.  The population is the default one (25 points of
    two coordinates in [-5, 5)) unless set_population is called. *)
Theorem C50_builder :
  forall rastrigin sq setters r a r', ff_build rastrigin sq setters r = Ok (a, r') ->
  (exists pop, length pop = 25 /\ Forall (fun x => length x = 2 /\ Forall (fun v => fle (fneg (f_of_nat 5)) v = true /\ flt v (f_of_nat 5) = true) x) pop /\
    ff_population a = default pop (last_set (fun s => match s with FfSetPopulation p => Some p | _ => None end) setters)) /\
  ff_function a = default rastrigin (last_set (fun s => match s with FfSetFunction g => Some g | _ => None end) setters) /\
  ff_distance a = default (cartesian_distance sq) (last_set (fun s => match s with FfSetDistance g => Some g | _ => None end) setters) /\
  ff_probe a = default 0 (last_set (fun s => match s with FfSetProbe g => Some g | _ => None end) setters).
Proof.
  intros rastrigin sq setters r a r' H. destruct (ff_build_population _ _ _ _ _ _ H) as (pop & HP & E1 & E2 & E3 & E4 & _). split; [|auto].
  exists pop. apply ff_points_spec in HP as [L F]. split; [exact L|]. split; [exact F|exact E1].
Qed.
Print Assumptions C50_builder.
(** The numeric parameters: the last of set_..., since the last set_config. *)
Theorem C50_parameters :
  forall rastrigin sq setters r a r', ff_build rastrigin sq setters r = Ok (a, r') ->
  let c := ff_config a in
  let from {B} (own : ff_setter -> option B) (field : ff_cfg -> B) (dflt : B) :=
    default dflt (last_set (fun s => match s with FfSetConfig c => Some (field c) | s => own s end) setters) in
  ff_dimensions c = from (fun s => match s with FfSetDimensions n => Some n | _ => None end) ff_dimensions 2 /\
  ff_lower c = from (fun s => match s with FfSetLower x => Some x | _ => None end) ff_lower (fneg (f_of_nat 5)) /\
  ff_upper c = from (fun s => match s with FfSetUpper x => Some x | _ => None end) ff_upper (f_of_nat 5) /\
  max_generations c = from (fun s => match s with FfSetMaxGenerations n => Some n | _ => None end) max_generations 1000 /\
  ff_population_size c = from (fun s => match s with FfSetPopulationSize n => Some n | _ => None end) ff_population_size 25 /\
  alfa0 c = from (fun s => match s with FfSetAlfa0 x => Some x | _ => None end) alfa0 f1 /\
  beta0 c = from (fun s => match s with FfSetBeta0 x => Some x | _ => None end) beta0 f1 /\
  gamma c = from (fun s => match s with FfSetGamma x => Some x | _ => None end) gamma f_0_01 /\
  delta c = from (fun s => match s with FfSetDelta x => Some x | _ => None end) delta f_0_97 /\
  threads c = from (fun s => match s with FfSetThreads n => Some n | _ => None end) threads 2 /\
  distribution c = from (fun s => match s with FfSetDistribution d => Some d | _ => None end) distribution gen_f64.
Proof.
  intros rastrigin sq setters r a r' H. destruct (ff_build_population _ _ _ _ _ _ H) as (pop & _ & _ & _ & _ & _ & E). cbv zeta. rewrite E. clear.
  induction setters as [|s l IH] using rev_ind; [repeat split|]. rewrite foldl_app. cbn [foldl]. rewrite !last_set_snoc.
  destruct (foldl ff_set_cfg ff_default_cfg l) as [d lo hi mg n aa b ga de t di]. cbn [ff_dimensions ff_lower ff_upper max_generations ff_population_size alfa0 beta0 gamma delta threads distribution] in IH.
  destruct IH as (I1 & I2 & I3 & I4 & I5 & I6 & I7 & I8 & I9 & I10 & I11).
  destruct s; cbn [ff_set_cfg ff_dimensions ff_lower ff_upper max_generations ff_population_size alfa0 beta0 gamma delta threads distribution default]; split_and!; auto.
Qed.
Print Assumptions C50_parameters.
(** The claim "n fireflies of dimension d after set_population_size(n) and set_dimensions(d)" is false: without set_population it is always 25 of
    dimension 2, so with n > 25 the run panics, and with n < 25 all 25 are moved. *)
Theorem C50_size_above_25_panics :
  forall powf rastrigin sq setters r a r' rr, ff_build rastrigin sq setters r = Ok (a, r') ->
  (forall s, s ∈ setters -> match s with FfSetPopulation _ => False | FfSetDistance d => forall x y, d x y <> Diverge | _ => True end) ->
  25 < ff_population_size (ff_config a) -> 0 < max_generations (ff_config a) ->
  ff_solve powf sq a rr = Panic.
Proof.
  intros powf rastrigin sq setters r a r' rr H HS HN HG. destruct (C50_builder _ _ _ _ _ _ H) as ((pop & LP & _ & EP) & _ & ED & _).
  assert (NP : last_set (fun s => match s with FfSetPopulation p => Some p | _ => None end) setters = None).
  { unfold last_set. replace (omap _ setters) with (@nil (list (list f64))); [reflexivity|]. symmetry. clear - HS. induction setters as [|s l IH]; [reflexivity|]. cbn [omap list_omap].
    pose proof (HS s (elem_of_list_here _ _)) as HX. destruct s; try contradiction; apply IH; intros s' Hs'; apply HS; right; exact Hs'. }
  rewrite NP in EP. cbn [default] in EP. unfold ff_solve. rewrite EP. apply too_small; [intros ->; discriminate|lia|exact HG|].
  rewrite ED. assert (G : match last_set (fun s => match s with FfSetDistance g => Some g | _ => None end) setters with Some d => forall x y, d x y <> Diverge | None => True end).
  { clear - HS. induction setters as [|s l IH] using rev_ind; [exact I|]. rewrite last_set_snoc. pose proof (HS s ltac:(apply elem_of_app; right; apply elem_of_list_singleton; reflexivity)) as HX.
    destruct s; try (apply IH; intros s' Hs'; apply HS; apply elem_of_app; left; exact Hs'). exact HX. }
  destruct (last_set _ setters) as [d|]; [exact G|]. cbn [default]. intros x y. unfold cartesian_distance.
  assert (ND : forall x y acc, distance_loop sq x y acc <> Diverge) by (clear; induction x as [|a x IH]; intros [|b y] acc; cbn [distance_loop]; try discriminate; apply IH).
  specialize (ND x y f0). destruct (distance_loop sq x y f0); [discriminate|discriminate|contradiction].
Qed.
Print Assumptions C50_size_above_25_panics.
Theorem C50_size_and_dimension_refuted :
  exists setters r a r', ff_build ff_square self_sq setters r = Ok (a, r') /\ ff_population_size (ff_config a) = 10 /\ ff_dimensions (ff_config a) = 3 /\
    length (ff_population a) = 25 /\ Forall (fun x => length x = 2) (ff_population a).
Proof.
  exists [FfSetPopulationSize 10; FfSetDimensions 3], half_draws. destruct (ff_build ff_square self_sq [FfSetPopulationSize 10; FfSetDimensions 3] half_draws) as [[a r']| |] eqn:E.
  - exists a, r'. split; [reflexivity|]. destruct (C50_builder _ _ _ _ _ _ E) as ((pop & LP & FP & ->) & _). destruct (C50_parameters _ _ _ _ _ _ E) as (D & _ & _ & _ & N & _).
    split; [exact N|]. split; [exact D|]. split; [exact LP|]. cbn [last_set omap list_omap last default]. eapply Forall_impl; [exact FP|]. intros x [HX _]. exact HX.
  - exfalso. destruct (ff_points_total (fneg (f_of_nat 5)) (f_of_nat 5) 2 eq_refl eq_refl eq_refl 25 half_draws) as (p & r' & E'). unfold ff_build, ff_new, from_config in E. cbn [ff_default_cfg ff_population_size ff_dimensions ff_lower ff_upper] in E. rewrite E' in E. discriminate E.
  - exfalso. destruct (ff_points_total (fneg (f_of_nat 5)) (f_of_nat 5) 2 eq_refl eq_refl eq_refl 25 half_draws) as (p & r' & E'). unfold ff_build, ff_new, from_config in E. cbn [ff_default_cfg ff_population_size ff_dimensions ff_lower ff_upper] in E. rewrite E' in E. discriminate E.
Qed.
Print Assumptions C50_size_and_dimension_refuted.
(** [build] always succeeds, so the hypotheses above are met by every sequence of setters. *)
Theorem C50_build_succeeds : forall rastrigin sq setters r, exists a r', ff_build rastrigin sq setters r = Ok (a, r').
Proof.
  intros rastrigin sq setters r. destruct (ff_points_total (fneg (f_of_nat 5)) (f_of_nat 5) 2 eq_refl eq_refl eq_refl 25 r) as (p & r' & E).
  unfold ff_build, ff_new, from_config. cbn [ff_default_cfg ff_population_size ff_dimensions ff_lower ff_upper]. rewrite E. cbn [mbind outcome_bind]. eauto.
Qed.
Print Assumptions C50_build_succeeds.

(** ** C67 *)
(** One generation: every firefly flies towards the brighter one (brightness 1 / objective) with the greatest index among the first population_size,
    from its old position, or walks at random when there is none; and the randomness factor after j generations is alfa0 * delta^j. *)
Theorem C67_movement :
  forall f dist powf sq c pop r evs pop', fle (ff_lower c) (ff_upper c) = true ->
  ff_run f dist powf sq c pop r = Ok (evs, pop') ->
  exists l, evs = ff_protocol l /\ length l = max_generations c /\ pop' = population_after pop l /\
    forall j p b x, l !! j = Some (p, b, x) ->
      let before := population_after pop (take j l) in Forall2 (moved f dist powf sq c (alfa_at c j) (f_of_nat j) before) before p.
Proof.
  intros f dist powf sq c pop r evs pop' Hle H. destruct (run_history f dist powf sq c Hle pop r evs pop' H) as (l & L & -> & -> & HH).
  exists l. split; [reflexivity|]. split; [exact L|]. split; [reflexivity|]. intros j p b x Hj. destruct (history_lookup f dist powf sq c l 0 pop fmax HH j _ Hj) as [A _].
  rewrite Nat.add_0_r in A. exact A.
Qed.
Print Assumptions C67_movement.
(** The reported position is that of the firefly of greatest brightness among the first population_size, if one has positive brightness; otherwise
    it is that of the first firefly. *)
Theorem C67_reported_position :
  forall f dist powf sq c pop r evs pop', fle (ff_lower c) (ff_upper c) = true ->
  ff_run f dist powf sq c pop r = Ok (evs, pop') ->
  exists l, evs = ff_protocol l /\ pop' = population_after pop l /\ forall j p b x, l !! j = Some (p, b, x) ->
    ((exists i y, i < ff_population_size c /\ p !! i = Some y /\ flt f0 (fdiv f1 (f y)) = true) ->
      forall i y, i < ff_population_size c -> p !! i = Some y -> flt (fdiv f1 (f x)) (fdiv f1 (f y)) = false) /\
    ((forall i y, i < ff_population_size c -> p !! i = Some y -> flt f0 (fdiv f1 (f y)) = false) -> p !! 0 = Some x).
Proof.
  intros f dist powf sq c pop r evs pop' Hle H. destruct (run_history f dist powf sq c Hle pop r evs pop' H) as (l & L & -> & -> & HH).
  exists l. split; [reflexivity|]. split; [reflexivity|]. intros j p b x Hj. destruct (history_lookup f dist powf sq c l 0 pop fmax HH j _ Hj) as [_ B]. cbn [fst snd] in B. split.
  - intros (i0 & y0 & X1 & X2 & X3) i y Hi Hy. eapply reported_brightest; eauto 6.
  - intros HN. eapply reported_none; eauto.
Qed.
Print Assumptions C67_reported_position.
(** "The firefly of least objective is reported" is false for objectives that take negative values: x at 5 is reported although another firefly is
    at -1.5. *)
Theorem C67_least_objective_refuted :
  exists dist powf sq c pop r l pop', ff_run ff_first dist powf sq c pop r = Ok (ff_protocol l, pop') /\ fle (ff_lower c) (ff_upper c) = true /\
    exists b x y, last l = Some (pop', b, x) /\ y ∈ pop' /\ flt (ff_first y) b = true /\ flt (ff_first y) (ff_first x) = true.
Proof.
  exists (cartesian_distance self_sq), one_pow, self_sq, (small_cfg 1 2), [[f_m1]; [fneg (f_of_nat 2)]], two_draws.
  exists [([[f_of_nat 5]; [f_of_bits 13832806255468478464]], f_of_nat 5, [f_of_nat 5])], [[f_of_nat 5]; [f_of_bits 13832806255468478464]].
  split; [vm_compute; reflexivity|]. split; [reflexivity|]. exists (f_of_nat 5), [f_of_nat 5], [f_of_bits 13832806255468478464]. split; [reflexivity|]. split; [right; left|]. split; reflexivity.
Qed.
Print Assumptions C67_least_objective_refuted.
Example C67_nonvacuous :
  match small_run ff_square 2 3 [[f1]; [f_of_nat 4]; [fhalf]] half_draws with
  | Ok (evs, _) => last_brighter ff_square 3 [[f1]; [f_of_nat 4]; [fhalf]] [f_of_nat 4] 2 [fhalf] /\ length evs = 8
  | _ => False
  end.
Proof.
  vm_compute small_run. split; [|reflexivity]. split; [lia|]. split; [reflexivity|]. split; [reflexivity|]. intros k z Hk _. lia.
Qed.

(** ** C68 *)
(** A run succeeds and makes max_generations iterations for every non-empty population of points of one dimension that is not smaller than the
    configured size, when the distance is defined on points of that dimension. *)
Theorem C68_run_succeeds :
  forall f dist powf sq c d pop r,
  fle (ff_lower c) (ff_upper c) = true -> pop <> [] -> ff_population_size c <= length pop -> Forall (fun x => length x = d) pop ->
  (forall x y, length x = d -> length y = d -> exists v, dist x y = Ok v) ->
  exists l pop', ff_run f dist powf sq c pop r = Ok (ff_protocol l, pop') /\ length l = max_generations c.
Proof.
  intros f dist powf sq c d pop r Hle Hne Hn HD Hdist. destruct (FfRunProofs.loop_total f dist powf sq c d Hdist Hle (max_generations c) 0 pop fmax r Hne Hn HD) as (evs & pop' & E).
  assert (R : ff_run f dist powf sq c pop r = Ok (FfStart :: evs ++ [FfEnd], pop')). { unfold ff_run. change (alfa0 c) with (alfa_at c 0). rewrite E. reflexivity. }
  destruct (run_history f dist powf sq c Hle _ _ _ _ R) as (l & L & EL & _). rewrite EL in R. eauto.
Qed.
Print Assumptions C68_run_succeeds.
Theorem C68_distances_total :
  forall sq (x y : list f64), length x = length y -> (exists v, cartesian_distance sq x y = Ok v) /\ (exists v, taxi_distance x y = Ok v).
Proof.
  assert (G : forall g (x y : list f64) acc, length x = length y -> exists v, distance_loop g x y acc = Ok v).
  { induction x as [|a x IH]; intros [|b y] acc L; try discriminate; cbn [distance_loop]; eauto. }
  intros sq x y L. split; [|apply G, L]. unfold cartesian_distance. destruct (G sq x y f0 L) as [v ->]. cbn [mbind outcome_bind]. eauto.
Qed.
Print Assumptions C68_distances_total.
Theorem C68_distance_panics : forall sq (x y : list f64), length y < length x -> cartesian_distance sq x y = Panic /\ taxi_distance x y = Panic.
Proof.
  assert (G : forall g (x y : list f64) acc, length y < length x -> distance_loop g x y acc = Panic).
  { induction x as [|a x IH]; intros [|b y] acc L; cbn [length] in L; try lia; cbn [distance_loop]; [reflexivity|]. apply IH. lia. }
  intros sq x y L. split; [|apply G, L]. unfold cartesian_distance. rewrite (G sq x y f0 L). reflexivity.
Qed.
Print Assumptions C68_distance_panics.
(** A population smaller than the configured size, or an empty one, makes every run of at least one generation panic. *)
Theorem C68_small_population_panics :
  forall f dist powf sq c pop r, length pop < ff_population_size c \/ pop = [] -> 0 < max_generations c -> (forall x y, dist x y <> Diverge) ->
  ff_run f dist powf sq c pop r = Panic.
Proof.
  intros f dist powf sq c pop r [H| ->] HG HD; [|apply empty_population, HG]. destruct pop as [|x p]; [apply empty_population, HG|]. apply too_small; auto; discriminate.
Qed.
Print Assumptions C68_small_population_panics.
(** Population::from_config *)
Theorem C68_from_config :
  forall c r pop r', from_config c r = Ok (pop, r') ->
  length pop = ff_population_size c /\
  Forall (fun x => length x = ff_dimensions c /\ Forall (fun v => fle (ff_lower c) v = true /\ flt v (ff_upper c) = true) x) pop.
Proof. intros c r pop r' H. exact (ff_points_spec _ _ _ _ _ _ _ H). Qed.
Print Assumptions C68_from_config.
Theorem C68_from_config_bounds :
  forall c r,
  (flt (ff_lower c) (ff_upper c) = true -> flt (fsub (ff_upper c) (ff_lower c)) finf = true -> flt (S754_infinity true) (fsub (ff_upper c) (ff_lower c)) = true ->
     exists pop r', from_config c r = Ok (pop, r')) /\
  (0 < ff_dimensions c -> 0 < ff_population_size c -> flt (ff_lower c) (ff_upper c) = false \/ flt (fsub (ff_upper c) (ff_lower c)) finf = false -> from_config c r = Panic).
Proof. intros c r. split; [intros A B C; exact (ff_points_total _ _ _ A B C _ r)|intros A B C; exact (ff_points_panic _ _ _ _ r A B C)]. Qed.
Print Assumptions C68_from_config_bounds.
Example C68_nonvacuous :
  [[f1; f0]; [f_of_nat 4; f1]] <> [] /\ Forall (fun x => length x = 2) [[f1; f0]; [f_of_nat 4; f1]] /\
  match from_config (small_cfg 1 4) half_draws with Ok (pop, _) => pop = [[fhalf]; [fhalf]; [fhalf]; [fhalf]] | _ => False end.
Proof. split; [discriminate|]. split; [repeat constructor|]. vm_compute. reflexivity. Qed.

(** ** C69 *)
(** PolicyDrivenProbe with GenerationInterval(k, t): the wrapped probe [pr], whatever it is, sees the start, the end and exactly the callbacks of the
    iterations t, t + k, t + 2k, ... *)
Theorem C69_interval_policy :
  forall W (pr : probe ff_event W) debug k t l w, (0 < k)%N -> (N.of_nat (length l) + k <= 2 ^ 32)%N -> exists p',
  feed (policy_driven (ff_interval_policy debug) pr) (gi_new k t, w) (ff_protocol l) = (w' ← feed pr w (ff_logged (every t k) l); Ok (p', w')).
Proof. exact @ff_interval_logged. Qed.
Print Assumptions C69_interval_policy.
(** Interval 0 logs every iteration from t on. *)
Theorem C69_interval_zero :
  forall W (pr : probe ff_event W) debug t l w, (t < 2 ^ 32)%N -> exists p',
  feed (policy_driven (ff_interval_policy debug) pr) (gi_new 0 t, w) (ff_protocol l) = (w' ← feed pr w (ff_logged (fun i => (t <=? N.of_nat i)%N) l); Ok (p', w')).
Proof. exact @ff_interval_zero. Qed.
Print Assumptions C69_interval_zero.
(** Beyond 2^32 the counter of GenerationInterval overflows: debug builds panic; release builds log and wrap round to a number long past, so the next iteration is logged too. *)
Theorem C69_interval_overflow :
  forall k t i on, (k < 2 ^ 32)%N -> (t < 2 ^ 32)%N -> (t <= N.of_nat i)%N -> (2 ^ 32 <= t + k)%N ->
  ff_interval_policy true (GenInt k t on) (FfIterStart i) = Panic /\
  exists p', ff_interval_policy false (GenInt k t on) (FfIterStart i) = Ok (true, p') /\
    forall b x, exists q q', ff_interval_policy false p' (FfCurrentBest b x) = Ok (true, q) /\ ff_interval_policy false q (FfIterEnd i) = Ok (true, q') /\
    exists q2, ff_interval_policy false q' (FfIterStart (i + 1)) = Ok (true, q2).
Proof.
  intros k t i on Hk Ht Hi Ho. cbn [ff_interval_policy gi_threshold gi_interval]. apply N.leb_le in Hi as Hi'. rewrite Hi'. unfold u32_add at 1 2.
  apply N.ltb_ge in Ho as Ho'. rewrite Ho'. split; [reflexivity|]. cbn [mbind outcome_bind]. eexists. split; [reflexivity|].
  intros b x. eexists _, _. split; [reflexivity|]. split; [reflexivity|]. cbn [ff_interval_policy gi_threshold gi_interval].
  assert (E : ((t + k) mod 2 ^ 32 = t + k - 2 ^ 32)%N). { symmetry. apply (N.mod_unique _ _ 1); lia. } rewrite E.
  assert (L : (t + k - 2 ^ 32 <= N.of_nat (i + 1))%N) by lia. apply N.leb_le in L. rewrite L. clear Ho'. unfold u32_add. destruct (t + k - 2 ^ 32 + k <? 2 ^ 32)%N; cbn [mbind outcome_bind]; eexists; reflexivity.
Qed.
Print Assumptions C69_interval_overflow.
(** ElapsedTime: an iteration is logged iff [interval] seconds have passed since the last logged one, or since construction + first_threshold. *)
Theorem C69_elapsed_policy :
  forall W (pr : probe ff_event W) interval construction first now reset l w, exists due p',
  feed (policy_driven (ff_elapsed_policy interval now reset) pr) (ff_elapsed_new construction first, w) (ff_protocol l) = (w' ← feed pr w (ff_logged due l); Ok (p', w')) /\
  forall i, due i = true <-> (interval * 1000000000 <= now i - counted_from due (construction + first * 1000000000) reset i)%N.
Proof. exact @ff_elapsed_logged. Qed.
Print Assumptions C69_elapsed_policy.
(** Hence "first_threshold is the time of the first logged iteration" is false: nothing is logged before first_threshold + interval ... *)
Theorem C69_elapsed_first :
  forall W (pr : probe ff_event W) interval construction first now reset l w, (0 < interval)%N ->
  (forall i, (now i < construction + (first + interval) * 1000000000)%N) -> exists p',
  feed (policy_driven (ff_elapsed_policy interval now reset) pr) (ff_elapsed_new construction first, w) (ff_protocol l) = (w' ← feed pr w [FfStart; FfEnd]; Ok (p', w')).
Proof.
  intros W pr interval construction first now reset l w HI HN. destruct (C69_elapsed_policy W pr interval construction first now reset l w) as (due & p' & E & HD). exists p'. rewrite E.
  assert (ND : forall i, due i = false).
  { intros i. induction i as [i IH] using lt_wf_ind. assert (CF : counted_from due (construction + first * 1000000000) reset i = (construction + first * 1000000000)%N).
    { clear HD E. induction i as [|i IHi]; [reflexivity|]. cbn [counted_from]. rewrite (IH i) by lia. apply IHi. intros m Hm. apply IH. lia. }
    destruct (due i) eqn:ED; [|reflexivity]. apply HD in ED. rewrite CF in ED. specialize (HN i). exfalso. nia. }
  replace (ff_logged due l) with [FfStart; FfEnd]; [reflexivity|]. unfold ff_logged. f_equal. clear - ND.
  replace (imap _ l) with (map (fun _ : list (list f64) * f64 * list f64 => @nil ff_event) l); [induction l as [|e l IH]; [reflexivity|exact IH]|].
  rewrite <- (imap_const (fun _ => []) l). apply imap_ext. intros i [[p b] x] _. rewrite ND. reflexivity.
Qed.
Print Assumptions C69_elapsed_first.
(** ... except that interval 0 logs every iteration, also before first_threshold. *)
Theorem C69_elapsed_zero :
  forall W (pr : probe ff_event W) construction first now reset l w, exists p',
  feed (policy_driven (ff_elapsed_policy 0 now reset) pr) (ff_elapsed_new construction first, w) (ff_protocol l) = (w' ← feed pr w (ff_protocol l); Ok (p', w')).
Proof.
  intros W pr construction first now reset l w. destruct (C69_elapsed_policy W pr 0 construction first now reset l w) as (due & p' & E & HD). exists p'. rewrite E.
  replace (ff_logged due l) with (ff_protocol l); [reflexivity|]. unfold ff_logged, ff_protocol. f_equal. f_equal. f_equal. apply imap_ext. intros i [[p b] x] _.
  assert (due i = true) as -> by (apply HD; lia). reflexivity.
Qed.
Print Assumptions C69_elapsed_zero.
(** JsonProbe behind any policy of this kind (all iterations: [fun _ => true]): one record per logged iteration with its number, the reported value
    and the reported position; CsvProbe the same without the position. *)
Theorem C69_records :
  forall due l, exists log, feed ff_json_probe ff_log_new (ff_logged due l) = Ok log /\
  fl_file log = Some (omap (fun '(i, (_, b, x)) => if due i then Some (i, b, x) else None) (imap pair l)).
Proof. exact ff_records_feed. Qed.
Print Assumptions C69_records.
Theorem C69_records_of_a_run :
  forall f dist powf sq c pop r evs pop', fle (ff_lower c) (ff_upper c) = true -> ff_run f dist powf sq c pop r = Ok (evs, pop') ->
  exists log records, feed ff_json_probe ff_log_new evs = Ok log /\ fl_file log = Some records /\ length records = max_generations c /\
    forall j i b x, records !! j = Some (i, b, x) -> i = j /\ evs !! (3 * j + 2) = Some (FfCurrentBest b x).
Proof.
  intros f dist powf sq c pop r evs pop' Hle H. destruct (run_history f dist powf sq c Hle pop r evs pop' H) as (l & L & -> & _ & _).
  destruct (C69_records (fun _ => true) l) as (log & E & F). exists log, (imap (fun i '(_, b, x) => (i, b, x)) l).
  replace (ff_logged (fun _ => true) l) with (ff_protocol l) in E by reflexivity. split; [exact E|].
  assert (IM : forall (m : list (list (list f64) * f64 * list f64)) s, omap (fun '(i, (_, b, x)) => Some (s + i, b, x)) (imap pair m) = imap (fun i '(_, b, x) => (s + i, b, x)) m).
  { clear. induction m as [|[[p b] x] m IH]; intros s; [reflexivity|]. rewrite !imap_cons. cbn [omap list_omap]. f_equal.
    replace (imap ((fun (i : nat) '(_, b0, x0) => (s + i, b0, x0)) ∘ S) m) with (imap (fun i '((_, b0, x0) : list (list f64) * f64 * list f64) => (S s + i, b0, x0)) m).
    2: { apply imap_ext. intros j [[? ?] ?] _. cbn [compose]. f_equal. f_equal. lia. }
    rewrite <- IH. replace (imap (pair ∘ S) m) with (map (fun '(j, x) => (S j, x)) (imap pair m)).
    2: { etransitivity; [apply (fmap_imap pair (fun '(j, x) => (S j, x)))|]. apply imap_ext. reflexivity. }
    clear. induction (imap pair m) as [|[j [[q y] z]] n IH]; [reflexivity|]. cbn [map omap list_omap]. change (map (fun '(j, x) => (S j, x)) n) with ((fun '(j, x) => (S j, x)) <$> n) in *.
    replace (s + S j) with (S s + j) by lia. f_equal. exact IH. }
  split; [rewrite F; f_equal; exact (IM l 0)|]. split; [rewrite imap_length; exact L|]. intros j i b x Hj. rewrite list_lookup_imap in Hj.
  destruct (l !! j) as [[[p b'] x']|] eqn:El; cbn in Hj; [|discriminate]. injection Hj as <- <- <-. split; [reflexivity|].
  assert (G : forall (m : list (list (list f64) * f64 * list f64)) s j p b x rest, m !! j = Some (p, b, x) ->
     (concat (imap (fun i '(_, b, x) => [FfIterStart (s + i); FfCurrentBest b x; FfIterEnd (s + i)]) m) ++ rest) !! (3 * j + 1) = Some (FfCurrentBest b x)).
  { clear. induction m as [|[[p b] x] m IH]; intros s j p' b' x' rest Hj; [discriminate|]. rewrite imap_cons, concat_cons, <- app_assoc. destruct j as [|j]; cbn in Hj.
    - injection Hj as <- <- <-. reflexivity.
    - replace (3 * S j + 1) with (S (S (S (3 * j + 1)))) by lia. cbn [app lookup list_lookup].
      replace (imap ((fun (i : nat) '(_, b0, x0) => [FfIterStart (s + i); FfCurrentBest b0 x0; FfIterEnd (s + i)]) ∘ S) m) with (imap (fun i '((_, b0, x0) : list (list f64) * f64 * list f64) => [FfIterStart (S s + i); FfCurrentBest b0 x0; FfIterEnd (S s + i)]) m).
      2: { apply imap_ext. intros k [[? ?] ?] _. cbn [compose]. replace (s + S k) with (S s + k) by lia. reflexivity. }
      eapply IH; eauto. }
  unfold ff_protocol. replace (3 * j + 2) with (S (3 * j + 1)) by lia. cbn [lookup list_lookup]. exact (G l 0 j p b' x' [FfEnd] El).
Qed.
Print Assumptions C69_records_of_a_run.
Example C69_nonvacuous :
  match small_run ff_square 5 1 [[f1]] half_draws with
  | Ok (evs, _) =>
      match feed (policy_driven (ff_interval_policy true) ff_json_probe) (gi_new 2 1, ff_log_new) evs with
      | Ok (_, FfLog _ _ _ _ (Some rs)) => map (fun r => r.1.1) rs = [1; 3]
      | _ => False
      end
  | _ => False
  end.
Proof. vm_compute. reflexivity. Qed.
