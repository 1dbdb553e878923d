(** * The firefly benchmarks: proofs (C140) *)
From Verif Require Import FfBenchModel FfSpec FfProofs FfRunProofs FfProbeProofs PsoProbeProofs ProbeSpec PropsFf PsoExampleProofs FfExampleProofs.
From Coq Require Import Lia.
Open Scope nat_scope.

Definition cfg (g : nat) : ff_cfg := ff_set_cfg ff_default_cfg (FfSetMaxGenerations g).
Definition bests_of (L : libm) (value : nat -> f64) (position : nat -> list f64) (g : nat) : Prop :=
  forall i, i < g ->
    is_nan (value i) = false /\ fle f0 (value i) = true /\ (forall j, i <= j -> j < g -> fle (value j) (value i) = true) /\
    (value i = fmax \/ exists k, k <= i /\ sphere (num := num_f64 L) (position k) = Ok (value i)) /\
    (forall k v, k <= i -> sphere (num := num_f64 L) (position k) = Ok v -> is_nan v = false -> fle (value i) v = true) /\
    length (position i) = 2 /\ Forall (in_bounds (fneg (f_of_nat 5)) (f_of_nat 5)) (position i).

Lemma generations_run L powf sq g r : exists value position evs pop r1 pop',
  from_config ff_default_cfg r = Ok (pop, r1) /\
  ff_run (sphere_objective L) (cartesian_distance sq) powf sq (cfg g) pop r1 = Ok (evs, pop') /\
  (exists p : nat -> list (list f64), evs = ff_protocol (map (fun i => (p i, value i, position i)) (seq 0 g))) /\ bests_of L value position g.
Proof.
  destruct (ff_points_total (fneg (f_of_nat 5)) (f_of_nat 5) 2 eq_refl eq_refl eq_refl 25 r) as (pop & r1 & HP).
  destruct (ff_points_spec _ _ _ _ _ _ _ HP) as [HN HD].
  assert (HD2 : Forall (fun x => length x = 2) pop) by (eapply Forall_impl; [exact HD|intros x [A _]; exact A]).
  destruct (C68_run_succeeds (sphere_objective L) (cartesian_distance sq) powf sq (cfg g) 2 pop r1) as (l0 & pop' & HR & _); [reflexivity|intros ->; discriminate HN|cbn; lia|exact HD2| |].
  { intros x y Hx Hy. apply C68_distances_total. congruence. }
  destruct (run_history (sphere_objective L) (cartesian_distance sq) powf sq (cfg g) eq_refl pop r1 _ pop' HR) as (l & HL & HE & _ & HH).
  set (d := (@nil (list f64), f0, @nil f64)).
  exists (fun i => (nth i l d).1.2), (fun i => (nth i l d).2), (ff_protocol l0), pop, r1, pop'. split; [exact HP|]. split; [exact HR|]. split.
  { exists (fun i => (nth i l d).1.1). rewrite HE. f_equal. rewrite (as_seq d l) at 1. change (max_generations (cfg g)) with g in HL. rewrite HL. apply map_ext. intros i. destruct (nth i l d) as [[a b] c]. reflexivity. }
  change (max_generations (cfg g)) with g in HL.
  assert (AT : forall i, i < g -> l !! i = Some ((nth i l d).1.1, (nth i l d).1.2, (nth i l d).2)).
  { intros i Hi. destruct (lookup_lt_is_Some_2 l i) as [x Hx]; [lia|]. rewrite (nth_lookup_Some l i d x Hx), Hx. destruct x as [[a b] c]. reflexivity. }
  pose proof (history_values _ _ _ _ _ l 0 pop fmax eq_refl HH) as HV. pose proof (history_shape (sphere_objective L) (cartesian_distance sq) powf sq (cfg g) eq_refl l 0 pop fmax HH) as HS.
  assert (SH : forall i, i < g -> length (nth i l d).2 = 2 /\ Forall (in_bounds (fneg (f_of_nat 5)) (f_of_nat 5)) (nth i l d).2).
  { intros i Hi. destruct (proj1 (Forall_forall _ _) HS _ (elem_of_list_lookup_2 _ _ _ (AT i Hi))) as (S1 & S2 & S3). cbn [fst snd] in *. split; [|exact (proj1 (Forall_forall _ _) S2 _ S3)].
    apply elem_of_list_lookup in S3 as [j S3]. unfold same_shape in S1. apply (f_equal (lookup j)) in S1. change (map length ?x) with (length <$> x) in S1. rewrite !list_lookup_fmap, S3 in S1. cbn in S1.
    destruct (pop !! j) as [y|] eqn:Ey; [|discriminate S1]. apply (inj Some) in S1. rewrite <- S1. exact (proj1 (Forall_lookup _ _) HD2 j y Ey). }
  assert (SP : forall i, i < g -> sphere (num := num_f64 L) (nth i l d).2 = Ok (sphere_objective L (nth i l d).2)).
  { intros i Hi. destruct (SH i Hi) as [A _]. unfold sphere_objective. destruct (nth i l d).2 as [|a x]; [discriminate A|]. reflexivity. }
  assert (N0 : forall i, i < g -> F64.is_nan (nth i l d).1.2 = false) by (intros i Hi; apply (HV i _ (AT i Hi))).
  intros i Hi. destruct (HV i _ (AT i Hi)) as (A1 & A2 & A3 & A4 & A5). cbn [fst snd] in *.
  assert (SRC : (nth i l d).1.2 = fmax \/ exists k, k <= i /\ sphere (num := num_f64 L) (nth k l d).2 = Ok (nth i l d).1.2).
  { destruct A4 as [A4|(k & [[p' b'] x'] & Hk & He & A4)]; [auto|]. right. exists k. split; [exact Hk|]. cbn [fst snd] in A4. rewrite SP by lia. f_equal. rewrite (AT k) in He by lia. apply (inj Some) in He. injection He as _ _ <-. symmetry. exact A4. }
  split; [exact A1|]. split; [|split; [|split; [exact SRC|split; [|exact (SH i Hi)]]]].
  - destruct SRC as [->|(k & Hk & E)]; [reflexivity|]. apply sphere_sign in E as [E|E]; [congruence|exact E].
  - intros j Hj Hj'. exact (A5 j _ Hj (AT j Hj')).
  - intros k v Hk Hs Nv. rewrite SP in Hs by lia. apply ok_inj in Hs. subst v. destruct (HV k _ (AT k ltac:(lia))) as (_ & _ & B3 & _ & B5). cbn [fst snd] in *.
    exact (fle_trans _ _ _ (B5 i _ Hk (AT i Hi)) (B3 Nv)).
Qed.


Lemma default_drawn r : exists pop r1, from_config ff_default_cfg r = Ok (pop, r1).
Proof. destruct (ff_points_total (fneg (f_of_nat 5)) (f_of_nat 5) 2 eq_refl eq_refl eq_refl 25 r) as (pop & r1 & HP). exists pop, r1. exact HP. Qed.
Lemma bench_small L powf sq r : ff_bench_preset_small L powf sq r = Panic.
Proof.
  unfold ff_bench_preset_small, ff_default. destruct (default_drawn r) as (pop & r1 & ->). cbn [mbind outcome_bind foldl ff_set]. unfold ff_solve. cbn [ff_function ff_distance ff_config ff_population].
  match goal with |- ff_run ?f ?d ?p ?q ?c ?fl ?r0 = _ => assert (HL : length fl < ff_population_size c) by (vm_compute; lia); assert (HG : 0 < max_generations c) by (vm_compute; lia); refine (C68_small_population_panics f d p q c fl r0 (or_introl HL) HG _) end. intros x y H. unfold cartesian_distance in H.
  assert (G : forall (g : f64 -> f64) (x y : list f64) acc, distance_loop g x y acc <> Diverge).
  { induction x0 as [|a x0 IH]; intros [|b y0] acc; cbn [distance_loop]; try discriminate. apply IH. }
  destruct (distance_loop sq x y f0) eqn:E; try discriminate H. exact (G _ _ _ _ E).
Qed.
Lemma bench_large L powf sq r : exists evs pop, ff_bench_preset_large L powf sq r = Ok (evs, pop) /\ length pop = 20 /\ Forall (fun x => length x = 2 /\ Forall (in_bounds (fneg (f_of_nat 5)) (f_of_nat 5)) x) pop.
Proof.
  unfold ff_bench_preset_large, ff_default. destruct (default_drawn r) as (pop & r1 & ->). cbn [mbind outcome_bind foldl ff_set]. unfold ff_solve. cbn [ff_function ff_distance ff_config ff_population].
  assert (D : Forall (fun x : list f64 => length x = 2) (from_vector large_flies)) by (repeat constructor).
  destruct (C68_run_succeeds (sphere_objective L) (cartesian_distance sq) powf sq (ff_set_cfg ff_default_cfg (FfSetPopulationSize 20)) 2 (from_vector large_flies) r1) as (l & pop' & E & _); [reflexivity|discriminate|cbn; lia|exact D| |].
  { intros x y Hx Hy. apply C68_distances_total. congruence. }
  exists (ff_protocol l), pop'. split; [exact E|].
  assert (HB : fle (ff_lower (ff_set_cfg ff_default_cfg (FfSetPopulationSize 20))) (ff_upper (ff_set_cfg ff_default_cfg (FfSetPopulationSize 20))) = true) by reflexivity.
  assert (HG : 0 < max_generations (ff_set_cfg ff_default_cfg (FfSetPopulationSize 20))) by (vm_compute; lia).
  destruct (C46_final_population _ _ _ _ _ _ _ _ _ HB HG E) as (A & B & C). split; [rewrite A; reflexivity|]. apply Forall_forall. intros x Hx. split.
  - pose proof Hx as Hx'. apply elem_of_list_lookup in Hx' as [i Hi]. destruct (lookup_lt_is_Some_2 (from_vector large_flies) i) as [y Hy]; [rewrite <- A; exact (lookup_lt_Some _ _ _ Hi)|]. rewrite (B i y x Hy Hi). exact (proj1 (Forall_lookup _ _) D i y Hy).
  - apply Forall_forall. intros v Hv. destruct (C x v Hx Hv) as [H|H]; [left; exact H|right; exact H].
Qed.
Lemma bench_generations g L powf sq r : exists value position pop,
  ff_bench_generations g L powf sq r = Ok (TextStart :: concat (map (fun i => [TextIteration i; TextBest (value i) (position i); TextRule]) (seq 0 g)) ++ [TextEnd], pop) /\ bests_of L value position g.
Proof.
  destruct (generations_run L powf sq g r) as (value & position & evs & pop & r1 & pop' & HP & HR & (p & ->) & HF).
  exists value, position, pop'. split; [|exact HF]. unfold ff_bench_generations, ff_default. rewrite HP. cbn [mbind outcome_bind ff_set ff_solve ff_function ff_distance ff_config ff_population].
  unfold ff_solve. cbn [ff_function ff_distance ff_config ff_population]. unfold cfg in HR. rewrite HR. cbn [mbind outcome_bind]. rewrite stdout_feed. cbn [mbind outcome_bind app]. rewrite protocol_text. reflexivity.
Qed.
