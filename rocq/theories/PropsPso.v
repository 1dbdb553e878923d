(** * Property theorems: particle swarm optimisation (C42 - C45, C64 - C66) *)
From Verif Require Import PsoModel PsoSpec PsoProofs PsoRunProofs PsoBestProofs PsoBoundsProofs PsoProbeProofs BuilderSpec F64R.
Open Scope nat_scope.

Lemma generation_of {f w c1 c2 s0 l} j s : evolution f w c1 c2 s0 l -> (s0 :: l) !! j = Some s ->
  take (S j) (s0 :: l) = s0 :: take j l /\ s = List.last (take j l) s0 /\ evolution f w c1 c2 s0 (take j l).
Proof.
  intros HE Hj. split; [reflexivity|]. split.
  - clear HE. revert s0 j Hj. induction l as [|x l IH]; intros s0 [|j] Hj; cbn in Hj; try discriminate; [injection Hj as <-; reflexivity|injection Hj as <-; reflexivity|].
    cbn [take]. rewrite last_cons_default. apply IH, Hj.
  - rewrite <- (take_drop j l) in HE. apply evolution_app in HE as [HE _]. exact HE.
Qed.
Lemma built_run {f w c1 c2 met sched count dims lo hi r s0 r0 workers fuel evs s'} :
  swarm_generate f count dims lo hi r = Ok (s0, r0) -> schedules_ok count (length workers) sched ->
  pso_run f w c1 c2 met sched fuel s0 workers = Ok (evs, s') ->
  fresh f s0 /\ exists l, evs = pso_protocol s0 l /\ s' = List.last l s0 /\ evolution f w c1 c2 s0 l /\
    Forall (fun x => length (particles x) = count /\ Forall (of_dimension dims) (particles x) /\ length (gbest x) = dims) (s0 :: l) /\
    met (length l) (List.last l s0) = true /\ (forall j x, (s0 :: l) !! j = Some x -> j < length l -> met j x = false).
Proof.
  intros HG HS HR. destruct (swarm_generate_spec _ _ _ _ _ _ _ _ HG) as (F & Hn & HD & HL). split; [exact F|].
  destruct (run_spec f w c1 c2 met sched count dims (length workers) HS fuel s0 workers evs s' eq_refl Hn HD HL HR) as (l & E1 & E2 & EV & FA & M).
  exists l. split; [exact E1|]. split; [exact E2|]. split; [exact EV|]. split; [|exact M]. constructor; [auto|exact FA].
Qed.

(** ** C42 *)
(** At every generation j of a run: what each particle remembers.  [take (S j) (s0 :: l)] are the swarms up to now. *)
Theorem C42_personal_bests :
  forall f w c1 c2 met sched count dims lo hi r s0 r0 workers fuel evs s',
  swarm_generate f count dims lo hi r = Ok (s0, r0) -> schedules_ok count (length workers) sched ->
  pso_run f w c1 c2 met sched fuel s0 workers = Ok (evs, s') ->
  exists l, evs = pso_protocol s0 l /\ forall j s, (s0 :: l) !! j = Some s ->
    forall i p, particles s !! i = Some p ->
      value p = f (position p) /\ pbest_value p = f (pbest p) /\ visited (take (S j) (s0 :: l)) i (pbest p) /\
      forall p0, particles s0 !! i = Some p0 -> is_nan (f (position p0)) = false ->
        is_nan (pbest_value p) = false /\
        forall x, visited (take (S j) (s0 :: l)) i x -> is_nan (f x) = false -> fle (pbest_value p) (f x) = true.
Proof.
  intros f w c1 c2 met sched count dims lo hi r s0 r0 workers fuel evs s' HG HS HR. destruct (built_run HG HS HR) as (F & l & -> & _ & EV & _).
  exists l. split; [reflexivity|]. intros j s Hj i p Hp. destruct (generation_of j s EV Hj) as (-> & -> & EV').
  destruct (personal_history f w c1 c2 s0 F _ EV' i p Hp) as (A & B & C & p0 & Hp0 & D & _). split; [exact A|]. split; [exact B|]. split; [exact C|].
  intros q0 Hq0. rewrite Hp0 in Hq0. apply (inj Some) in Hq0 as <-. exact D.
Qed.
Print Assumptions C42_personal_bests.
(** ... and what the swarm remembers. *)
Theorem C42_swarm_best :
  forall f w c1 c2 met sched count dims lo hi r s0 r0 workers fuel evs s',
  swarm_generate f count dims lo hi r = Ok (s0, r0) -> schedules_ok count (length workers) sched ->
  pso_run f w c1 c2 met sched fuel s0 workers = Ok (evs, s') ->
  exists l, evs = pso_protocol s0 l /\ forall j s, (s0 :: l) !! j = Some s ->
    gbest_value s = f (gbest s) /\ (exists i, visited (take (S j) (s0 :: l)) i (gbest s)) /\
    forall p0, particles s0 !! 0 = Some p0 -> is_nan (f (position p0)) = false ->
      is_nan (gbest_value s) = false /\
      forall p, p ∈ particles s -> is_nan (pbest_value p) = false -> fle (gbest_value s) (pbest_value p) = true.
Proof.
  intros f w c1 c2 met sched count dims lo hi r s0 r0 workers fuel evs s' HG HS HR. destruct (built_run HG HS HR) as (F & l & -> & _ & EV & _).
  exists l. split; [reflexivity|]. intros j s Hj. destruct (generation_of j s EV Hj) as (-> & -> & EV').
  destruct (global_history f w c1 c2 s0 F _ EV') as (A & B & C & _). auto.
Qed.
Print Assumptions C42_swarm_best.
Theorem C42_swarm_best_never_worsens :
  forall f w c1 c2 met sched count dims lo hi r s0 r0 workers fuel evs s',
  swarm_generate f count dims lo hi r = Ok (s0, r0) -> schedules_ok count (length workers) sched ->
  pso_run f w c1 c2 met sched fuel s0 workers = Ok (evs, s') ->
  exists l, evs = pso_protocol s0 l /\ forall j k s t, j <= k -> (s0 :: l) !! j = Some s -> (s0 :: l) !! k = Some t ->
    is_nan (gbest_value s) = false -> fle (gbest_value t) (gbest_value s) = true.
Proof.
  intros f w c1 c2 met sched count dims lo hi r s0 r0 workers fuel evs s' HG HS HR. destruct (built_run HG HS HR) as (F & l & -> & _ & EV & _).
  exists l. split; [reflexivity|]. intros j k s t Hjk Hj Hk. destruct (generation_of j s EV Hj) as (_ & -> & _). destruct (generation_of k t EV Hk) as (_ & -> & EV').
  assert (E : take k l = take j l ++ take (k - j) (drop j l)).
  { rewrite <- (take_drop j (take k l)). rewrite take_take, Nat.min_l by exact Hjk. f_equal. rewrite take_drop_commute. f_equal. f_equal. lia. }
  rewrite E in *. apply (global_monotone f w c1 c2); auto.
Qed.
Print Assumptions C42_swarm_best_never_worsens.

(** x^2 in one dimension, three particles, two workers, four generations: the best improves. *)
Definition square (x : list f64) : f64 := match x with a :: _ => fmul a a | [] => S754_nan end.
Definition bits_half : N := 4602678819172646912.   (* 0.5 *)
Definition bits_quarter : N := 4598175219545276416. (* 0.25 *)
Definition draws : rng := fun n => if Nat.even n then bits_half else bits_quarter.
Definition draws' : rng := fun n => match n mod 4 with 2 => 0%N | 3 => bits_half | _ => bits_quarter end.
Definition two_workers : nat -> list (nat * nat) * list nat := fun i => ([(0, 2); (1, 0); (0, 1)], [1; 0; 2]).
Lemma two_workers_ok : schedules_ok 3 2 two_workers.
Proof.
  intros i. split; [split|].
  - change ([2; 0; 1] ≡ₚ [0; 1; 2]). rewrite (Permutation_cons_append [0; 1] 2). reflexivity.
  - repeat constructor.
  - change ([1; 0; 2] ≡ₚ [0; 1; 2]). apply perm_swap.
Qed.
Definition first_swarm : option swarm :=
  match swarm_generate square 3 1 f_neg10 (f_of_nat 10) draws' with Ok (s, _) => Some s | _ => None end.
Definition sample_run : outcome (list pso_event * swarm) :=
  match first_swarm with Some s => pso_run square fhalf f1 (f_of_nat 3) (generation_limit 4) two_workers 5 s [draws; draws'] | None => Panic end.
Definition best_values (o : outcome (list pso_event * swarm)) : list f64 :=
  match o with Ok (evs, _) => omap (fun e => match e with PsoBegin s | PsoNewGeneration s _ => Some (gbest_value s) | PsoEnd _ _ => None end) evs | _ => [] end.
Example C42_nonvacuous :
  (exists s0 r0, swarm_generate square 3 1 f_neg10 (f_of_nat 10) draws' = Ok (s0, r0) /\ (forall p0, particles s0 !! 0 = Some p0 -> is_nan (square (position p0)) = false)) /\
  match best_values sample_run with [b0; _; b2; b3; b4] => flt b2 b0 = true /\ flt b3 b2 = true /\ flt b4 b3 = true | _ => False end.
Proof.
  split; [|vm_compute; auto]. destruct (swarm_generate square 3 1 f_neg10 (f_of_nat 10) draws') as [[s0 r0]| |] eqn:E; [|vm_compute in E; discriminate E|vm_compute in E; discriminate E].
  exists s0, r0. split; [reflexivity|]. intros p0 Hp0. assert (X : first_swarm = Some s0) by (unfold first_swarm; rewrite E; reflexivity).
  vm_compute in X. apply (inj Some) in X as <-. cbn in Hp0. apply (inj Some) in Hp0 as <-. reflexivity.
Qed.

(** ** C43 *)
(** The position update: the same for every order in which the particles are processed. *)
Theorem C43_positions_any_order :
  forall f s order, order_ok (length (particles s)) order ->
  update_positions f order s = Ok (Swarm (map (update_position f) (particles s)) (gbest s) (gbest_value s)).
Proof. exact positions_order. Qed.
Print Assumptions C43_positions_any_order.
(** The velocity update: any two interleavings of the same shares of the workers give the same swarm and the same generators. *)
Theorem C43_velocities_any_interleaving :
  forall w c1 c2 s workers schedule schedule',
  schedule_ok (length (particles s)) (length workers) schedule -> schedule_ok (length (particles s)) (length workers) schedule' ->
  (forall k, share k schedule = share k schedule') ->
  update_velocities w c1 c2 schedule s workers = update_velocities w c1 c2 schedule' s workers.
Proof. exact velocities_interleaving. Qed.
Print Assumptions C43_velocities_any_interleaving.
(** Hence whole runs: the same callbacks and the same final swarm. *)
Theorem C43_runs_any_interleaving :
  forall f w c1 c2 met sched sched' fuel s workers,
  schedules_ok (length (particles s)) (length workers) sched -> schedules_ok (length (particles s)) (length workers) sched' ->
  (forall i k, share k (sched i).1 = share k (sched' i).1) ->
  pso_run f w c1 c2 met sched fuel s workers = pso_run f w c1 c2 met sched' fuel s workers.
Proof. intros f w c1 c2 met sched sched' fuel s workers H H' HS. exact (run_schedules f w c1 c2 met _ _ sched sched' H H' HS fuel s workers eq_refl eq_refl). Qed.
Print Assumptions C43_runs_any_interleaving.
(** Whatever the distribution over the workers, every particle moves exactly once, by the velocity rule with factors from [0, 1] and with the
    swarm's best position of the generation before, and nothing fails. *)
Theorem C43_generation_whatever_the_schedule :
  forall f w c1 c2 sched d i s workers,
  schedule_ok (length (particles s)) (length workers) (sched i).1 -> order_ok (length (particles s)) (sched i).2 ->
  Forall (of_dimension d) (particles s) -> length (gbest s) = d ->
  exists s' workers', generation f w c1 c2 sched i s workers = Ok (s', workers') /\ length workers' = length workers /\
    Forall2 (moves f w c1 c2 (gbest s)) (particles s) (particles s').
Proof.
  intros f w c1 c2 sched d i s workers HS HO HD HG. destruct (generation_spec f w c1 c2 sched d i s workers HS HO HD HG) as (s' & ws' & E & L & (F & _) & _). eauto.
Qed.
Print Assumptions C43_generation_whatever_the_schedule.
(** Two different interleavings of the same shares. *)
Definition two_workers' : nat -> list (nat * nat) * list nat := fun i => ([(0, 2); (0, 1); (1, 0)], [2; 1; 0]).
Example C43_nonvacuous :
  schedules_ok 3 2 two_workers /\ schedules_ok 3 2 two_workers' /\ (forall i k, share k (two_workers i).1 = share k (two_workers' i).1) /\ two_workers 0 <> two_workers' 0 /\
  match first_swarm with Some s => length (particles s) = 3 /\ Forall (of_dimension 1) (particles s) /\ length (gbest s) = 1 | None => False end.
Proof.
  split; [exact two_workers_ok|]. split; [|split; [|split; [discriminate|vm_compute; repeat constructor]]].
  - intros i. split; [split|].
    + change ([2; 1; 0] ≡ₚ [0; 1; 2]). change [2; 1; 0] with (rev [0; 1; 2]). symmetry. apply Permutation_rev.
    + repeat constructor.
    + change ([2; 1; 0] ≡ₚ [0; 1; 2]). change [2; 1; 0] with (rev [0; 1; 2]). symmetry. apply Permutation_rev.
  - intros i [|[|k]]; reflexivity.
Qed.

(** ** C44 *)
(** The run of a built swarm with GenerationLimit(n) succeeds, and the probe sees the begin, the generations 1 .. n in order and the end. *)
Theorem C44_generation_limit :
  forall f w c1 c2 sched count dims lo hi r s0 r0 workers n fuel,
  swarm_generate f count dims lo hi r = Ok (s0, r0) -> schedules_ok count (length workers) sched -> n < fuel ->
  exists l, length l = n /\ pso_run f w c1 c2 (generation_limit n) sched fuel s0 workers = Ok (pso_protocol s0 l, List.last l s0) /\
    evolution f w c1 c2 s0 l.
Proof.
  intros f w c1 c2 sched count dims lo hi r s0 r0 workers n fuel HG HS Hf.
  destruct (swarm_generate_spec _ _ _ _ _ _ _ _ HG) as (F & Hn & HD & HL).
  destruct (loop_total f w c1 c2 (generation_limit n) sched count dims (length workers) HS n fuel 0 s0 workers eq_refl Hn HD HL) as (evs & s' & m & E); [intros x; apply Nat.leb_refl|exact Hf|].
  assert (HR : pso_run f w c1 c2 (generation_limit n) sched fuel s0 workers = Ok (PsoBegin s0 :: evs ++ [PsoEnd s' m], s')) by (unfold pso_run; rewrite E; reflexivity).
  destruct (built_run HG HS HR) as (_ & l & E1 & E2 & EV & _ & M1 & M2). exists l. rewrite HR, E1, E2. split; [|auto].
  unfold generation_limit in M1, M2. apply Nat.leb_le in M1. destruct (Nat.eq_dec (length l) n) as [|NE]; [assumption|]. exfalso.
  destruct (lookup_lt_is_Some_2 (s0 :: l) n) as [x Hx]; [cbn; lia|]. specialize (M2 n x Hx ltac:(lia)). rewrite Nat.leb_refl in M2. discriminate.
Qed.
Print Assumptions C44_generation_limit.
(** Any termination condition: the loop stops at the first check that is met. *)
Theorem C44_stops_at_first_check_met :
  forall f w c1 c2 met sched count dims lo hi r s0 r0 workers fuel evs s',
  swarm_generate f count dims lo hi r = Ok (s0, r0) -> schedules_ok count (length workers) sched ->
  pso_run f w c1 c2 met sched fuel s0 workers = Ok (evs, s') ->
  exists l, evs = pso_protocol s0 l /\ s' = List.last l s0 /\ met (length l) s' = true /\ forall j x, (s0 :: l) !! j = Some x -> j < length l -> met j x = false.
Proof.
  intros f w c1 c2 met sched count dims lo hi r s0 r0 workers fuel evs s' HG HS HR. destruct (built_run HG HS HR) as (_ & l & -> & -> & _ & _ & M1 & M2). exists l. auto.
Qed.
Print Assumptions C44_stops_at_first_check_met.
(** TimeLimit(t) counts from its construction ([clock i]: seconds since then at check i), not from the start of [run]: a solver run t
    seconds after it was configured performs no generation. *)
Theorem C44_time_limit_counts_from_construction :
  forall f w c1 c2 sched s0 workers fuel clock t, 0 < fuel -> (t <= clock 0%nat)%N ->
  pso_run f w c1 c2 (time_limit clock t) sched fuel s0 workers = Ok (pso_protocol s0 [], s0).
Proof.
  intros f w c1 c2 sched s0 workers fuel clock t Hf Ht. destruct fuel as [|fuel]; [lia|]. unfold pso_run. cbn [pso_loop]. unfold time_limit. apply N.leb_le in Ht. rewrite Ht. reflexivity.
Qed.
Print Assumptions C44_time_limit_counts_from_construction.
(** PolicyDrivenProbe with GenerationInterval(k): the wrapped probe [pr], whatever it is, sees exactly the logged callbacks ... *)
Theorem C44_interval_policy :
  forall W (pr : probe pso_event W) k first later w, k <> 0 -> exists last,
  feed (pso_policy_driven (pso_interval_policy k) pr) (0, w) (pso_protocol first later) =
  (w' ← feed pr w (logged_events (fun n => n mod k =? 0) first later); Ok (last, w')).
Proof. exact @interval_feed. Qed.
Print Assumptions C44_interval_policy.
(** ... which record the generations 0, k, 2k, ... and the last one, once each and in order. *)
Theorem C44_recorded_generations :
  forall k first later,
  concat (map recorded (logged_events (fun n => n mod k =? 0) first later)) =
  filter (fun n => n = 0 \/ n mod k = 0 \/ n = length later) (seq 0 (length later + 1)).
Proof.
  intros k first later. rewrite recorded_numbers. apply list_filter_iff. intros n. rewrite Nat.eqb_eq. reflexivity.
Qed.
Print Assumptions C44_recorded_generations.
(** ElapsedTime, [due n] telling whether the interval has passed at generation n: the same scheme. *)
Theorem C44_elapsed_policy :
  forall W (pr : probe pso_event W) due first later w,
  (exists last, feed (pso_policy_driven (pso_elapsed_policy due) pr) (0, w) (pso_protocol first later) = (w' ← feed pr w (logged_events due first later); Ok (last, w'))) /\
  concat (map recorded (logged_events due first later)) = filter (fun n => n = 0 \/ due n = true \/ n = length later) (seq 0 (length later + 1)).
Proof. intros W pr due first later w. split; [apply elapsed_feed|apply recorded_numbers]. Qed.
Print Assumptions C44_elapsed_policy.
(** GenerationInterval(0) is accepted and panics at the first generation. *)
Theorem C44_interval_zero_panics :
  forall W (pr : probe pso_event W) first s later w w1, pr w (PsoBegin first) = Ok w1 ->
  feed (pso_policy_driven (pso_interval_policy 0) pr) (0, w) (pso_protocol first (s :: later)) = Panic.
Proof. exact @interval_zero. Qed.
Print Assumptions C44_interval_zero_panics.
Example C44_nonvacuous :
  let recorder : probe pso_event (list nat) := fun l e => Ok (l ++ recorded e) in
  match sample_run with
  | Ok (evs, _) => length evs = 6 /\ feed (pso_policy_driven (pso_interval_policy 3) recorder) (0, []) evs = Ok (3, [0; 3; 4])
  | _ => False
  end.
Proof. vm_compute. split; reflexivity. Qed.

(** ** C45 *)
(** When no initial value is NaN the swarm's best is at most every comparable value seen by any particle so far. *)
Theorem C45_best_of_all_values_seen :
  forall f w c1 c2 met sched count dims lo hi r s0 r0 workers fuel evs s',
  swarm_generate f count dims lo hi r = Ok (s0, r0) -> schedules_ok count (length workers) sched ->
  Forall (fun p => is_nan (f (position p)) = false) (particles s0) ->
  pso_run f w c1 c2 met sched fuel s0 workers = Ok (evs, s') ->
  exists l, evs = pso_protocol s0 l /\ forall j s, (s0 :: l) !! j = Some s ->
    is_nan (gbest_value s) = false /\
    forall i x, visited (take (S j) (s0 :: l)) i x -> is_nan (f x) = false -> fle (gbest_value s) (f x) = true.
Proof.
  intros f w c1 c2 met sched count dims lo hi r s0 r0 workers fuel evs s' HG HS HN HR. destruct (built_run HG HS HR) as (F & l & -> & _ & EV & FA & _).
  exists l. split; [reflexivity|]. intros j s Hj. pose proof FA as FA0. destruct (generation_of j s EV Hj) as (E1 & E2 & EV').
  destruct (global_history f w c1 c2 s0 F _ EV') as (_ & _ & C & _). rewrite <- E2 in C.
  assert (H0 : exists p0, particles s0 !! 0 = Some p0).
  { destruct F as (_ & _ & (i & p & Hp & _) & _). apply lookup_lt_is_Some_2. apply lookup_lt_Some in Hp. lia. }
  destruct H0 as [p0 Hp0]. destruct (C p0 Hp0) as [N1 C1]; [exact (proj1 (Forall_lookup _ _) HN 0 p0 Hp0)|]. split; [exact N1|].
  intros i x Hv Nx. assert (Hi : exists p, particles s !! i = Some p).
  { apply lookup_lt_is_Some_2. destruct Hv as (t & q & Ht & Hq & _). rewrite E1 in Ht.
    assert (Lt : length (particles t) = count). { assert (X : t ∈ s0 :: l) by (apply elem_of_cons in Ht as [->|Ht]; [left|right; eapply elem_of_take in Ht as (y & Hy & _); apply elem_of_list_lookup; eauto]). exact (proj1 (proj1 (Forall_forall _ _) FA t X)). }
    assert (Ls : length (particles s) = count) by exact (proj1 (proj1 (Forall_lookup _ _) FA j s Hj)). apply lookup_lt_Some in Hq. lia. }
  destruct Hi as [p Hp]. rewrite E1 in Hv. rewrite E2 in Hp. destruct (personal_history f w c1 c2 s0 F _ EV' i p Hp) as (_ & _ & _ & q0 & Hq0 & D & _).
  destruct (D (proj1 (Forall_lookup _ _) HN i q0 Hq0)) as [N2 D2]. eapply fle_trans; [|apply D2; eauto]. apply C1; [|exact N2]. rewrite E2. eapply elem_of_list_lookup_2; eauto.
Qed.
Print Assumptions C45_best_of_all_values_seen.
(** When the first particle starts at a NaN the swarm's best stays there forever, whatever the others find. *)
Theorem C45_first_particle_nan_sticks :
  forall f w c1 c2 met sched count dims lo hi r s0 r0 workers fuel evs s' p0,
  swarm_generate f count dims lo hi r = Ok (s0, r0) -> schedules_ok count (length workers) sched ->
  particles s0 !! 0 = Some p0 -> is_nan (f (position p0)) = true ->
  pso_run f w c1 c2 met sched fuel s0 workers = Ok (evs, s') ->
  exists l, evs = pso_protocol s0 l /\ forall j s, (s0 :: l) !! j = Some s -> gbest s = position p0 /\ is_nan (gbest_value s) = true.
Proof.
  intros f w c1 c2 met sched count dims lo hi r s0 r0 workers fuel evs s' p0 HG HS Hp0 HN HR. destruct (built_run HG HS HR) as (F & l & -> & _ & EV & _).
  exists l. split; [reflexivity|]. intros j s Hj. destruct (generation_of j s EV Hj) as (_ & -> & EV').
  destruct (global_history f w c1 c2 s0 F _ EV') as (A & _ & _ & C). rewrite A, (C p0 Hp0 HN). auto.
Qed.
Print Assumptions C45_first_particle_nan_sticks.
(** When another particle starts at a NaN its own best stays there, so whatever it finds later is lost. *)
Theorem C45_particle_nan_sticks :
  forall f w c1 c2 met sched count dims lo hi r s0 r0 workers fuel evs s' i p0,
  swarm_generate f count dims lo hi r = Ok (s0, r0) -> schedules_ok count (length workers) sched ->
  particles s0 !! i = Some p0 -> is_nan (f (position p0)) = true ->
  pso_run f w c1 c2 met sched fuel s0 workers = Ok (evs, s') ->
  exists l, evs = pso_protocol s0 l /\ forall j s p, (s0 :: l) !! j = Some s -> particles s !! i = Some p -> pbest p = position p0 /\ is_nan (pbest_value p) = true.
Proof.
  intros f w c1 c2 met sched count dims lo hi r s0 r0 workers fuel evs s' i p0 HG HS Hp0 HN HR. destruct (built_run HG HS HR) as (F & l & -> & _ & EV & _).
  exists l. split; [reflexivity|]. intros j s p Hj Hp. destruct (generation_of j s EV Hj) as (_ & -> & EV').
  destruct (personal_history f w c1 c2 s0 F _ EV' i p Hp) as (_ & A & _ & q0 & Hq0 & _ & B). rewrite Hp0 in Hq0. apply (inj Some) in Hq0 as <-. rewrite A, (B HN). auto.
Qed.
Print Assumptions C45_particle_nan_sticks.
(** "The swarm best is the best of all comparable values seen" is false: sqrt-like objective, NaN left of -6; the first particle starts at -10, the
    others at values which are numbers, and the reported best value is NaN at every generation. *)
Definition half_line (x : list f64) : f64 := match x with a :: _ => if flt a (fneg (f_of_nat 6)) then S754_nan else fmul a a | [] => S754_nan end.
Definition nan_draws : rng := fun n => match n with 0 => 0%N | 1 => bits_half | _ => bits_quarter end.
Theorem C45_best_of_all_values_seen_refuted :
  exists f count dims lo hi r s0 r0 p evs s' workers,
    swarm_generate f count dims lo hi r = Ok (s0, r0) /\ p ∈ particles s0 /\ is_nan (f (position p)) = false /\
    schedules_ok count (length workers) two_workers /\
    pso_run f fhalf f1 (f_of_nat 3) (generation_limit 3) two_workers 4 s0 workers = Ok (evs, s') /\
    Forall (fun e => match e with PsoBegin s | PsoNewGeneration s _ | PsoEnd s _ => is_nan (gbest_value s) = true end) evs.
Proof.
  destruct (swarm_generate half_line 3 1 f_neg10 (f_of_nat 10) nan_draws) as [[s0 r0]| |] eqn:E; [|vm_compute in E; discriminate E|vm_compute in E; discriminate E].
  pose proof E as E0. vm_compute in E. injection E as <- <-.
  eexists half_line, 3, 1, f_neg10, (f_of_nat 10), nan_draws, _, _, _, _, _, [draws; draws']. split; [exact E0|]. split; [right; left|]. split; [reflexivity|].
  split; [exact two_workers_ok|]. split; [vm_compute; reflexivity|]. repeat constructor.
Qed.
Print Assumptions C45_best_of_all_values_seen_refuted.
Example C45_nonvacuous :
  (exists s, first_swarm = Some s /\ Forall (fun p => is_nan (square (position p)) = false) (particles s)) /\
  exists s0 r0 p0, swarm_generate half_line 3 1 f_neg10 (f_of_nat 10) nan_draws = Ok (s0, r0) /\ particles s0 !! 0 = Some p0 /\ is_nan (half_line (position p0)) = true.
Proof.
  split.
  - destruct first_swarm as [s|] eqn:E; [|vm_compute in E; discriminate E]. exists s. split; [reflexivity|]. vm_compute in E. apply (inj Some) in E as <-. repeat constructor.
  - destruct (swarm_generate half_line 3 1 f_neg10 (f_of_nat 10) nan_draws) as [[s0 r0]| |] eqn:E; [|vm_compute in E; discriminate E|vm_compute in E; discriminate E].
    vm_compute in E. injection E as <- <-. eexists _, _, _. split; [reflexivity|]. split; reflexivity.
Qed.

(** ** C64 *)
(** The shape of the swarm: at every generation [count] particles, all coordinates of the configured dimension; the first swarm consists of particles
    at rest in their own best position. *)
Theorem C64_shape_never_changes :
  forall f w c1 c2 met sched count dims lo hi r s0 r0 workers fuel evs s',
  swarm_generate f count dims lo hi r = Ok (s0, r0) -> schedules_ok count (length workers) sched ->
  pso_run f w c1 c2 met sched fuel s0 workers = Ok (evs, s') ->
  exists l, evs = pso_protocol s0 l /\
    Forall (fun s => length (particles s) = count /\ length (gbest s) = dims /\
      Forall (fun p => length (position p) = dims /\ length (velocity p) = dims /\ length (pbest p) = dims) (particles s)) (s0 :: l).
Proof.
  intros f w c1 c2 met sched count dims lo hi r s0 r0 workers fuel evs s' HG HS HR. destruct (built_run HG HS HR) as (_ & l & -> & _ & _ & FA & _).
  exists l. split; [reflexivity|]. eapply Forall_impl; [exact FA|]. intros s (A & B & C). auto.
Qed.
Print Assumptions C64_shape_never_changes.
(** Every generation moves every particle by the rule of the method: x' = x + v', v' = w v + c1 r1 (p - x) + c2 r2 (g - x) with its own factors r1, r2
    in [0, 1] per coordinate, p its best and g the swarm's best position before the generation. *)
Theorem C64_movement_rule :
  forall f w c1 c2 met sched count dims lo hi r s0 r0 workers fuel evs s',
  swarm_generate f count dims lo hi r = Ok (s0, r0) -> schedules_ok count (length workers) sched ->
  pso_run f w c1 c2 met sched fuel s0 workers = Ok (evs, s') ->
  exists l, evs = pso_protocol s0 l /\ forall j s t, (s0 :: l) !! j = Some s -> l !! j = Some t ->
    Forall2 (fun p p' => accelerated w c1 c2 (velocity p) (position p) (pbest p) (gbest s) (velocity p') /\
                         position p' = zip_with fadd (position p) (velocity p')) (particles s) (particles t).
Proof.
  intros f w c1 c2 met sched count dims lo hi r s0 r0 workers fuel evs s' HG HS HR. destruct (built_run HG HS HR) as (_ & l & -> & _ & EV & _).
  exists l. split; [reflexivity|]. clear - EV. induction EV as [|s s1 l (F2 & _) EV IH]; intros [|j] a b Ha Hb; cbn in Ha, Hb; try discriminate.
  - injection Ha as <-. injection Hb as <-. eapply Forall2_impl; [exact F2|]. intros p p' (A & B & _). auto.
  - exact (IH j a b Ha Hb).
Qed.
Print Assumptions C64_movement_rule.
(** Initial positions lie in [lower, upper] as soon as (upper - lower) + lower does not round above upper; the default bounds satisfy this. *)
Theorem C64_initial_positions_within_bounds :
  forall f count dims lo hi r s r', proper_range (lo, hi) -> fle (fadd (fsub hi lo) lo) hi = true ->
  swarm_generate f count dims lo hi r = Ok (s, r') ->
  Forall (fun p => Forall (fun x => fle lo x = true /\ fle x hi = true) (position p)) (particles s).
Proof. exact initial_within. Qed.
Print Assumptions C64_initial_positions_within_bounds.
Theorem C64_default_bounds_within :
  forall f count dims r s r', swarm_generate f count dims (fneg (f_of_nat 10)) (f_of_nat 10) r = Ok (s, r') ->
  Forall (fun p => Forall (fun x => fle (fneg (f_of_nat 10)) x = true /\ fle x (f_of_nat 10) = true) (position p)) (particles s).
Proof.
  intros f count dims r s r' H. apply (initial_within f count dims _ _ r s r'); [|reflexivity|exact H].
  split; [split; reflexivity|]. split; [split; reflexivity|]. split; reflexivity.
Qed.
Print Assumptions C64_default_bounds_within.
(** Without that condition an initial position can exceed the upper bound: bounds -1 and 3 * 2^-54, draw 1.0. *)
Definition tiny_upper : f64 := f_of_bits 4370743438363066368. (* 3 * 2^-54 *)
Definition bits_one : N := 4607182418800017408.
Theorem C64_initial_positions_within_bounds_refuted :
  exists lo hi r s r', proper_range (lo, hi) /\ swarm_generate square 1 1 lo hi r = Ok (s, r') /\
    Exists (fun p => Exists (fun x => flt hi x = true) (position p)) (particles s).
Proof.
  destruct (swarm_generate square 1 1 (fneg f1) tiny_upper (fun _ => bits_one)) as [[s r']| |] eqn:E; [|vm_compute in E; discriminate E|vm_compute in E; discriminate E].
  exists (fneg f1), tiny_upper, (fun _ => bits_one), s, r'. split; [|split; [exact E|]].
  - split; [split; reflexivity|]. split; [split; reflexivity|]. split; reflexivity.
  - vm_compute in E. injection E as <- <-. left. left. vm_compute. reflexivity.
Qed.
Print Assumptions C64_initial_positions_within_bounds_refuted.
(** During a run the particles are not kept inside the bounds: with the default configuration on x^2 a particle leaves [-10, 10] in the first generation. *)
Definition out_draws : rng := fun _ => 0%N.
Theorem C64_positions_stay_within_bounds_refuted :
  exists s0 r0 evs s' workers, swarm_generate square 3 1 f_neg10 (f_of_nat 10) out_draws = Ok (s0, r0) /\
    schedules_ok 3 (length workers) two_workers /\
    pso_run square fhalf f1 (f_of_nat 3) (generation_limit 1) two_workers 2 s0 workers = Ok (evs, s') /\
    Exists (fun p => Exists (fun x => flt x f_neg10 = true) (position p)) (particles s').
Proof.
  destruct (swarm_generate square 3 1 f_neg10 (f_of_nat 10) out_draws) as [[s0 r0]| |] eqn:E; [|vm_compute in E; discriminate E|vm_compute in E; discriminate E].
  assert (X : match swarm_generate square 3 1 f_neg10 (f_of_nat 10) out_draws with Ok (s, _) => Some s | _ => None end = Some s0) by (rewrite E; reflexivity). vm_compute in X. apply (inj Some) in X as X.
  destruct (pso_run square fhalf f1 (f_of_nat 3) (generation_limit 1) two_workers 2 s0 [out_draws; out_draws]) as [[evs s']| |] eqn:R; rewrite <- X in R; [|vm_compute in R; discriminate R|vm_compute in R; discriminate R].
  exists s0, r0, evs, s', [out_draws; out_draws]. split; [reflexivity|]. split; [exact two_workers_ok|]. split; [rewrite <- X; exact R|].
  vm_compute in R. injection R as <- <-. left. left. vm_compute. reflexivity.
Qed.
Print Assumptions C64_positions_stay_within_bounds_refuted.
Example C64_nonvacuous : proper_range (f_neg10, f_of_nat 10) /\ exists s r', swarm_generate square 3 1 f_neg10 (f_of_nat 10) draws = Ok (s, r').
Proof. split; [|apply swarm_generate_ok; lia]. split; [split; reflexivity|]. split; [split; reflexivity|]. split; reflexivity. Qed.

(** ** C65 *)
(** The builder: for every field the last call that sets it wins, otherwise the documented default; the termination condition has three setters. *)
Theorem C65_configuration :
  forall rosenbrock setters r c s r', pso_build rosenbrock setters r = Ok (c, s, r') ->
  dimensions c = default 2 (last_set (fun s => match s with SetDimensions n => Some n | _ => None end) setters) /\
  lower_bound c = default (fneg (f_of_nat 10)) (last_set (fun s => match s with SetLowerBound x => Some x | _ => None end) setters) /\
  upper_bound c = default (f_of_nat 10) (last_set (fun s => match s with SetUpperBound x => Some x | _ => None end) setters) /\
  particle_count c = default 30 (last_set (fun s => match s with SetParticleCount n => Some n | _ => None end) setters) /\
  inertia_weight c = default fhalf (last_set (fun s => match s with SetInertiaWeight x => Some x | _ => None end) setters) /\
  cognitive_coefficient c = default f1 (last_set (fun s => match s with SetCognitive x => Some x | _ => None end) setters) /\
  social_coefficient c = default (f_of_nat 3) (last_set (fun s => match s with SetSocial x => Some x | _ => None end) setters) /\
  pso_function c = default rosenbrock (last_set (fun s => match s with SetFunction g => Some g | _ => None end) setters) /\
  termination c = default (GenerationLimit 500) (last_set (fun s => match s with SetTermination t => Some t | SetGenerationLimit n => Some (GenerationLimit n) | SetTimeLimit t => Some (TimeLimit t) | _ => None end) setters) /\
  pso_probe c = default 0 (last_set (fun s => match s with PsoModel.SetProbe p => Some p | _ => None end) setters).
Proof.
  intros rosenbrock setters r c s r' H. unfold pso_build in H. apply obind_Ok in H as ([s1 r1] & _ & H). injection H as <- <- <-. exact (config_fields rosenbrock setters).
Qed.
Print Assumptions C65_configuration.
(** [build] succeeds exactly when the particle count is not 0, and the swarm has the configured shape and objective. *)
Theorem C65_build :
  forall rosenbrock setters r,
  let count := default 30 (last_set (fun s => match s with SetParticleCount n => Some n | _ => None end) setters) in
  (count = 0 -> pso_build rosenbrock setters r = Panic) /\
  (0 < count -> exists c s r', pso_build rosenbrock setters r = Ok (c, s, r') /\ length (particles s) = count /\ length (gbest s) = dimensions c /\
     Forall (fun p => length (position p) = dimensions c /\ value p = pso_function c (position p) /\ pbest p = position p /\ pbest_value p = value p) (particles s)).
Proof.
  intros rosenbrock setters r count. destruct (config_fields rosenbrock setters) as (_ & _ & _ & HC & _). fold count in HC. unfold pso_build. split; intros H.
  - rewrite HC, H. reflexivity.
  - set (c := foldl pso_set (pso_default rosenbrock) setters) in *.
    destruct (swarm_generate_ok (pso_function c) (particle_count c) (dimensions c) (lower_bound c) (upper_bound c) r ltac:(lia)) as (s & r' & E). rewrite E. cbn [mbind outcome_bind].
    exists c, s, r'. split; [reflexivity|]. apply swarm_generate_spec in E as ((F & _) & A & B & C). split; [lia|]. split; [exact C|].
    apply Forall_forall. intros p Hp. destruct (proj1 (Forall_forall _ _) F p Hp) as (V & PB & PV). destruct (proj1 (Forall_forall _ _) B p Hp) as (D & _). split_and!; auto. congruence.
Qed.
Print Assumptions C65_build.
(** [build().run()] with a generation limit never fails and performs that many generations, for any workers and schedules. *)
Theorem C65_build_and_run :
  forall rosenbrock setters r c s r' n clock sched workers fuel,
  pso_build rosenbrock setters r = Ok (c, s, r') -> termination c = GenerationLimit n -> n < fuel ->
  schedules_ok (particle_count c) (length workers) sched ->
  exists l, length l = n /\ pso_solve clock sched workers fuel c s = Ok (pso_protocol s l, List.last l s).
Proof.
  intros rosenbrock setters r c s r' n clock sched workers fuel H HT Hf HS. unfold pso_build in H. apply obind_Ok in H as ([s1 r1] & HG & H). injection H as <- <- <-.
  unfold pso_solve. rewrite HT. cbn [pso_met].
  destruct (C44_generation_limit _ (inertia_weight (foldl pso_set (pso_default rosenbrock) setters)) (cognitive_coefficient (foldl pso_set (pso_default rosenbrock) setters))
    (social_coefficient (foldl pso_set (pso_default rosenbrock) setters)) sched _ _ _ _ _ _ _ workers n fuel HG HS Hf) as (l & A & B & _). eauto.
Qed.
Print Assumptions C65_build_and_run.
(** With a time limit of [secs] seconds it performs generations until the clock, read after each of them, shows [secs] seconds since the configuration. *)
Theorem C65_build_and_run_for_a_time :
  forall rosenbrock setters r c s r' secs n clock sched workers fuel,
  pso_build rosenbrock setters r = Ok (c, s, r') -> termination c = TimeLimit secs -> (forall j, j < n -> (clock j < secs)%N) -> (secs <= clock n)%N -> n < fuel ->
  schedules_ok (particle_count c) (length workers) sched ->
  exists l, length l = n /\ pso_solve clock sched workers fuel c s = Ok (pso_protocol s l, List.last l s).
Proof.
  intros rosenbrock setters r c s r' secs n clock sched workers fuel H HT Hlt Hge Hf HS. unfold pso_build in H. apply obind_Ok in H as ([s1 r1] & HG & H). injection H as <- <- <-.
  set (c := foldl pso_set (pso_default rosenbrock) setters) in *. assert (HM : forall i x, pso_met clock (termination c) i x = (secs <=? clock i)%N) by (intros i x; rewrite HT; reflexivity).
  destruct (swarm_generate_spec _ _ _ _ _ _ _ _ HG) as (F & Hn & HD & HL). unfold pso_solve.
  destruct (loop_total (pso_function c) (inertia_weight c) (cognitive_coefficient c) (social_coefficient c) (pso_met clock (termination c)) sched _ _ (length workers) HS n fuel 0 s1 workers eq_refl Hn HD HL) as (evs & s' & m & E);
    [intros x; rewrite HM; apply N.leb_le; exact Hge|exact Hf|].
  assert (HR : pso_run (pso_function c) (inertia_weight c) (cognitive_coefficient c) (social_coefficient c) (pso_met clock (termination c)) sched fuel s1 workers = Ok (PsoBegin s1 :: evs ++ [PsoEnd s' m], s')) by (unfold pso_run; rewrite E; reflexivity).
  destruct (built_run HG HS HR) as (_ & l & E1 & E2 & _ & _ & M1 & M2). exists l. rewrite HR, E1, E2. split; [|reflexivity].
  rewrite HM in M1. apply N.leb_le in M1. destruct (Nat.lt_trichotomy (length l) n) as [L|[L|L]]; [|exact L|].
  - specialize (Hlt _ L). lia.
  - destruct (lookup_lt_is_Some_2 (s1 :: l) n) as [x Hx]; [cbn; lia|]. specialize (M2 n x Hx L). rewrite HM in M2. apply N.leb_gt in M2. lia.
Qed.
Print Assumptions C65_build_and_run_for_a_time.
(** The clock shows 0, 2, 4 seconds: three seconds are over after two generations. *)
Example C65_nonvacuous_time :
  exists c s r', pso_build square [SetTimeLimit 3; SetParticleCount 3] draws = Ok (c, s, r') /\
    particle_count c = 3 /\ termination c = TimeLimit 3 /\ let clock i := (2 * N.of_nat i)%N in (forall j, j < 2 -> (clock j < 3)%N) /\ (3 <= clock 2%nat)%N.
Proof.
  destruct (pso_build square [SetTimeLimit 3; SetParticleCount 3] draws) as [[[c s] r']| |] eqn:E; [|vm_compute in E; discriminate E|vm_compute in E; discriminate E].
  exists c, s, r'. split; [reflexivity|]. destruct (C65_configuration _ _ _ _ _ _ E) as (_ & _ & _ & HC & _ & _ & _ & _ & HT & _). split; [exact HC|]. split; [exact HT|]. split; [intros j Hj; lia|lia].
Qed.
Example C65_nonvacuous :
  exists c s r', pso_build square [SetParticleCount 5; SetDimensions 1; SetTimeLimit 3; SetParticleCount 3; SetGenerationLimit 4] draws = Ok (c, s, r') /\
    particle_count c = 3 /\ termination c = GenerationLimit 4 /\ schedules_ok (particle_count c) 2 two_workers.
Proof.
  destruct (pso_build square [SetParticleCount 5; SetDimensions 1; SetTimeLimit 3; SetParticleCount 3; SetGenerationLimit 4] draws) as [[[c s] r']| |] eqn:E; [|vm_compute in E; discriminate E|vm_compute in E; discriminate E].
  exists c, s, r'. split; [reflexivity|]. destruct (C65_configuration _ _ _ _ _ _ E) as (_ & _ & _ & HC & _ & _ & _ & _ & HT & _). split; [exact HC|]. split; [exact HT|]. rewrite HC. exact two_workers_ok.
Qed.

(** ** C66 *)
(** What JsonProbe (and CsvProbe, without the position) writes at the end of a run: one record per generation 0, 1, ..., n in order, with the swarm's best
    position at that moment and the objective's value there; values never increase. *)
Theorem C66_records :
  forall f w c1 c2 met sched count dims lo hi r s0 r0 workers fuel evs s',
  swarm_generate f count dims lo hi r = Ok (s0, r0) -> schedules_ok count (length workers) sched ->
  pso_run f w c1 c2 met sched fuel s0 workers = Ok (evs, s') ->
  exists l records, evs = pso_protocol s0 l /\ feed pso_json_probe (PsoLog [] None) evs = Ok (PsoLog records (Some records)) /\
    length records = length l + 1 /\
    (forall j n v x, records !! j = Some (n, v, x) -> n = j /\ v = f x /\ exists s, (s0 :: l) !! j = Some s /\ x = gbest s) /\
    (forall j k n v x m u y, j <= k -> records !! j = Some (n, v, x) -> records !! k = Some (m, u, y) -> is_nan v = false -> fle u v = true).
Proof.
  intros f w c1 c2 met sched count dims lo hi r s0 r0 workers fuel evs s' HG HS HR.
  destruct (C42_swarm_best _ _ _ _ _ _ _ _ _ _ _ _ _ _ _ _ _ HG HS HR) as (l & E & HB). destruct (C42_swarm_best_never_worsens _ _ _ _ _ _ _ _ _ _ _ _ _ _ _ _ _ HG HS HR) as (l' & E' & HM).
  assert (l' = l) as ->.
  { rewrite E in E'. unfold pso_protocol in E'. injection E' as E'. apply app_inj_tail in E' as [E' _].
    apply list_eq. intros j. apply (f_equal (lookup j)) in E'. rewrite !list_lookup_imap in E'.
    destruct (l !! j), (l' !! j); cbn in E'; congruence. }
  exists l, (imap (fun i s => (i, gbest_value s, gbest s)) (s0 :: l)). split; [exact E|]. split; [rewrite E; apply json_feed|].
  assert (LK : forall j n v x, imap (fun i s => (i, gbest_value s, gbest s)) (s0 :: l) !! j = Some (n, v, x) -> exists s, (s0 :: l) !! j = Some s /\ n = j /\ v = gbest_value s /\ x = gbest s).
  { intros j n v x H. rewrite list_lookup_imap in H. destruct ((s0 :: l) !! j) as [s|] eqn:Es; cbn in H; [|discriminate]. injection H as <- <- <-. exists s. auto. }
  split; [rewrite imap_length; cbn [length]; lia|]. split.
  - intros j n v x (s & Hs & -> & -> & ->)%LK. destruct (HB j s Hs) as (A & _). split; [reflexivity|]. split; [exact A|]. eauto.
  - intros j k n v x m u y Hjk (s & Hs & -> & -> & ->)%LK (t & Ht & -> & -> & ->)%LK. exact (HM j k s t Hjk Hs Ht).
Qed.
Print Assumptions C66_records.
(** Under a policy: the records are those of the logged generations. *)
Theorem C66_records_with_policy :
  forall k first later, k <> 0 -> exists last records,
  feed (pso_policy_driven (pso_interval_policy k) pso_json_probe) (0, PsoLog [] None) (pso_protocol first later) = Ok (last, PsoLog records (Some records)) /\
  map (fun r => r.1.1) records = filter (fun n => n = 0 \/ n mod k = 0 \/ n = length later) (seq 0 (length later + 1)).
Proof.
  intros k first later Hk. destruct (interval_feed pso_json_probe k first later (PsoLog [] None) Hk) as [last E]. exists last.
  assert (G : forall evs acc file, Forall (fun e => match e with PsoEnd _ _ => False | _ => True end) evs -> exists recs,
    feed pso_json_probe (PsoLog acc file) evs = Ok (PsoLog (acc ++ recs) file) /\ map (fun r => r.1.1) recs = concat (map recorded evs)).
  { induction evs as [|e evs IH]; intros acc file H; [exists []; rewrite app_nil_r; auto|]. apply Forall_cons in H as [He H]. rewrite feed_cons. destruct e as [s|s n|]; [| |contradiction].
    - rewrite json_begin. cbn [mbind outcome_bind]. destruct (IH (acc ++ [(0, gbest_value s, gbest s)]) file H) as (recs & E1 & E2). rewrite <- app_assoc in E1. eexists. split; [exact E1|]. cbn [map app concat recorded fst]. rewrite E2. reflexivity.
    - rewrite json_new. cbn [mbind outcome_bind]. destruct (IH (acc ++ [(n, gbest_value s, gbest s)]) file H) as (recs & E1 & E2). rewrite <- app_assoc in E1. eexists. split; [exact E1|]. cbn [map app concat recorded fst]. rewrite E2. reflexivity. }
  pose proof (C44_recorded_generations k first later) as RN. unfold logged_events in E, RN. rewrite app_assoc, app_comm_cons in E, RN.
  match type of E with context [feed pso_json_probe _ (?a ++ [PsoEnd ?s ?n])] => set (body := a) in *; destruct (G body [] None) as (recs & E1 & E2) end.
  { unfold body. apply Forall_cons. split; [exact I|]. apply Forall_app. split.
    - apply Forall_forall. intros e He. apply elem_of_list_omap in He as ([i s] & _ & He). destruct ((i + 1) mod k =? 0); simplify_eq; exact I.
    - destruct (_ || _); repeat constructor. }
  exists recs. rewrite E, feed_app, E1. cbn [mbind outcome_bind]. rewrite feed_cons, json_end. split; [reflexivity|].
  rewrite E2, <- RN, map_app, concat_app. cbn [map recorded concat app]. rewrite app_nil_r. reflexivity.
Qed.
Print Assumptions C66_records_with_policy.
Example C66_nonvacuous :
  match sample_run with
  | Ok (evs, _) => match feed pso_json_probe (PsoLog [] None) evs with Ok (PsoLog _ (Some rs)) => map (fun r => r.1.1) rs = [0; 1; 2; 3; 4] | _ => False end
  | _ => False
  end.
Proof. vm_compute. reflexivity. Qed.
