(** * Property theorems: probing policies and aggregated probes (C32, C33) *)
From Verif Require Import ProbeProofs.
Open Scope nat_scope.

(** ** C32 *)
(** [w] is any state of the wrapped probe [pr], [p'] the state the policy is left in: the wrapped probe is called
    with exactly the events of [only_iterations (every t k) evs]. *)
Theorem C32_generation_interval :
  forall (G St W : Type) (cfg : config G St) (pr : probe (event G) W) debug ck m0 s evs b m s' k t w,
  run cfg ck m0 s = Ok (evs, b, m, s') -> (1 <= k)%N -> (1 <= t)%N -> (N.of_nat (generation_limit cfg) + k < 2 ^ 64)%N ->
  exists p', feed (policy_driven (gi_policy debug) pr) (gi_new k t, w) evs =
    (w' ← feed pr w (only_iterations (every t k) evs); Ok (p', w')).
Proof. exact @interval_documented. Qed.
Print Assumptions C32_generation_interval.

Theorem C32_every_is_arithmetic_progression :
  forall t k g, (1 <= k)%N -> every t k g = true <-> exists j, N.of_nat g = (t + j * k)%N.
Proof. exact every_spec. Qed.
Print Assumptions C32_every_is_arithmetic_progression.

(** The boundary values: first_threshold = 0 logs generation 1 and the multiples of the interval; interval = 0
    logs every generation from the threshold on. *)
Theorem C32_first_threshold_zero :
  forall (G St W : Type) (cfg : config G St) (pr : probe (event G) W) debug ck m0 s evs b m s' k w,
  run cfg ck m0 s = Ok (evs, b, m, s') -> (1 <= k)%N -> (N.of_nat (generation_limit cfg) + k < 2 ^ 64)%N ->
  exists p', feed (policy_driven (gi_policy debug) pr) (gi_new k 0, w) evs =
    (w' ← feed pr w (only_iterations (fun g => (g =? 1) || every k k g) evs); Ok (p', w')).
Proof. exact @interval_zero_first. Qed.
Print Assumptions C32_first_threshold_zero.
Theorem C32_interval_zero :
  forall (G St W : Type) (cfg : config G St) (pr : probe (event G) W) debug ck m0 s evs b m s' t w,
  run cfg ck m0 s = Ok (evs, b, m, s') -> (N.of_nat (generation_limit cfg) < 2 ^ 64)%N ->
  exists p', feed (policy_driven (gi_policy debug) pr) (gi_new 0 t, w) evs =
    (w' ← feed pr w (only_iterations (fun g => t <=? N.of_nat g)%N evs); Ok (p', w')).
Proof. exact @interval_zero. Qed.
Print Assumptions C32_interval_zero.

(** Without the bound on the interval the claim is false: an interval of usize::MAX ("log the first only")
    overflows; a debug build panics and a release build logs generation 2 as well. *)
Definition copying (limit : nat) : config bool unit :=
  Config bool unit 1 limit 100 (fun n s => Ok (replicate n (Ind [true] f0), s)) (fun ch => f1)
    (fun _ pop s => Ok (seq 0 (length pop), s)) (fun _ pool s => Ok (pool, s))
    (fun _ x s => Ok (x, s)) (fun _ pop ch s => Ok (ch, s)) true.
Definition ticks : clock := Clock 0 (fun g => N.of_nat (10 * g)) (fun g => N.of_nat g) 99.
Definition seen_by {P} (pol : policy (event bool) P) (p : P) (limit : nat) : outcome (list (callback * nat)) :=
  '(evs, _, _, _) ← run (copying limit) ticks (fresh_metrics (copying limit)) tt;
  '(_, l) ← feed (policy_driven pol (recorder 0)) (p, []) evs;
  Ok (map (fun x => tagged x.2) l).

Theorem C32_huge_interval_refuted :
  seen_by (gi_policy true) (gi_new (2 ^ 64 - 1) 1) 2 = Panic /\
  exists l, seen_by (gi_policy false) (gi_new (2 ^ 64 - 1) 1) 2 = Ok l /\ (KNewGeneration, 2) ∈ l.
Proof. split; [vm_compute; reflexivity|]. eexists. split; [vm_compute; reflexivity|]. repeat (try (left; fail); right). Qed.
Print Assumptions C32_huge_interval_refuted.

(** ElapsedTime: an iteration is reported iff its starting time has reached the first threshold plus one
    interval per iteration reported before. *)
Theorem C32_elapsed_time :
  forall (G St W : Type) (cfg : config G St) (pr : probe (event G) W) ck m0 s evs b m s' k t w,
  run cfg ck m0 s = Ok (evs, b, m, s') ->
  (forall g, 0 < g <= generation_limit cfg -> (c_start ck g + k <= max_dur)%N) ->
  exists logged p', (forall g, 0 < g <= generation_limit cfg -> logged g = true <-> due t k (c_start ck) logged g) /\
    feed (policy_driven et_policy pr) (et_new k t, w) evs = (w' ← feed pr w (only_iterations logged evs); Ok (p', w')).
Proof. exact @elapsed_run. Qed.
Print Assumptions C32_elapsed_time.

Example C32_nonvacuous :
  seen_by (gi_policy true) (gi_new 2 2) 5 =
    Ok ([(KStart, 0); (KInitial, 0); (KNewBest, 0)] ++
        [(KIterStart, 2); (KNewGeneration, 2); (KBestFit, 2); (KIterEnd, 2)] ++
        [(KIterStart, 4); (KNewGeneration, 4); (KBestFit, 4); (KIterEnd, 4)] ++ [(KEnd, 5)]) /\
  seen_by et_policy (et_new 25 0) 4 =
    Ok ([(KStart, 0); (KInitial, 0); (KNewBest, 0)] ++
        [(KIterStart, 1); (KNewGeneration, 1); (KBestFit, 1); (KIterEnd, 1)] ++
        [(KIterStart, 3); (KNewGeneration, 3); (KBestFit, 3); (KIterEnd, 3)] ++ [(KEnd, 4)]).
Proof. split; vm_compute; reflexivity. Qed.

(** ** C33 *)
(** The log shared by the probes: for each event, in order, one entry per probe, in the order of the probes.
    [E] is the type of events of the genetic, the particle swarm or the firefly solver. *)
Theorem C33_aggregated_order :
  forall (E : Type) names (evs : list E) w,
  feed (aggregated (recorder <$> names)) w evs = Ok (w ++ (e ← evs; (., e) <$> names)).
Proof. exact @feed_recorders. Qed.
Print Assumptions C33_aggregated_order.

(** Each probe ends in the state it would have reached had it been the only probe. *)
Theorem C33_aggregated_each_probe_sees_all :
  forall (E V : Type) (ps : list (probe E V)) evs ws ws', length ws = length ps ->
  Forall2 (fun pw w' => feed pw.1 pw.2 evs = Ok w') (zip ps ws) ws' ->
  feed (aggregated (imap own ps)) ws evs = Ok ws'.
Proof. exact @feed_own. Qed.
Print Assumptions C33_aggregated_each_probe_sees_all.

(** The order is that of the calls of add_probe. *)
Theorem C33_add_probe_order :
  forall (E W : Type) (ps : list (probe E W)), foldl aggregated_add aggregated_new ps = aggregated_with ps.
Proof.
  intros E W ps. unfold aggregated_with, aggregated_new.
  assert (X : forall acc, foldl aggregated_add acc ps = acc ++ ps); [|apply X].
  induction ps as [|p ps IH]; intros acc; cbn; [rewrite app_nil_r; reflexivity|].
  rewrite IH. unfold aggregated_add. rewrite <- app_assoc. reflexivity.
Qed.
Print Assumptions C33_add_probe_order.

Example C33_nonvacuous :
  feed (aggregated (foldl aggregated_add aggregated_new [recorder 7; recorder 3])) [] [true; false] =
    Ok [(7, true); (3, true); (7, false); (3, false)].
Proof. reflexivity. Qed.
Example C33_nonvacuous_own :
  let count n : probe bool nat := fun w e => Ok (if e then w + n else w) in
  feed (aggregated (imap own [count 1; count 10])) [0; 0] [true; false; true] = Ok [2; 20].
Proof. reflexivity. Qed.
