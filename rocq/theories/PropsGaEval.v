(** * Property theorems: custom individuals and stateful fitness functions (C100) *)
From Verif Require Import GaEvalProofs.
Open Scope nat_scope.

(** An individual for the examples: a number and, when known, its fitness.  The state counts the evaluations and keeps
    what was evaluated; the fitness function is noisy: it adds the parity of the call number. *)
Definition sample : Type := nat * option nat.
Definition value (x : sample) : nat := default 0 (snd x).
Definition noisy (cached children : bool) (limit : nat) (max : N) : gconfig sample nat (list sample) :=
  GConfig sample nat (list sample) 2 limit max
    (fun x => if cached then bool_decide (snd x = None) else true) (fun x v => (fst x, Some v))
    (fun a b => Ok (Nat.compare (value a) (value b))) (fun a b => value a <? value b)
    (fun n s => Ok (map (fun i => (7 + i, None)) (seq 0 n), s))
    (fun x s => Ok (2 * fst x + (if Nat.even (length s) then 1 else 0), x, x :: s))
    (fun _ pop s => Ok ([0; 1; 1], s)) (fun _ pool s => Ok (map (fun x => (fst x, None)) pool, s))
    (fun _ x s => Ok ((fst x - 1, None), s))
    (fun _ pop ch s => Ok (firstn 1 ch ++ firstn 1 pop, s)) children.
Definition ticks : clock := Clock 0 N.of_nat (fun g => N.of_nat (g + 1)) 100.

(** ** C100 *)
(** The solver with the crate's individuals and a pure fitness function, of which C24 - C28 speak, is an instance. *)
Theorem C100_pure_instance :
  forall (G St : Type) (cfg : config G St) ck m0 s,
  g_run (pure cfg) ck m0 s = ('(evs, b, m, s') ← run cfg ck m0 s; Ok (map as_gevent evs, b, m, s')).
Proof. exact @pure_run. Qed.
Print Assumptions C100_pure_instance.

(** The returned individual was in a population shown to the probe, and none of those shown is better, with the fitness
    they carried when they were shown: the fitness function may be noisy, keep state or rewrite the individual. *)
Theorem C100_best_ever :
  forall (I V St : Type) (cfg : gconfig I V St) (D : I -> Prop) (le : I -> I -> Prop), orders cfg D le ->
  forall ck m0 s evs b m s', g_run cfg ck m0 s = Ok (evs, b, m, s') ->
  (exists e q, e ∈ evs /\ g_shown e = Some q /\ b ∈ q) /\ (g_all_shown evs D -> g_all_shown evs (le b)).
Proof. exact @g_run_best. Qed.
Print Assumptions C100_best_ever.

(** Individuals that always require evaluation: the number of calls of the fitness function in a run of k iterations is
    N + 2kN, and with a replacement that needs the children's fitness kK more, where K is the number of children. *)
Theorem C100_number_of_evaluations :
  forall (I V St : Type) (cfg : gconfig I V St) (calls : St -> nat) (K : nat),
  (forall x, g_requires cfg x = true) ->
  (forall s x v x' s', g_fitness cfg x s = Ok (v, x', s') -> calls s' = calls s + 1) ->
  (forall s pop s', g_generate cfg (g_population_size cfg) s = Ok (pop, s') -> calls s' = calls s /\ length pop = g_population_size cfg) ->
  (forall m pop s sel s', g_select cfg m pop s = Ok (sel, s') -> calls s' = calls s /\ length sel = K) ->
  (forall m pool s ch s', length pool = K -> g_crossover cfg m pool s = Ok (ch, s') -> calls s' = calls s /\ length ch = K) ->
  (forall m c s c' s', g_mutate cfg m c s = Ok (c', s') -> calls s' = calls s) ->
  (forall m pop ch s pop' s', g_replace cfg m pop ch s = Ok (pop', s') -> calls s' = calls s) ->
  forall ck m0 s evs b m s', g_run cfg ck m0 s = Ok (evs, b, m, s') ->
  let N := g_population_size cfg in let k := finished_iterations evs in
  calls s' = calls s + N + 2 * k * N + (if g_requires_children_fitness cfg then k * K else 0) /\
  k <= g_generation_limit cfg /\ (0 < g_generation_limit cfg -> 0 < k).
Proof.
  intros I V St cfg calls K HR HE HG HS HX HM HP ck m0 s evs b m s' H N k.
  destruct (count_run cfg (fun n s => calls s = n) (fun _ => True) K) with (ck := ck) (m0 := m0) (s := s) (evs := evs) (b := b) (m := m) (s' := s') (n := calls s) as (E & B1 & B2);
    [..|reflexivity|exact H|].
  - intros n s0 pop s1 En E. destruct (HG _ _ _ E) as [E1 E2]. split; [lia|]. split; [apply Forall_true; auto|exact E2].
  - intros n s0 x v x' s1 En _ _ E. apply HE in E. split; [lia|exact Logic.I].
  - auto.
  - intros n m1 pop s0 sel s1 En _ E. apply HS in E. destruct E as [E1 E2]. split; [lia|exact E2].
  - intros n m1 pool s0 ch s1 En _ EL E. apply HX in E; [|exact EL]. destruct E as [E1 E2]. split; [lia|]. split; [apply Forall_true; auto|exact E2].
  - intros n m1 c s0 c' s1 En _ E. apply HM in E. split; [lia|exact Logic.I].
  - intros n m1 pop ch s0 pop' s1 En _ _ E. apply HP in E. split; [lia|apply Forall_true; auto].
  - split; [|split; [exact B1|exact B2]]. rewrite E. subst N k. unfold per_generation. destruct (g_requires_children_fitness cfg); lia.
Qed.
Print Assumptions C100_number_of_evaluations.

(** Only individuals that require evaluation are given to the fitness function. *)
Theorem C100_only_required :
  forall (I V St : Type) (cfg : gconfig I V St) (asked : St -> list I),
  (forall k s pop s', g_generate cfg k s = Ok (pop, s') -> asked s' = asked s) ->
  (forall s x v x' s', g_fitness cfg x s = Ok (v, x', s') -> asked s' = x :: asked s) ->
  (forall m pop s sel s', g_select cfg m pop s = Ok (sel, s') -> asked s' = asked s) ->
  (forall m pool s ch s', g_crossover cfg m pool s = Ok (ch, s') -> asked s' = asked s) ->
  (forall m c s c' s', g_mutate cfg m c s = Ok (c', s') -> asked s' = asked s) ->
  (forall m pop ch s pop' s', g_replace cfg m pop ch s = Ok (pop', s') -> asked s' = asked s) ->
  forall ck m0 s evs b m s', g_run cfg ck m0 s = Ok (evs, b, m, s') ->
  exists new, asked s' = new ++ asked s /\ Forall (fun x => g_requires cfg x = true) new.
Proof. exact @grows_run. Qed.
Print Assumptions C100_only_required.

(** Individuals that remember their fitness: with a replacement that asks for the children's fitness and returns parents
    and children, nothing is evaluated twice, so at most N + kK evaluations are made. *)
Theorem C100_evaluated_once :
  forall (I V St : Type) (cfg : gconfig I V St) (calls : St -> nat) (K : nat),
  (forall s pop s', g_generate cfg (g_population_size cfg) s = Ok (pop, s') -> calls s' = calls s /\ length pop = g_population_size cfg) ->
  (forall s x v x' s', g_fitness cfg x s = Ok (v, x', s') -> calls s' = calls s + 1 /\ g_requires cfg (g_set cfg x' v) = false) ->
  (forall m pop s sel s', g_select cfg m pop s = Ok (sel, s') -> calls s' = calls s /\ length sel = K) ->
  (forall m pool s ch s', length pool = K -> g_crossover cfg m pool s = Ok (ch, s') -> calls s' = calls s /\ length ch = K) ->
  (forall m c s c' s', g_mutate cfg m c s = Ok (c', s') -> calls s' = calls s) ->
  (forall m pop ch s pop' s', g_replace cfg m pop ch s = Ok (pop', s') -> calls s' = calls s /\ Forall (fun x => x ∈ pop \/ x ∈ ch) pop') ->
  g_requires_children_fitness cfg = true ->
  forall ck m0 s evs b m s', g_run cfg ck m0 s = Ok (evs, b, m, s') ->
  calls s' <= calls s + g_population_size cfg + finished_iterations evs * K.
Proof. exact @cached_run. Qed.
Print Assumptions C100_evaluated_once.

(** Operators and fitness functions that return normally, and a total order on evaluated individuals: the run returns. *)
Theorem C100_run_returns :
  forall (I V St : Type) (cfg : gconfig I V St) (W : St -> Prop) (P D : I -> Prop) (K : nat),
  let N := g_population_size cfg in 0 < N ->
  (forall s, W s -> exists pop s', g_generate cfg N s = Ok (pop, s') /\ W s' /\ Forall P pop /\ length pop = N) ->
  (forall x, P x -> g_requires cfg x = true) ->
  (forall s x, W s -> P x -> exists v x' s', g_fitness cfg x s = Ok (v, x', s') /\ W s' /\ P (g_set cfg x' v) /\ D (g_set cfg x' v)) ->
  (forall a b, D a -> D b -> exists c, g_cmp cfg a b = Ok c) ->
  (forall m pop s, W s -> Forall P pop -> Forall D pop -> length pop = N ->
     exists sel s', g_select cfg m pop s = Ok (sel, s') /\ W s' /\ length sel = K /\ Forall (fun i => i < N) sel) ->
  (forall m pool s, W s -> Forall P pool -> length pool = K -> exists ch s', g_crossover cfg m pool s = Ok (ch, s') /\ W s' /\ Forall P ch /\ length ch = K) ->
  (forall m c s, W s -> P c -> exists c' s', g_mutate cfg m c s = Ok (c', s') /\ W s' /\ P c') ->
  (forall m pop ch s, W s -> Forall P pop -> Forall D pop -> length pop = N -> Forall P ch -> length ch = K ->
     (g_requires_children_fitness cfg = true -> Forall D ch) -> exists pop' s', g_replace cfg m pop ch s = Ok (pop', s') /\ W s' /\ Forall P pop' /\ length pop' = N) ->
  forall ck m0 s, W s -> exists evs b m s', g_run cfg ck m0 s = Ok (evs, b, m, s') /\ W s'.
Proof. exact @total_run. Qed.
Print Assumptions C100_run_returns.

(** The noisy fitness function: 2 + 2(2·2) + 2·3 = 16 evaluations in two iterations without a cache, 2 + 2·3 = 8 with one. *)
Example C100_nonvacuous :
  (exists evs b m s', g_run (noisy false true 2 50%N) ticks (Metrics 0 0 None) [] = Ok (evs, b, m, s') /\ length s' = 16 /\ finished_iterations evs = 2 /\ b = (5, Some 11)) /\
  (exists evs b m s', g_run (noisy true true 2 50%N) ticks (Metrics 0 0 None) [] = Ok (evs, b, m, s') /\ length s' = 8 /\ finished_iterations evs = 2).
Proof. split; (eexists _, _, _, _; split; [vm_compute; reflexivity|]; auto). Qed.
Example C100_orders_nonvacuous : orders (noisy true true 2 50%N) (fun _ => True) (fun a b => value a <= value b).
Proof.
  split; cbn -[value Nat.compare Nat.ltb].
  - auto.
  - intros; lia.
  - intros a b c _ _ [= <-]. destruct (Nat.compare_spec (value a) (value b)); lia.
  - intros a b _ _. destruct (Nat.ltb_spec (value a) (value b)); lia.
Qed.
Example C100_hypotheses_nonvacuous : forall cached children limit max,
  let cfg := noisy cached children limit max in
  (forall s x v x' s', g_fitness cfg x s = Ok (v, x', s') -> length s' = length s + 1) /\
  (forall s x v x' s', g_fitness cfg x s = Ok (v, x', s') -> s' = x :: s) /\
  (forall s x v x' s', cached = true -> g_fitness cfg x s = Ok (v, x', s') -> g_requires cfg (g_set cfg x' v) = false) /\
  (forall s pop s', g_generate cfg (g_population_size cfg) s = Ok (pop, s') -> s' = s /\ length pop = g_population_size cfg) /\
  (forall m pop s sel s', g_select cfg m pop s = Ok (sel, s') -> s' = s /\ length sel = 3) /\
  (forall m pool s ch s', length pool = 3 -> g_crossover cfg m pool s = Ok (ch, s') -> s' = s /\ length ch = 3) /\
  (forall m c s c' s', g_mutate cfg m c s = Ok (c', s') -> s' = s) /\
  (forall m pop ch s pop' s', g_replace cfg m pop ch s = Ok (pop', s') -> s' = s /\ Forall (fun x => x ∈ pop \/ x ∈ ch) pop').
Proof.
  intros cached children limit max cfg. subst cfg. cbn -[firstn]. split_and!.
  - intros s x v x' s' [= <- <- <-]. cbn. lia.
  - intros s x v x' s' [= <- <- <-]. reflexivity.
  - intros s x v x' s' -> [= <- <- <-]. reflexivity.
  - intros s pop s' [= <- <-]. auto.
  - intros m pop s sel s' [= <- <-]. auto.
  - intros m pool s ch s' L [= <- <-]. split; [reflexivity|]. rewrite map_length. exact L.
  - intros m c s c' s' [= <- <-]. reflexivity.
  - intros m pop ch s pop' s' [= <- <-]. split; [reflexivity|]. destruct ch as [|c ch], pop as [|p pop]; cbn; repeat (apply List.Forall_cons || apply List.Forall_nil); first [right; left|left; left].
Qed.
