(** * Property theorems: the main loop and whole travelling salesman runs (C40, C60, C61) *)
From Verif Require Import AcoRunProofs AcoTspProofs AcoUtilProofs F64R.
Open Scope nat_scope.

(** ** C40 *)
(** What a terminating run does, for any colony, grader, update and termination condition. *)
Theorem C40_run_protocol :
  forall Ph S T (c : aco Ph S T) fuel p s t evs p' s', aco_run c fuel p s t = Ok (evs, p', s') ->
  exists l, evs = protocol l /\ iterations c p s l p' s' /\ stops_after c (tc_init c t) p l.
Proof. intros Ph S T c. exact (run_Ok c). Qed.
Print Assumptions C40_run_protocol.
(** IterationCond(k): exactly k iterations, whatever the iteration counter was before. *)
Theorem C40_iteration_limit :
  forall Ph S (col : Ph -> S -> outcome (list (list nat) * Ph * S)) gr up k fuel p s i evs p' s',
  let c := Aco Ph S (nat * nat) col gr up ic_init ic_check in
  aco_run c fuel p s (i, k) = Ok (evs, p', s') ->
  exists l, length l = k /\ evs = protocol l /\ iterations c p s l p' s'.
Proof. intros Ph S col gr up k fuel p s i evs p' s' c. exact (limited_run col gr up k fuel p s i evs p' s'). Qed.
Print Assumptions C40_iteration_limit.
(** ... and the loop cannot go on forever unless an iteration does. *)
Theorem C40_iteration_limit_terminates :
  forall Ph S (col : Ph -> S -> outcome (list (list nat) * Ph * S)) gr up k fuel p s i,
  let c := Aco Ph S (nat * nat) col gr up ic_init ic_check in
  k < fuel -> (forall q s0, aco_iterate c q s0 <> Diverge) -> aco_run c fuel p s (i, k) <> Diverge.
Proof.
  intros Ph S col gr up k fuel p s i c Hk Hi H. unfold aco_run in H. change (tc_init c (i, k)) with (0, k) in H.
  destruct (limited_loop_fuel col gr up k fuel 0 p s ltac:(lia) ltac:(lia)) as [X|(q & s0 & X)]; [|exact (Hi q s0 X)].
  apply X. change (limited col gr up) with c. destruct (aco_loop c fuel p s (0, k)) as [[[? ?] ?]| |]; [discriminate H|discriminate H|reflexivity].
Qed.
Print Assumptions C40_iteration_limit_terminates.
(** TimeCond: [ck j] is the time since the start of the run at the j-th check.  The run stops at the first check beyond the limit. *)
Theorem C40_time_limit :
  forall Ph S (col : Ph -> S -> outcome (list (list nat) * Ph * S)) gr up ck limit fuel p s i evs p' s',
  let c := Aco Ph S (nat * N) col gr up time_init (time_check ck) in
  aco_run c fuel p s (i, limit) = Ok (evs, p', s') ->
  exists l, evs = protocol l /\ iterations c p s l p' s' /\ (limit < ck (length l))%N /\ forall j, j < length l -> (ck j <= limit)%N.
Proof. intros Ph S col gr up ck limit fuel p s i evs p' s' c. exact (timed_run col gr up ck limit fuel p s i evs p' s'). Qed.
Print Assumptions C40_time_limit.
(** An iteration without any solution panics. *)
Theorem C40_no_solutions_panics :
  forall Ph S T (c : aco Ph S T) p s p1 s1 ungraded s2 paths,
  colony c p s = Ok (paths, p1, s1) -> omapM from_path paths = Ok ungraded -> grader c ungraded s1 = Ok ([], s2) -> aco_iterate c p s = Panic.
Proof. intros Ph S T c. exact (iterate_empty c). Qed.
Print Assumptions C40_no_solutions_panics.

(** The whole solver on four places with two ants, two iterations. *)
Definition ones (n : nat) : matrix := mrepeat n n f1.
Definition grid : matrix := Mat 4 4 (fun i j => f_of_nat (i + j)).
Definition two_ants : list ant := [canonical_ant 4 (rng_of [1]%N) (rng_of []); canonical_ant 4 (rng_of [2]%N) (rng_of [])].
Definition solver : aco matrix (list ant * solution) (nat * nat) := tsp (ant_system (fun _ => Ok (ones 4))) grid (AntSystemPU fhalf) ic_init ic_check.
Example C40_nonvacuous :
  match aco_run solver 3 (ones 4) (two_ants, sol_default) (7, 2) with
  | Ok (evs, _, _) => length evs = 9 /\ evs !! 1 = Some (AcoCurrentBest (Sol [2; 1; 0; 3] (fdiv f1 (f_of_nat 12))))
  | _ => False
  end.
Proof. vm_compute. split; reflexivity. Qed.

(** ** C60 *)
(** Every reported best of an Ant System run is a tour, graded by its closed length; the pheromone stays symmetric.
    [u]: any of the four update rules with any rates. *)
Theorem C60_ant_system_run :
  forall T op n w u (init : T -> T) check fuel p s t evs p' s', 0 < n ->
  nrows p = n -> symmetric p -> Forall (usable n) s.1 ->
  aco_run (tsp (ant_system op) w u init check) fuel p s t = Ok (evs, p', s') ->
  exists l, evs = protocol l /\ symmetric p' /\
    Forall (fun '(b, q) => tour n (sol_path b) /\
              sol_fitness b = fdiv f1 (float_sum (map (fun e => entry w e.1 e.2) (windows (sol_path b)))) /\ nrows q = n /\ symmetric q) l.
Proof.
  intros T op n w u init check fuel p s t evs p' s' Hn Hr Hs Hu H. apply run_Ok in H as (l & -> & Hi & _). exists l. split; [reflexivity|].
  destruct (tsp_iterations op n w u init check p s l p' s' Hn Hr Hs Hu Hi) as (HF & _ & HS & _). split; [exact HS|exact HF].
Qed.
Print Assumptions C60_ant_system_run.
(** The same for Ant Colony System runs (the local update may be anything keeping the dimensions), with goodness values above f64::MIN; symmetry is lost
    (C62). *)
Theorem C60_ant_colony_system_run :
  forall T op local n w u (init : T -> T) check fuel p s t evs p' s',
  (forall p g i j, op p = Ok g -> i < n -> j < n -> fvalid (entry g i j) /\ flt fmin (entry g i j) = true) ->
  (forall p paths p', local p paths = Ok p' -> nrows p' = nrows p) ->
  nrows p = n -> Forall (usable n) s.1 ->
  aco_run (tsp (ant_colony_system op local) w u init check) fuel p s t = Ok (evs, p', s') ->
  exists l, evs = protocol l /\
    Forall (fun '(b, q) => tour n (sol_path b) /\
              sol_fitness b = fdiv f1 (float_sum (map (fun e => entry w e.1 e.2) (windows (sol_path b)))) /\ nrows q = n) l.
Proof.
  intros T op local n w u init check fuel p s t evs p' s' Hop Hl Hr Hu H. apply run_Ok in H as (l & -> & Hi & _). exists l. split; [reflexivity|].
  exact (tsp_acs_iterations op local n w u init check p s l p' s' Hop Hl Hr Hu Hi).
Qed.
Print Assumptions C60_ant_colony_system_run.
Example C60_nonvacuous :
  symmetric (ones 4) /\ Forall (usable 4) two_ants /\ exists r, aco_run solver 3 (ones 4) (two_ants, sol_default) (0, 2) = Ok r.
Proof. split; [split; reflexivity|]. split; [repeat constructor|]. eexists. vm_compute. reflexivity. Qed.

(** ** C61 *)
(** With whole-number goodness an Ant System run over square matrices with at least one ant never fails and performs all k
    iterations. *)
Theorem C61_run_never_fails :
  forall op n w u k fuel p s i, 0 < n ->
  (forall p, nrows p = n -> ncols p = n -> exists g, op p = Ok g /\ whole g n) -> nrows w = n -> ncols w = n ->
  nrows p = n -> ncols p = n -> Forall (usable n) s.1 -> s.1 <> [] -> tour_or_none n s.2 -> k < fuel ->
  exists l p' s', aco_run (tsp (ant_system op) w u ic_init ic_check) fuel p s (i, k) = Ok (protocol l, p', s') /\ length l = k.
Proof.
  intros op n w u k fuel p s i Hn Hop Hwr Hwc Hr Hc Hu Hne Hb Hk.
  destruct (limited_total (fun p s => '(paths, ants, p) ← ant_system op (fst s) p; Ok (paths, p, (ants, snd s)))
    (fun sols s => sols ← path_length_inverse w sols; Ok (sols, s)) (fun p sols s => '(p, best) ← apply_rule u p sols (snd s); Ok (p, (fst s, best)))
    (fun p s => nrows p = n /\ ncols p = n /\ Forall (usable n) s.1 /\ s.1 <> [] /\ tour_or_none n s.2) k fuel p s i Hk) as (evs & p' & s' & H).
  - auto.
  - intros q s0 (A & B & C & D & E).
    destruct (tsp_iterate_ok (T := nat * nat) op n w u ic_init ic_check q s0 Hn Hop Hwr Hwc A B C D E) as (evs & q' & s' & X & Y). exists evs, q', s'. split; [exact X|exact Y].
  - destruct (limited_run _ _ _ _ _ _ _ _ _ _ _ H) as (l & HL & -> & _). exists l, p', s'. split; [exact H|exact HL].
Qed.
Print Assumptions C61_run_never_fails.
Example C61_nonvacuous :
  (forall p, nrows p = 4 -> ncols p = 4 -> exists g, Ok (A := matrix) (ones 4) = Ok g /\ whole g 4) /\ Forall (usable 4) two_ants /\ two_ants <> [] /\ tour_or_none 4 sol_default.
Proof.
  split; [|split; [repeat constructor|split; [discriminate|left; reflexivity]]]. intros p _ _. eexists. split; [reflexivity|]. split; [reflexivity|]. split; [reflexivity|].
  exists (fun _ _ => 1). split; [reflexivity|]. intros i _. vm_compute. discriminate.
Qed.
