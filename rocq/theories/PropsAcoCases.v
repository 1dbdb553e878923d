(** * Property theorems: what grading, solutions and local updates accept; Ant Colony System runs that never fail (C135, C136) *)
From Verif Require Import AcoPheromoneProofs AcoGradeProofs AcoRunProofs AcoTspProofs PropsAcoRun F64 AcoModel AcoSpec AcoTrailSpec AcoCasesSpec AcoCasesProofs.
Open Scope nat_scope.

(** ** C135 *)
(** Grading: every move of every path, in its direction, has to be inside the weights; otherwise it panics. *)
Theorem C135_grading :
  forall w sols,
  possible_or_panic (Forall (moves_inside w) sols) (path_length_inverse w sols)
    (fun sols' => map sol_path sols' = map sol_path sols /\
       Forall (fun s => sol_fitness s = fdiv f1 (float_sum (map (fun e => entry w e.1 e.2) (windows (sol_path s))))) sols').
Proof. exact grading_cases. Qed.
Print Assumptions C135_grading.
(** Making a solution from a path: its places must be less than its length, so a path through some of the places only is
    refused as soon as it names a place of higher number. *)
Theorem C135_from_path :
  forall p, possible_or_panic (Forall (fun v => v < length p) p) (from_path p) (fun s => s = Sol p f0).
Proof. exact from_path_cases. Qed.
Print Assumptions C135_from_path.
(** Local updates: every partial path must have a last edge inside the matrix. *)
Theorem C135_decay :
  forall rate m paths, possible_or_panic (Forall (last_edge_inside m) paths) (decay rate m paths) (fun m' => nrows m' = nrows m /\ ncols m' = ncols m).
Proof. exact decay_cases. Qed.
Print Assumptions C135_decay.
Theorem C135_decay_to :
  forall rate stable m paths,
  possible_or_panic (Forall (last_edge_inside m) paths) (decay_to rate stable m paths) (fun m' => nrows m' = nrows m /\ ncols m' = ncols m).
Proof. exact decay_to_cases. Qed.
Print Assumptions C135_decay_to.
Example C135_nonvacuous :
  Forall (moves_inside (mrepeat 2 3 f1)) [Sol [0; 0] f0] /\ path_length_inverse (mrepeat 2 3 f1) [Sol [0; 0] f0; Sol [1; 2] f0] = Panic /\
  (exists s, from_path [1; 0; 2] = Ok s) /\ from_path [1; 3] = Panic /\
  last_edge_inside (mrepeat 2 3 f1) [7; 1; 2] /\ decay fhalf (mrepeat 2 3 f1) [[7; 1; 2]; [1]] = Panic.
Proof.
  split; [|split; [vm_compute; reflexivity|split; [eexists; vm_compute; reflexivity|split; [vm_compute; reflexivity|split; [|vm_compute; reflexivity]]]]].
  - apply Forall_cons. split; [|constructor]. apply inside_windows. cbn. repeat (apply Forall_cons; split); try constructor; cbn; lia.
  - exists [7], 1, 2. split; [reflexivity|]. split; cbn; lia.
Qed.

(** ** C136 *)
(** With whole-number goodness an Ant Colony System run with Decay or DecayTo (any constants), at least two places and at
    least one ant never fails, and performs all k iterations. *)
Theorem C136_run_never_fails :
  forall op local n w u k fuel p s i, 2 <= n -> ((exists rate, local = decay rate) \/ exists rate stable, local = decay_to rate stable) ->
  (forall p, nrows p = n -> ncols p = n -> exists g, op p = Ok g /\ whole g n) -> nrows w = n -> ncols w = n ->
  nrows p = n -> ncols p = n -> Forall (usable n) s.1 -> s.1 <> [] -> tour_or_none n s.2 -> k < fuel ->
  exists l p' s', aco_run (tsp (ant_colony_system op local) w u ic_init ic_check) fuel p s (i, k) = Ok (protocol l, p', s') /\ length l = k.
Proof.
  intros op local n w u k fuel p s i Hn Hl Hop Hwr Hwc Hr Hc Hu Hne Hb Hk.
  assert (Hs : sound_dims n local) by (destruct Hl as [[rate ->]|(rate & stable & ->)]; [apply decay_sound|apply decay_to_sound]).
  destruct (limited_total (fun p s => '(paths, ants, p) ← ant_colony_system op local (fst s) p; Ok (paths, p, (ants, snd s)))
    (fun sols s => sols ← path_length_inverse w sols; Ok (sols, s)) (fun p sols s => '(p, best) ← apply_rule u p sols (snd s); Ok (p, (fst s, best)))
    (fun p s => nrows p = n /\ ncols p = n /\ Forall (usable n) s.1 /\ s.1 <> [] /\ tour_or_none n s.2) k fuel p s i Hk) as (evs & p' & s' & H).
  - auto.
  - intros q s0 (A & B & C & D & E).
    destruct (acs_iterate_ok (T := nat * nat) op local n w u ic_init ic_check q s0 Hn Hs Hop Hwr Hwc A B C D E) as (evs & q' & s' & X & Y). exists evs, q', s'. split; [exact X|exact Y].
  - destruct (limited_run _ _ _ _ _ _ _ _ _ _ _ H) as (l & HL & -> & _). exists l, p', s'. split; [exact H|exact HL].
Qed.
Print Assumptions C136_run_never_fails.
(** With one place only (or none) the colony has no path to return, whatever the goodness, so no iteration succeeds: where
    the Ant System makes the tour of one place, the Ant Colony System panics. *)
Theorem C136_one_place_fails :
  forall T op local w u (init : T -> T) check p s evs p' s', nrows p <= 1 ->
  aco_iterate (tsp (ant_colony_system op local) w u init check) p s <> Ok (evs, p', s').
Proof.
  intros T op local w u init check p s evs p' s' R H. unfold aco_iterate in H. cbn [tsp colony grader update] in H.
  apply obind_Ok in H as ([[paths p1] s1] & H1 & H). apply obind_Ok in H1 as ([[paths0 ants] p0] & H0 & H1). injection H1 as <- <- <-.
  rewrite (acs_one_place _ _ _ _ _ _ _ R H0) in H. cbn in H. discriminate.
Qed.
Print Assumptions C136_one_place_fails.
Definition succeeds {A} (x : outcome A) : bool := match x with Ok _ => true | _ => false end.
Example C136_nonvacuous :
  succeeds (aco_run (tsp (ant_colony_system (fun _ => Ok (ones 4)) (decay fhalf)) (ones 4) (AntSystemPU fhalf) ic_init ic_check) 3 (ones 4) (two_ants, sol_default) (0, 2)) = true /\
  aco_run (tsp (ant_colony_system (fun _ => Ok (ones 1)) (decay fhalf)) (ones 1) (AntSystemPU fhalf) ic_init ic_check) 3 (ones 1)
    ([canonical_ant 1 (rng_of []) (rng_of [])], sol_default) (0, 2) = Panic /\
  succeeds (aco_run (tsp (ant_system (fun _ => Ok (ones 1))) (ones 1) (AntSystemPU fhalf) ic_init ic_check) 3 (ones 1)
    ([canonical_ant 1 (rng_of []) (rng_of [])], sol_default) (0, 2)) = true.
Proof. split; [vm_compute; reflexivity|]. split; vm_compute; reflexivity. Qed.
