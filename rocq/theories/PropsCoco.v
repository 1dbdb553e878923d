(** * Property theorems: the COCO experiment (C102, C103) *)
From Verif Require Import CocoProofs BoltzmannProofs.
From Coq Require Import Reals Lra.
Open Scope nat_scope.

(** Two problems for the examples: the square of the first coordinate on [-5, 5]^2, and a constant on [0, 1] x [2, 3]. *)
Definition f5 : f64 := f_of_nat 5.
Definition square (x : list f64) : f64 := match x with a :: _ => if is_nan (fmul a a) then f0 else fmul a a | [] => f0 end.
Definition square_problem : problem := Problem 2 0 1 0 [(fneg f5, f5); (fneg f5, f5)] [f0; f0] square (fneg f5).
Definition strip_problem : problem := Problem 2 0 1 0 [(f0, f_of_nat 1); (f_of_nat 2, f_of_nat 3)] [f0; f_of_nat 2] (fun _ => f1) f0.
Definition late : clock := Clock 0 (fun _ => 300000000%N) (fun _ => 300000000%N) 300000000.
Definition zeros : rng := fun _ => 0%N.
Definition zero_world : world := World zeros zeros (fun _ => late) 0.
Lemma square_bbob : bbob_problem square_problem.
Proof.
  split; try reflexivity; [cbn; lia|]. intros [|a x]; [reflexivity|]. change (p_objective square_problem (a :: x)) with (if is_nan (fmul a a) then f0 else fmul a a).
  destruct (is_nan (fmul a a)) eqn:E; [reflexivity|exact E].
Qed.
Lemma strip_bbob : bbob_problem strip_problem.
Proof. split; try reflexivity. cbn. lia. Qed.

(** ** C102 *)
(** The random search is called once for every problem and evaluates the initial solution and ten points per dimension, one
    more than the budget allows; it never stops at the target.  Every point drawn has the problem's dimension and lies in the
    region of interest when the ranges have exact widths. *)
Theorem C102_random_search_experiment : forall round suite w, Forall bbob_problem suite ->
  exists states w', run_experiment (random_search round) suite w = Ok (states, w') /\
  w_calls w' = w_calls w + length suite /\
  Forall2 (fun p st => constraint_calls st = 0 /\ evaluations st = 10 * p_dimension p + 1 /\
    exists points, evaluated_points st = points ++ [p_initial p] /\ Forall (fun x => length x = p_dimension p) points /\
      (Forall exact_width (p_ranges p) -> Forall (in_ranges (p_ranges p)) points)) suite states.
Proof. exact @random_experiment. Qed.
Print Assumptions C102_random_search_experiment.

(** An experiment with either search panics at the first problem with constraints, several objectives or integer variables. *)
Theorem C102_unsupported_problem_panics : forall (search : search_fn) round debug q suite rest w,
  search = random_search round \/ search = ecrs_ga_search debug ->
  0 < p_constraints q \/ 1 < p_objectives q \/ 0 < p_integers q ->
  Forall bbob_problem suite -> run_experiment search (suite ++ q :: rest) w = Panic.
Proof. exact @unsupported_panics. Qed.
Print Assumptions C102_unsupported_problem_panics.

Lemma square_exact : exact_width (fneg f5, f5).
Proof.
  assert (E5 : f2r f5 = 5%R) by (unfold f5; destruct (f_of_nat_exact 5) as (_ & _ & ->); [lia|cbn; lra]).
  split; [repeat split; reflexivity|]. cbn [fst snd].
  destruct (fneg_finite f5) as [_ ->]; [split; reflexivity|]. rewrite E5.
  replace (fsub f5 (fneg f5)) with (f_of_nat 10) by reflexivity. destruct (f_of_nat_exact 10) as (_ & _ & ->); [lia|cbn; lra].
Qed.
Example C102_nonvacuous : Forall bbob_problem [square_problem; strip_problem] /\ Forall exact_width (p_ranges square_problem) /\
  exists st w, run_experiment (random_search (fun x => x)) [square_problem] zero_world = Ok ([st], w) /\ evaluations st = 21 /\ w_calls w = 1.
Proof.
  split; [repeat constructor; [apply square_bbob|..]; auto; apply strip_bbob|]. split; [repeat constructor; apply square_exact|].
  destruct (C102_random_search_experiment (fun x => x) [square_problem] zero_world) as (sts & w & E & W & F); [repeat constructor; try apply square_bbob; auto; cbn; lia|].
  inversion F as [|? st ? sts' (_ & H & _) F']; subst. inversion F'; subst. exists st, w. auto.
Qed.

(** ** C103 *)
(** The genetic experiment runs to the end on the problems of the bbob suite.  Its runs ignore the budget they are given. *)
Theorem C103_genetic_experiment : forall debug suite w, Forall bbob_problem suite ->
  exists states w', run_experiment (ecrs_ga_search debug) suite w = Ok (states, w') /\
  Forall2 (fun p st => exists ks, searched p st ks) suite states.
Proof. exact @ga_experiment. Qed.
Print Assumptions C103_genetic_experiment.

(** Up to dimension 40 there is one run for a problem; it takes at least 400 evaluations, the whole budget of dimension 40. *)
Theorem C103_one_run_up_to_dimension_40 : forall debug p w, bbob_problem p -> p_dimension p <= 40 ->
  exists st w' k, one_problem (ecrs_ga_search debug) p w = Ok (st, w') /\ w_calls w' = w_calls w + 1 /\
  evaluations st = 100 + 300 * k /\ 400 <= evaluations st /\ k <= N.to_nat 10000.
Proof. exact @ga_one_run. Qed.
Print Assumptions C103_one_run_up_to_dimension_40.

(** When all ranges of interest are the same, as in the bbob suite, only points of the region of interest are evaluated. *)
Theorem C103_points_in_region : forall debug p w c st w', bbob_problem p -> Forall (eq c) (p_ranges p) -> proper_range c ->
  one_problem (ecrs_ga_search debug) p w = Ok (st, w') -> Forall (in_ranges (p_ranges p)) (evaluated_points st).
Proof. exact @ga_in_region. Qed.
Print Assumptions C103_points_in_region.

(** Otherwise a mutation can move a coordinate into another coordinate's place, out of the region of interest. *)
Theorem C103_region_left_when_ranges_differ : exists p w st w' x, bbob_problem p /\ Forall proper_range (p_ranges p) /\
  one_problem (ecrs_ga_search true) p w = Ok (st, w') /\ x ∈ evaluated_points st /\ ~ in_ranges (p_ranges p) x.
Proof.
  destruct (ga_searched true strip_problem zero_world strip_bbob) as (st & w' & ks & E & _ & _).
  assert (V : match one_problem (ecrs_ga_search true) strip_problem zero_world with Ok (st, _) => existsb (fun x => match x with a :: _ => fle (f_of_nat 2) a | [] => false end) (evaluated_points st) | _ => false end = true) by (vm_compute; reflexivity).
  rewrite E in V. apply existsb_exists in V as (x & Hx & V). exists strip_problem, zero_world, st, w', x. split; [apply strip_bbob|].
  split; [repeat constructor|]. split; [exact E|]. split; [apply elem_of_list_In, Hx|]. intros HI. inversion HI as [|? a ? ? [_ H] _]; subst.
  cbn [snd] in H. pose proof (fle_trans _ _ _ V H) as T. vm_compute in T. discriminate.
Qed.
Print Assumptions C103_region_left_when_ranges_differ.

(** Both experiments of the program *)
Theorem C103_program_ends : forall debug round suite w, Forall bbob_problem suite -> exists a b w', coco_main debug round suite w = Ok (a, b, w') /\
  Forall2 (fun p st => 400 <= evaluations st) suite a /\ Forall2 (fun p st => evaluations st = 10 * p_dimension p + 1) suite b.
Proof. exact @main_ok. Qed.
Print Assumptions C103_program_ends.

Example C103_nonvacuous : bbob_problem square_problem /\ Forall (eq (fneg f5, f5)) (p_ranges square_problem) /\ proper_range (fneg f5, f5) /\
  match one_problem (ecrs_ga_search true) square_problem zero_world with Ok (st, w) => evaluations st = 400 /\ w_calls w = 1 | _ => False end.
Proof. split; [apply square_bbob|]. split; [repeat constructor|]. split; [apply square_exact|]. vm_compute. split; reflexivity. Qed.
