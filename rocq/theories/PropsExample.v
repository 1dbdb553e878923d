(** * Property theorems: what the genetic example programs return (C114) *)
From Verif Require Import GaSpec GaAssembleSpec ExampleModel ExampleSpec PopulationSpec TfSpec F64R ExampleProofs.
Open Scope nat_scope.

(** ** C114 *)
(** examples/ga_bsc.rs always returns; the "Bitstring with most ones" it prints has the fewest ones of all bit strings of the run. *)
Theorem C114_ga_bsc :
  forall ck s, exists evs b m s', ga_bsc_main ck s = Ok (evs, b, m, s') /\ length (chromosome b) = 10 /\
  (exists e q, e ∈ evs /\ shown e = Some q /\ b ∈ q) /\
  all_shown evs (fun x => length (chromosome x) = 10 /\ ones (chromosome b) <= ones (chromosome x)).
Proof. exact ga_bsc_result. Qed.
Print Assumptions C114_ga_bsc.

(** examples/ga_rvc.rs always returns a point of [0, 1)^5, one with the smallest value of 1000 exp(-rastrigin). *)
Theorem C114_ga_rvc :
  forall L, decent_libm L -> forall debug ck s, exists evs b m s', ga_rvc_main L debug ck s = Ok (evs, b, m, s') /\
  unit_cube 5 (chromosome b) /\ (exists e q, e ∈ evs /\ shown e = Some q /\ b ∈ q) /\
  all_shown evs (fun x => unit_cube 5 (chromosome x) /\ fle (own_fitness L (chromosome b)) (own_fitness L (chromosome x)) = true).
Proof. exact ga_rvc_result. Qed.
Print Assumptions C114_ga_rvc.

(** examples/ga_ackley_test_function.rs always returns; the "4D ackley function zero approximation" it prints is a point where
    Ackley's function is largest among all points of the run. *)
Theorem C114_ga_ackley :
  forall L, decent_libm L -> forall debug ck s, exists evs b m s' v, ga_ackley_main L debug ck s = Ok (evs, b, m, s') /\
  unit_cube 4 (chromosome b) /\ (exists e q, e ∈ evs /\ shown e = Some q /\ b ∈ q) /\
  @ackley f64 (num_f64 L) (chromosome b) = Ok v /\
  all_shown evs (fun x => exists w, unit_cube 4 (chromosome x) /\ @ackley f64 (num_f64 L) (chromosome x) = Ok w /\ fle w v = true).
Proof. exact ga_ackley_result. Qed.
Print Assumptions C114_ga_ackley.

(** examples/ga.rs always returns an individual of its initial population, whatever its 50000 generations do: on_new_best is
    called once only, all points stay in the box, and none has a smaller fitness. *)
Theorem C114_ga :
  forall L, decent_libm L -> forall (eq_dec : EqDecision f64) debug ck s, exists evs b m s', ga_main L debug ck s = Ok (evs, b, m, s') /\
  omap new_best evs = [b] /\ (exists q, head (populations evs) = Some q /\ length q = 100 /\ b ∈ q) /\
  (forall e x, e ∈ evs -> mentions e x -> in_space (replicate 3 (fneg (f_5_12 L), f_5_12 L)) (chromosome x)) /\
  all_shown evs (fun x => fle (rastrigin_fitness L (chromosome b)) (rastrigin_fitness L (chromosome x)) = true).
Proof. exact @ga_result. Qed.
Print Assumptions C114_ga.

(** A libm which meets the contract, and what the theorems come to for it: exp by steps. *)
Definition step_exp (x : f64) : f64 := if fle x (fneg (f_of_nat 701)) then f0 else if fle x f1 then f1 else f_of_nat 4.
Definition plain_libm : libm := Libm step_exp (fun x => x) (fun x _ => x) (fun _ _ => fhalf) (fun x => x) (fun _ => f1) (fun x => x) (fun x => x).
Definition ticks : clock := Clock 0 (fun g => N.of_nat g * 4000000000)%N (fun g => N.of_nat g * 4000000000)%N 0.
Definition some_draws : rng := rng_of [1; 7; 3; 9; 2; 8; 5; 0; 4; 6; 11; 13; 2; 5; 1; 3; 4503599627370495; 2; 1; 7; 3; 2]%N.
Example C114_nonvacuous :
  decent_libm plain_libm /\
  exists evs b m s', run (preset_run_config (GAParams 6 4 (10 * 10 ^ 9)) wordmax_fitness f_0_2 6 (flip_bit f_0_05) (generate_bit_strings 10))
    ticks (Metrics 0 6 None) (some_draws, some_draws) = Ok (evs, b, m, s') /\ 1 < length (populations evs).
Proof.
  split.
  - split; cbn [l_cos l_exp l_powf plain_libm].
    + intros x _. repeat split.
    + intros x _ _. unfold step_exp. destruct (fle x (fneg _)); [split; reflexivity|]. destruct (fle x f1); split; reflexivity.
    + intros x _ H. unfold step_exp. rewrite H. destruct (fle x (fneg _)); reflexivity.
    + intros x _ H. unfold step_exp. destruct (fle x (fneg (f_of_nat 701))) eqn:E; [|destruct (fle x f1); reflexivity].
      pose proof (fle_trans _ _ _ H E) as F. vm_compute in F. discriminate F.
    + intros x y _ _ _ _ _. repeat split.
  - eexists _, _, _, _. split; [vm_compute; reflexivity|]. vm_compute. lia.
Qed.
