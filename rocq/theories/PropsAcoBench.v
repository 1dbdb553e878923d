(** * Property theorems: the ant colony benchmarks (C141) *)
From Verif Require Import F64R AcoBenchModel AcoSpec AcoBoundSpec AcoBenchProofs AcoUtilProofs.
From Flocq Require Import Core.
From Coq Require Import Reals Lra Lia.
Open Scope nat_scope.

(** [w] holds the Euclidean distances of the places, computed in floating point. *)
Definition distances (cities : list (f64 * f64)) (w : matrix) : Prop :=
  nrows w = length cities /\ ncols w = length cities /\ symmetric w /\
  forall i j a b, i <= j -> cities !! i = Some a -> cities !! j = Some b ->
    entry w i j = fsqrt (fadd (fmul (fsub a.1 b.1) (fsub a.1 b.1)) (fmul (fsub a.2 b.2) (fsub a.2 b.2))).
(** Twenty iterations were reported: each best is a tour of all [n] places, graded with one over the sum of the distances of its closed walk;
    each pheromone is symmetric and its entries are finite numbers of [0, 128]. *)
Definition full_report (n : nat) (cities : list (f64 * f64)) (evs : list (aco_event matrix)) : Prop :=
  exists l w, evs = protocol l /\ length l = 20 /\ distances cities w /\
  Forall (fun '(b, q) => tour n (sol_path b) /\ sol_fitness b = fdiv f1 (foldl fadd f0 (map (fun e => entry w e.1 e.2) (windows (sol_path b)))) /\
    matrix_range 128 n q /\ symmetric q) l.
(** After fewer than twenty such iterations the first ant does not get to the end. *)
Definition first_ant_stuck (n : nat) (cities : list (f64 * f64)) (powf : f64 -> f64 -> f64) (seeds : list (rng * rng)) : Prop :=
  exists w h l p1 s1 ants' p', tsp_cost cities = Ok w /\ create_heuristic w = Ok h /\ length l < 20 /\
    iterations (tsp (ant_system (canonical_goodness powf bench_two bench_two h)) w (AntSystemPU bench_rate) ic_init ic_check)
      (mrepeat n n f1) (map (fun s => canonical_ant n s.1 s.2) seeds, sol_default) l p1 s1 /\
    ant_system (canonical_goodness powf bench_two bench_two h) s1.1 p1 = Ok ([], ants', p') /\ a_stuck <$> head ants' = Some true.

(** ** C141 *)
(** For every power function that squares numbers of [0, 2^k] into [0, 4^k], and all generators of the five ants *)
Theorem C141_small :
  forall powf seeds, squares powf -> length seeds = 5 ->
  (exists evs p s, aco_bench_small powf seeds = Ok (evs, p, s) /\ full_report 5 bench_cities_5 evs) \/
  (aco_bench_small powf seeds = Panic /\ first_ant_stuck 5 bench_cities_5 powf seeds).
Proof.
  intros powf seeds Sq Hs. destruct (bench_run 5 bench_cities_5 powf seeds check_5 eq_refl ltac:(lia) ltac:(lia) Sq Hs) as (w & h & Ew & Eh & H).
  destruct (cost_spec bench_cities_5) as (m & Em & D). assert (m = w) by congruence. subst m.
  destruct H as [(l & p' & s' & E & L & HF)|(E & l & p1 & s1 & ants' & p' & H)]; [left|right].
  - exists (protocol l), p', s'. split; [exact E|]. exists l, w. repeat split; try assumption; apply D.
  - split; [exact E|]. exists w, h, l, p1, s1, ants', p'. tauto.
Qed.
Print Assumptions C141_small.
Theorem C141_medium :
  forall powf seeds, squares powf -> length seeds = 5 ->
  (exists evs p s, aco_bench_medium powf seeds = Ok (evs, p, s) /\ full_report 15 bench_cities_15 evs) \/
  (aco_bench_medium powf seeds = Panic /\ first_ant_stuck 15 bench_cities_15 powf seeds).
Proof.
  intros powf seeds Sq Hs. destruct (bench_run 15 bench_cities_15 powf seeds check_15 eq_refl ltac:(lia) ltac:(lia) Sq Hs) as (w & h & Ew & Eh & H).
  destruct (cost_spec bench_cities_15) as (m & Em & D). assert (m = w) by congruence. subst m.
  destruct H as [(l & p' & s' & E & L & HF)|(E & l & p1 & s1 & ants' & p' & H)]; [left|right].
  - exists (protocol l), p', s'. split; [exact E|]. exists l, w. repeat split; try assumption; apply D.
  - split; [exact E|]. exists w, h, l, p1, s1, ants', p'. tauto.
Qed.
Print Assumptions C141_medium.

(** Multiplication squares, and with it and some generators the small benchmark returns. *)
Lemma product_squares : squares (fun x _ => fmul x x).
Proof.
  intros k x Hk [(V & Fi & P) L]. assert (P0 : (0 <= f2r x)%R). { change 0%R with (f2r f0). apply fle_R; auto. vm_compute; reflexivity. }
  assert (B : (f2r x * f2r x <= bpow radix2 (2 * Z.of_nat k))%R).
  { replace (bpow radix2 (2 * Z.of_nat k)) with (2 ^ k * 2 ^ k)%R; [apply Rmult_le_compat; assumption|].
    rewrite pow_powerRZ. replace (2 * Z.of_nat k)%Z with (Z.of_nat k + Z.of_nat k)%Z by lia. rewrite bpow_plus, bpow_powerRZ. reflexivity. }
  assert (E4 : bpow radix2 (2 * Z.of_nat k) = (4 ^ k)%R). { replace 4%R with (2 ^ 2)%R by ring. rewrite <- pow_mult, pow_powerRZ, bpow_powerRZ. do 2 f_equal. lia. }
  assert (Bx : (0 <= f2r x * f2r x)%R) by (apply Rmult_le_pos; assumption).
  assert (R0 : (0 <= rnd (f2r x * f2r x))%R) by (rewrite <- rnd_0; apply rnd_le; exact Bx).
  assert (R1 : (rnd (f2r x * f2r x) <= bpow radix2 (2 * Z.of_nat k))%R).
  { replace (bpow radix2 (2 * Z.of_nat k)) with (rnd (bpow radix2 (2 * Z.of_nat k))); [apply rnd_le, B|]. apply round_generic; auto with typeclass_instances.
    apply generic_format_bpow. unfold SpecFloat.fexp, SpecFloat.emin. lia. }
  destruct (fmul_R x x V V Fi Fi) as [E F]. { rewrite Rabs_pos_eq by exact R0. eapply Rle_lt_trans; [exact R1|]. apply bpow_lt. lia. }
  pose proof (fvalid_mul x x V V) as V'. rewrite E4 in R1. split; [|rewrite E; exact R1]. split; [exact V'|]. split; [exact F|].
  apply fle_R; auto; [vm_compute; reflexivity|]. change (f2r f0) with 0%R. rewrite E. exact R0.
Qed.
Definition bench_seeds : list (rng * rng) :=
  map (fun k => (rng_of [k; 7 * k; 11 * k; k * k]%N, rng_of [])) [100000000; 3; 4503599627370495; 7700000000000000; 5123456789012345]%N.
Example C141_nonvacuous :
  squares (fun x _ => fmul x x) /\ length bench_seeds = 5 /\
  match aco_bench_small (fun x _ => fmul x x) bench_seeds with
  | Ok (evs, _, _) => length evs = 81 /\ exists b, evs !! 1 = Some (AcoCurrentBest b) /\ sol_path b <> [] /\ flt f0 (sol_fitness b) = true
  | _ => False
  end.
Proof.
  split; [exact product_squares|]. split; [reflexivity|]. vm_compute. split; [reflexivity|]. eexists. split; [reflexivity|]. split; [discriminate|reflexivity].
Qed.
(** The second alternative does occur: the first ant starts at place 0 and draws the sum of the goodness values, which rand 0.8 returns for the
    greatest bits (the bits below are that sum); rounding in the subtractions leaves a remainder.  The other four ants do not matter. *)
Theorem C141_small_can_panic :
  exists powf seed, squares powf /\ forall rest, aco_bench_small powf (seed :: rest) = Panic.
Proof.
  exists (fun x _ => fmul x x), (rng_of [0; 4570614460402742764]%N, rng_of []). split; [exact product_squares|]. intros rest. vm_compute. reflexivity.
Qed.
Print Assumptions C141_small_can_panic.
Theorem C141_medium_can_panic :
  exists powf seed, squares powf /\ forall rest, aco_bench_medium powf (seed :: rest) = Panic.
Proof.
  exists (fun x _ => fmul x x), (rng_of [0; 4575100419645293720]%N, rng_of []). split; [exact product_squares|]. intros rest. vm_compute. reflexivity.
Qed.
Print Assumptions C141_medium_can_panic.
