(** * Property theorems: the range of the pheromone and the failure of runs (C127, C128) *)
From Verif Require Import AcoModel AcoSpec AcoAntProofs SusProofs AcoBoundProofs AcoAcsBoundProofs AcoRunProofs F64R.
From Coq Require Import Reals Lra Lia.
From Flocq Require Import Core.Core.
Open Scope R_scope.

(** ** C127 *)
(** One application of an update rule: fitness of the tours up to F, pheromone up to B, and the evaporation outweighs the deposits of up to
    [ants] tours. *)
Theorem C127_update_keeps_range :
  forall (B F : R) (ants n : nat) u m sols best, bpow radix2 (-900) <= B <= bpow radix2 900 -> 0 <= F -> (3 <= n)%nat ->
  sound_rule u ants F B -> matrix_range B n m -> (length sols <= ants)%nat ->
  Forall (fun s => tour n (sol_path s) /\ in_range F (sol_fitness s)) sols -> tour_or_none n best -> in_range F (sol_fitness best) ->
  exists m' best', apply_rule u m sols best = Ok (m', best') /\ matrix_range B n m' /\ tour_or_none n best' /\ in_range F (sol_fitness best').
Proof.
  intros B F ants n u m sols best HB HF Hn Hu Hm Hl Hs Hb Hf. apply Forall_and in Hs as [H1 H2]. exact (rule_range B F ants HB HF u n m sols best Hn Hu Hm Hl H1 H2 Hb Hf).
Qed.
Print Assumptions C127_update_keeps_range.

(** The fitness of a tour over distances from L to 2^900. *)
Theorem C127_tour_fitness :
  forall w n L q c, (2 <= n)%nat -> (Z.of_nat n <= 2 ^ 50)%Z -> bpow radix2 (-900) <= L <= bpow radix2 900 ->
  (forall i j, (i < n)%nat -> (j < n)%nat -> i <> j -> in_range (bpow radix2 900) (entry w i j) /\ L <= f2r (entry w i j)) ->
  tour n q -> path_cost w q = Ok c -> in_range (4 / (INR n * L)) (fdiv f1 c).
Proof. exact fitness_range. Qed.
Print Assumptions C127_tour_fitness.

(** A run of the ant system with [k] iterations from a pheromone in the range. *)
Theorem C127_run :
  forall (B F : R) (n : nat) op w u k fuel i p ants best,
  bpow radix2 (-900) <= B <= bpow radix2 900 -> 0 <= F -> (3 <= n)%nat -> (Z.of_nat n <= 2 ^ 53)%Z ->
  (forall p, matrix_range B n p -> exists g, op p = Ok g /\ moderate g n) ->
  nrows w = n /\ ncols w = n -> (forall q c, tour n q -> path_cost w q = Ok c -> in_range F (fdiv f1 c)) ->
  sound_rule u (length ants) F B -> matrix_range B n p -> Forall (usable n) ants -> tour_or_none n best -> in_range F (sol_fitness best) -> (k < fuel)%nat ->
  let program := tsp (ant_system op) w u ic_init ic_check in
  (exists l p' s', aco_run program fuel p (ants, best) (i, k) = Ok (protocol l, p', s') /\ length l = k /\
     iterations program p (ants, best) l p' s' /\ Forall (fun x => matrix_range B n x.2) l) \/
  (aco_run program fuel p (ants, best) (i, k) = Panic /\
   exists l p1 s1 ants' p', (length l < k)%nat /\ iterations program p (ants, best) l p1 s1 /\ matrix_range B n p1 /\ Forall (fun x => matrix_range B n x.2) l /\
     ant_system op s1.1 p1 = Ok ([], ants', p')).
Proof.
  intros B F n op w u k fuel i p ants best HB HF Hn Hm Hop Hw Hfit Hu Hp Hus Ht Hb Hk program.
  apply (run_range B F n (length ants) (ant_system op) w u HB HF Hn (ant_system_range B n op ltac:(lia) Hm Hop) Hw Hfit Hu k fuel i p (ants, best) Hk). unfold running. cbn [fst snd]. auto.
Qed.
Print Assumptions C127_run.

Definition level (n : nat) : matrix := mrepeat n n f1.
Definition f_half : f64 := S754_finite false 4503599627370496 (-53).
Lemma f_half_R : f2r f_half = / 2.
Proof.
  unfold f2r, f_half, BinarySingleNaN.SF2R, F2R. cbn [Fnum Fexp cond_Zopp]. change (IZR (Z.pos 4503599627370496)) with (bpow radix2 52). rewrite <- bpow_plus. reflexivity.
Qed.
Lemma level_range n B : 1 <= B -> matrix_range B n (level n).
Proof.
  intros H. split; [reflexivity|]. split; [reflexivity|]. intros i j Hi Hj. split; [split; [vm_compute; reflexivity|split; reflexivity]|]. change (f2r f1 <= B). rewrite f2r_f1. exact H.
Qed.
Example C127_nonvacuous :
  sound_rule (ElitistAntSystemPU f_half) 2 (4 / (INR 3 * 1)) 16 /\ matrix_range 16 3 (level 3) /\
  (forall p, matrix_range 16 3 p -> exists g, Ok p = Ok g /\ moderate g 3) /\
  (forall i j, (i < 3)%nat -> (j < 3)%nat -> i <> j -> in_range (bpow radix2 900) (entry (level 3) i j) /\ 1 <= f2r (entry (level 3) i j)) /\
  (exists m' b', apply_rule (ElitistAntSystemPU f_half) (level 3) [Sol [0; 1; 2]%nat f_half] sol_default = Ok (m', b') /\ entry m' 0 1 = S754_finite false 6755399441055744 (-52)) /\
  exists l s', aco_run (tsp (ant_system (fun p => Ok p)) (level 3) (ElitistAntSystemPU f_half) ic_init ic_check) 3 (level 3)
     ([canonical_ant 3 (rng_of [1]%N) (rng_of []); canonical_ant 3 (rng_of [2]%N) (rng_of [])], sol_default) (0, 2)%nat = Ok (l, s').
Proof.
  split; [|split; [|split; [|split; [|split]]]].
  - cbn [sound_rule]. unfold outweighs. rewrite f_half_R. split; [split; [vm_compute; reflexivity|split; reflexivity]|]. cbn [INR]. lra.
  - apply level_range. lra.
  - intros p (R & C & H). exists p. split; [reflexivity|]. split; [exact R|]. split; [exact C|]. intros i j Hi Hj. destruct (H i j Hi Hj) as [(V & Fi & P) L]. split; [exact V|]. split; [exact P|].
    assert (fvalid f_2_900) as V9 by (vm_compute; reflexivity). apply fle_R; auto. apply Rle_trans with 16; [exact L|].
    replace (f2r f_2_900) with (bpow radix2 900). { change 16 with (bpow radix2 4). apply bpow_le. lia. }
    unfold f2r, f_2_900. change 900%Z with (52 + 848)%Z. rewrite bpow_plus. unfold BinarySingleNaN.SF2R, F2R. cbn [Fnum Fexp cond_Zopp]. reflexivity.
  - intros i j Hi Hj _. change (entry (level 3) i j) with f1. rewrite f2r_f1. split; [|lra]. split; [split; [vm_compute; reflexivity|split; reflexivity]|]. rewrite f2r_f1. change 1 with (bpow radix2 0). apply bpow_le. lia.
  - eexists _, _. split; [vm_compute; reflexivity|]. vm_compute. reflexivity.
  - eexists _, _. vm_compute. reflexivity.
Qed.

(** ** C128 *)
(** A local update that leaves room for rounding: decay by a rate of [0, 1], or decay towards a stable value of at most half the bound by
    a rate of at most 1 - 2^-48. *)
Definition sound_local (B : R) (local : matrix -> list (list nat) -> outcome matrix) : Prop :=
  (exists rate, local = decay rate /\ nonneg_finite rate /\ f2r rate <= 1) \/
  (exists rate stable, local = decay_to rate stable /\ nonneg_finite rate /\ f2r rate <= 1 - bpow radix2 (-48) /\ in_range (B / 2) stable).
Lemma sound_local_range B n local : bpow radix2 (-900) <= B <= bpow radix2 900 -> sound_local B local -> forall p paths, matrix_range B n p ->
  Forall (fun q => exists q' s r, q = q' ++ [s; r] /\ (s < n)%nat /\ (r < n)%nat) paths -> exists p', local p paths = Ok p' /\ matrix_range B n p'.
Proof.
  intros HB [(rate & -> & Nr & Hr)|(rate & stable & -> & Nr & Hr & Hs)] p paths Hp Hq; [apply decay_range; auto|apply decay_to_range; auto].
Qed.
Theorem C128_colony_keeps_range :
  forall (B : R) (n : nat) op local ants p, bpow radix2 (-900) <= B <= bpow radix2 900 -> (2 <= n)%nat -> (Z.of_nat n <= 2 ^ 53)%Z ->
  (forall p, matrix_range B n p -> exists g, op p = Ok g /\ moderate g n) -> sound_local B local -> Forall (usable n) ants -> matrix_range B n p ->
  exists paths ants' p', ant_colony_system op local ants p = Ok (paths, ants', p') /\ matrix_range B n p' /\ Forall (tour n) paths /\
    Forall (usable n) ants' /\ length ants' = length ants /\ (length paths <= length ants)%nat.
Proof. intros B n op local ants p HB Hn Hm Hop Hl. exact (ant_colony_system_range B n op local Hn Hm Hop (sound_local_range B n local HB Hl) ants p). Qed.
Print Assumptions C128_colony_keeps_range.
Theorem C128_run :
  forall (B F : R) (n : nat) op local w u k fuel i p ants best,
  bpow radix2 (-900) <= B <= bpow radix2 900 -> 0 <= F -> (3 <= n)%nat -> (Z.of_nat n <= 2 ^ 53)%Z ->
  (forall p, matrix_range B n p -> exists g, op p = Ok g /\ moderate g n) -> sound_local B local ->
  nrows w = n /\ ncols w = n -> (forall q c, tour n q -> path_cost w q = Ok c -> in_range F (fdiv f1 c)) ->
  sound_rule u (length ants) F B -> matrix_range B n p -> Forall (usable n) ants -> tour_or_none n best -> in_range F (sol_fitness best) -> (k < fuel)%nat ->
  let program := tsp (ant_colony_system op local) w u ic_init ic_check in
  (exists l p' s', aco_run program fuel p (ants, best) (i, k) = Ok (protocol l, p', s') /\ length l = k /\
     iterations program p (ants, best) l p' s' /\ Forall (fun x => matrix_range B n x.2) l) \/
  (aco_run program fuel p (ants, best) (i, k) = Panic /\
   exists l p1 s1 ants' p', (length l < k)%nat /\ iterations program p (ants, best) l p1 s1 /\ matrix_range B n p1 /\ Forall (fun x => matrix_range B n x.2) l /\
     ant_colony_system op local s1.1 p1 = Ok ([], ants', p')).
Proof.
  intros B F n op local w u k fuel i p ants best HB HF Hn Hm Hop Hl Hw Hfit Hu Hp Hus Ht Hb Hk program.
  apply (run_range B F n (length ants) (ant_colony_system op local) w u HB HF Hn (ant_colony_system_range B n op local ltac:(lia) Hm Hop (sound_local_range B n local HB Hl)) Hw Hfit Hu k fuel i p (ants, best) Hk).
  unfold running. cbn [fst snd]. auto.
Qed.
Print Assumptions C128_run.
Example C128_nonvacuous :
  sound_local 16 (decay_to f_half f1) /\ sound_local 16 (decay f_half) /\
  exists l s', aco_run (tsp (ant_colony_system (fun p => Ok p) (decay_to f_half f1)) (level 3) (AntColonySystemPU OverallBest f_half) ic_init ic_check) 2 (level 3)
     ([canonical_ant 3 (rng_of [1]%N) (rng_of []); canonical_ant 3 (rng_of [2]%N) (rng_of [])], sol_default) (0, 1)%nat = Ok (l, s').
Proof.
  assert (nonneg_finite f_half) as N by (split; [vm_compute; reflexivity|split; reflexivity]).
  split; [|split].
  - right. exists f_half, f1. split; [reflexivity|]. split; [exact N|]. rewrite f_half_R. split.
    + assert (bpow radix2 (-48) <= bpow radix2 (-1)) as H by (apply bpow_le; lia). change (bpow radix2 (-1)) with (/ 2) in H. lra.
    + split; [split; [vm_compute; reflexivity|split; reflexivity]|]. rewrite f2r_f1. lra.
  - left. exists f_half. split; [reflexivity|]. split; [exact N|]. rewrite f_half_R. lra.
  - eexists _, _. vm_compute. reflexivity.
Qed.
