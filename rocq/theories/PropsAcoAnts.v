(** * Property theorems: ants and colonies (C34-C36, C56-C59) *)
From Verif Require Import AcoAntProofs AcoChoiceProofs F64R.
Open Scope nat_scope.

(** ** C34 *)
(** [a] is a fresh or used ant of size n, [gs] the goodness matrices given to its steps (anything). *)
Theorem C34_visited_and_unvisited_partition :
  forall n a a0 gs a', usable n a -> ant_start (ant_clear a) = Ok a0 -> walk gs a0 = Ok a' ->
  usable n a' /\
  (a_stuck a' = false -> a_path a' ++ a_unvisited a' ≡ₚ seq 0 n) /\
  (a_stuck a' = true -> broken n (a_path a') /\ exists q x, a_path a' = q ++ [x] /\ q ++ a_unvisited a' ≡ₚ seq 0 n).
Proof. exact walk_partition. Qed.
Print Assumptions C34_visited_and_unvisited_partition.

Theorem C34_tour :
  forall n a a0 gs a', usable n a -> ant_start (ant_clear a) = Ok a0 -> walk gs a0 = Ok a' ->
  length gs = n - 1 -> 0 < n -> a_stuck a' = false -> tour n (a_path a').
Proof. exact walk_tour. Qed.
Print Assumptions C34_tour.

Theorem C34_stuck_ant_stays :
  forall g a l v a', a_stuck a = true -> ant_step g a = Ok (l, v, a') -> a' = a /\ v = l /\ last (a_path a) = Some l.
Proof. exact stuck_stays. Qed.
Print Assumptions C34_stuck_ant_stays.

(** Ants made by the constructors are usable. *)
Theorem C34_new_ants_usable :
  forall n r h, usable n (canonical_ant n r h) /\ forall rate a, exploiting_ant n rate r h = Ok a -> usable n a.
Proof.
  intros n r h. split; [repeat split; constructor|]. intros rate a H. apply obind_Ok in H as ([] & _ & H). injection H as <-. repeat split; constructor.
Qed.
Print Assumptions C34_new_ants_usable.

Definition ones (n : nat) : matrix := mrepeat n n f1.
Example C34_nonvacuous :
  exists a0 a', ant_start (ant_clear (canonical_ant 4 (rng_of [2]%N) (rng_of []))) = Ok a0 /\
    walk [ones 4; ones 4; ones 4] a0 = Ok a' /\ a_stuck a' = false /\ a_path a' = [2; 1; 0; 3].
Proof. eexists _, _. split; [vm_compute; reflexivity|]. split; [vm_compute; reflexivity|]. split; reflexivity. Qed.

(** ** C35 *)
Theorem C35_ant_system_tours :
  forall op n ants pheromone paths ants' p', 0 < n -> nrows pheromone = n -> Forall (usable n) ants ->
  ant_system op ants pheromone = Ok (paths, ants', p') ->
  p' = pheromone /\ Forall (tour n) paths /\ Forall (usable n) ants' /\ length ants' = length ants /\
  paths = a_path <$> take (length paths) ants' /\
  Forall (fun a => a_stuck a = false) (take (length paths) ants') /\
  (length paths = length ants \/ exists a, ants' !! length paths = Some a /\ a_stuck a = true /\
     drop (length paths + 1) ants' = drop (length paths + 1) ants).
Proof. exact ant_system_spec. Qed.
Print Assumptions C35_ant_system_tours.

Example C35_nonvacuous :
  exists ants' p', ant_system (fun p => Ok (ones 3)) [canonical_ant 3 (rng_of [1]%N) (rng_of []); canonical_ant 3 (rng_of [2]%N) (rng_of [])] (ones 3)
    = Ok ([[1; 0; 2]; [2; 0; 1]], ants', p').
Proof. eexists _, _. vm_compute. reflexivity. Qed.

(** ** C36 *)
(** With CanonicalAnts every returned path is a tour, whatever the goodness (binary64 numbers, infinities and NaN
    included); with ExploitingAnts this needs every goodness to be above f64::MIN. *)
Theorem C36_canonical_ants_tours :
  forall op local n ants pheromone paths ants' p', nrows pheromone = n -> Forall (usable n) ants ->
  Forall (fun a => a_rate a = None) ants ->
  (forall p g i j, op p = Ok g -> i < n -> j < n -> fvalid (entry g i j)) ->
  ant_colony_system op local ants pheromone = Ok (paths, ants', p') -> Forall (tour n) paths.
Proof. intros op local n ants ph ps as' p' Hr Hu Hc Hop H. eapply ant_colony_system_tours; eauto. Qed.
Print Assumptions C36_canonical_ants_tours.
Theorem C36_exploiting_ants_tours :
  forall op local n ants pheromone paths ants' p', nrows pheromone = n -> Forall (usable n) ants ->
  (forall p g i j, op p = Ok g -> i < n -> j < n -> fvalid (entry g i j) /\ flt fmin (entry g i j) = true) ->
  ant_colony_system op local ants pheromone = Ok (paths, ants', p') -> Forall (tour n) paths.
Proof. intros op local n ants ph ps as' p' Hr Hu Hop H. eapply ant_colony_system_tours; eauto. intros p g i j Hg Hi Hj. destruct (Hop p g i j Hg Hi Hj). auto. Qed.
Print Assumptions C36_exploiting_ants_tours.

Example C36_nonvacuous :
  exists ants' p', ant_colony_system (fun p => Ok (ones 3)) (decay f1)
    [canonical_ant 3 (rng_of [1]%N) (rng_of []); Ant [] [] 3 false (Some fhalf) (rng_of [2]%N) (rng_of [])] (ones 3)
    = Ok ([[1; 0; 2]; [2; 0; 1]], ants', p').
Proof. eexists _, _. vm_compute. reflexivity. Qed.

(** In general only: paths of n places, tours or broken in the last place; and none for a single place. *)
Theorem C36_ant_colony_system_paths :
  forall op local n ants pheromone paths ants' p', nrows pheromone = n -> Forall (usable n) ants ->
  ant_colony_system op local ants pheromone = Ok (paths, ants', p') ->
  Forall (usable n) ants' /\ length ants' = length ants /\
  Forall (fun q => length q = n /\ (tour n q \/ broken n q)) paths /\ (n = 1 -> paths = []).
Proof. exact ant_colony_system_spec. Qed.
Print Assumptions C36_ant_colony_system_paths.
(** The full claim is false: an ExploitingAnt meeting a NaN goodness in its last step. *)
Theorem C36_always_tours_refuted :
  exists op ants pheromone paths ants' p', nrows pheromone = 2 /\ Forall (usable 2) ants /\
    ant_colony_system op (fun p _ => Ok p) ants pheromone = Ok (paths, ants', p') /\ ~ Forall (tour 2) paths.
Proof.
  exists (fun _ => Ok (mrepeat 2 2 S754_nan)), [Ant [] [] 2 false (Some fhalf) (rng_of []) (rng_of [])], (ones 2).
  eexists _, _, _. split; [reflexivity|]. split; [repeat constructor|]. split; [vm_compute; reflexivity|].
  intros H. inversion_clear H as [|? ? Ht _]. unfold tour in Ht. assert (N : NoDup [0; 0]) by (rewrite Ht; apply NoDup_seq). inversion_clear N as [|? ? Hx _]. apply Hx. left.
Qed.
Print Assumptions C36_always_tours_refuted.

(** ** C56 *)
(** With whole-number goodness (row totals up to 2^53) every ant of either kind completes a tour. *)
Theorem C56_whole_goodness_never_stuck :
  forall n gs a, 0 < n -> usable n a -> Forall (fun g => whole g n) gs -> length gs = n - 1 ->
  exists a0 a', ant_start (ant_clear a) = Ok a0 /\ walk gs a0 = Ok a' /\ a_stuck a' = false /\ tour n (a_path a').
Proof. exact whole_tour. Qed.
Print Assumptions C56_whole_goodness_never_stuck.
Example C56_nonvacuous : usable 3 (canonical_ant 3 (rng_of []) (rng_of [])) /\ whole (Mat 3 3 (fun i j => f_of_nat (i + 2 * j))) 3.
Proof.
  split; [repeat split; constructor|]. split; [reflexivity|]. split; [reflexivity|]. exists (fun i j => i + 2 * j). split; [auto|].
  intros i Hi. do 3 (destruct i as [|i]; [vm_compute; discriminate|]). lia.
Qed.

(** In general rounding can leave an ant stuck although the goodness of every remaining place is positive; then
    AntSystemAB discards it and all ants after it, and here returns nothing at all. *)
Definition tiny : f64 := S754_finite false 4538783999459328 (-105). (* 2^-53 + 2^-60 *)
Definition steep : matrix := Mat 6 6 (fun i j => if j =? 1 then f1 else tiny).
Definition unlucky : rng := rng_of [0; 4607182418800017411]%N.     (* starts at 0, then draws 1 + 3 * 2^-52 *)
Theorem C56_never_stuck_refuted :
  (forall i j, i < 6 -> j < 6 -> nonneg_finite (entry steep i j) /\ flt f0 (entry steep i j) = true) /\
  (exists a0 a', ant_start (ant_clear (canonical_ant 6 unlucky (rng_of [0; 3; 2; 1]%N))) = Ok a0 /\
     walk [steep] a0 = Ok a' /\ a_stuck a' = true) /\
  forall others, exists ants', ant_system (fun _ => Ok steep) (canonical_ant 6 unlucky (rng_of [0; 3; 2; 1]%N) :: others) (ones 6) = Ok ([], ants', ones 6).
Proof.
  split; [|split].
  - intros i j _ _. cbn [steep entry]. destruct (j =? 1); repeat split; reflexivity.
  - eexists _, _. split; [vm_compute; reflexivity|]. split; vm_compute; reflexivity.
  - intros others. eexists. vm_compute. reflexivity.
Qed.
Print Assumptions C56_never_stuck_refuted.

(** ** C57 *)
(** The wheel stops at a place of goodness zero only if the number drawn is exactly zero. *)
Theorem C57_zero_goodness_needs_zero_draw :
  forall g a l v a', ant_step g a = Ok (l, v, a') -> a_rate a = None -> v <> l ->
  (forall u, u ∈ a_unvisited a -> nonneg_finite (entry g l u)) -> feq (entry g l v) f0 = true -> a_stuck a = false ->
  exists total d r', gen_range_f64 f0 total (a_rng a) = Ok (d, r') /\ feq d f0 = true.
Proof. exact step_zero_draw. Qed.
Print Assumptions C57_zero_goodness_needs_zero_draw.

(** And then it does stop there, although another place has a positive goodness. *)
Definition one_way : matrix := Mat 3 3 (fun i j => if j =? 2 then f1 else f0).
Theorem C57_never_zero_goodness_refuted :
  exists a l v a', a_unvisited a ≡ₚ [1; 2] /\ ant_step one_way a = Ok (l, v, a') /\ v = 1 /\ l = 0 /\
    entry one_way 0 1 = f0 /\ entry one_way 0 2 = f1.
Proof.
  exists (Ant [1; 2] [0] 3 false None (rng_of []) (rng_of [1]%N)). eexists _, _, _. split; [reflexivity|]. split; [vm_compute; reflexivity|]. auto.
Qed.
Print Assumptions C57_never_zero_goodness_refuted.

(** ** C58 *)
Theorem C58_exploitation_takes_the_best :
  forall g a rate l v a', ant_step g a = Ok (l, v, a') -> a_rate a = Some rate -> flt (gen_f64 (a_rng a)).1 rate = true ->
  a_stuck a = false -> (forall u, u ∈ a_unvisited a -> flt fmin (entry g l u) = true) ->
  v ∈ a_unvisited a /\ forall u, u ∈ a_unvisited a -> fle (entry g l u) (entry g l v) = true.
Proof.
  intros g a rate l v a' H Er Hu Es Hrow. destruct (step_cases _ _ _ _ _ H) as [El [(E & _)|_]]; [congruence|].
  unfold ant_step in H. rewrite El in H. cbn [unwrap mbind outcome_bind] in H. rewrite Es in H.
  apply obind_Ok in H as ([] & _ & H). apply obind_Ok in H as ([] & Hne & H). apply rassert_Ok, bool_decide_eq_true in Hne.
  apply obind_Ok in H as ([order h] & Hsh & H). apply shuffle_perm in Hsh. rewrite Er in H.
  destruct (gen_f64 (a_rng a)) as [u r0]. cbn [fst] in Hu. rewrite Hu in H.
  apply obind_Ok in H as ([w r] & Hw & H). injection H as <- _. apply obind_Ok in Hw as (w' & Hx & E). injection E as -> _.
  destruct (exploit_max (fun v => mget g l v) order l w Hx) as (Hin & gv & Hgv & Hmax).
  - intros ->. apply Permutation_nil in Hsh. congruence.
  - intros x gx Hx' Hgx. apply mget_Ok in Hgx as [_ ->]. apply Hrow. rewrite <- Hsh. exact Hx'.
  - rewrite Hsh in Hin. split; [exact Hin|]. intros x Hx'. apply mget_Ok in Hgv as [[Hr Hc] ->].
    assert (Hxo : x ∈ order) by (rewrite Hsh; exact Hx').
    assert (Hin_m : exists gx, mget g l x = Ok gx).
    { clear -Hx Hxo. unfold exploit in Hx. apply obind_Ok in Hx as (st & Hx & _).
      revert Hx. generalize (l, fmin) at 1. induction order as [|y order IH]; intros s0 Hx; [inversion Hxo|]. cbn [ofold] in Hx.
      apply obind_Ok in Hx as (s1 & H1 & Hx). apply obind_Ok in H1 as (gy & Hgy & H1).
      apply elem_of_cons in Hxo as [->|Hxo]; eauto. }
    destruct Hin_m as [gx Hgx]. pose proof Hgx as Hgx'. apply mget_Ok in Hgx' as [_ ->]. eauto.
Qed.
Print Assumptions C58_exploitation_takes_the_best.
(** Only exploitation rates from 0 to 1, without 1, are accepted; a new ant has no path *)
Theorem C58_rate_checked :
  forall n rate r h, (fle f0 rate = true /\ flt rate f1 = true -> exists a, exploiting_ant n rate r h = Ok a /\ a_rate a = Some rate /\ a_size a = n /\ a_path a = []) /\
  (~ (fle f0 rate = true /\ flt rate f1 = true) -> exploiting_ant n rate r h = Panic).
Proof.
  intros n rate r h. unfold exploiting_ant. destruct (fle f0 rate), (flt rate f1); split; intros H; try reflexivity; try (destruct H; discriminate); try (exfalso; apply H; auto; fail). eexists. split; [reflexivity|]. auto.
Qed.
Print Assumptions C58_rate_checked.
Example C58_nonvacuous :
  exists a', ant_step one_way (Ant [1; 2] [0] 3 false (Some fhalf) (rng_of []) (rng_of [1]%N)) = Ok (0, 2, a').
Proof. eexists. vm_compute. reflexivity. Qed.

(** ** C59 *)
Theorem C59_ants_never_panic :
  forall n gs a, 0 < n -> (Z.of_nat n <= 2 ^ 53)%Z -> usable n a -> Forall (fun g => moderate g n) gs -> length gs <= n - 1 ->
  exists a0 a', ant_start (ant_clear a) = Ok a0 /\ walk gs a0 = Ok a'.
Proof. exact ant_walk_ok. Qed.
Print Assumptions C59_ants_never_panic.
Theorem C59_ant_system_never_panics :
  forall op n ants pheromone g, 0 < n -> (Z.of_nat n <= 2 ^ 53)%Z -> nrows pheromone = n -> Forall (usable n) ants ->
  op pheromone = Ok g -> moderate g n -> exists r, ant_system op ants pheromone = Ok r.
Proof. exact ant_system_ok. Qed.
Print Assumptions C59_ant_system_never_panics.
Example C59_nonvacuous : moderate one_way 3 /\ moderate steep 6.
Proof. split; (split; [reflexivity|split; [reflexivity|]]); intros i j _ _; cbn [one_way steep entry]; [destruct (j =? 2)|destruct (j =? 1)]; repeat split. Qed.
(** Goodness summing up to infinity makes every CanonicalAnt panic. *)
Theorem C59_infinite_total_panics :
  forall g a, a_rate a = None -> a_stuck a = false -> last (a_path a) = Some 0 -> a_unvisited a ≡ₚ [1; 2] ->
  nrows g = 3 -> ncols g = 3 -> entry g 0 1 = fmax -> entry g 0 2 = fmax -> ant_step g a = Panic.
Proof.
  intros g a Er Es El Hu Hr Hc E1 E2. unfold ant_step. rewrite El. cbn [unwrap mbind outcome_bind]. rewrite Es.
  rewrite (bool_decide_true (0 < nrows g)) by lia. rewrite bool_decide_true by (intros E; rewrite E in Hu; apply Permutation_nil_cons in Hu; exact Hu).
  cbn [rassert mbind outcome_bind]. destruct (shuffle_ok (a_unvisited a) (a_hash a)) as (order & h & Hsh). rewrite Hsh. cbn [mbind outcome_bind].
  apply shuffle_perm in Hsh. rewrite Hu in Hsh. cbn zeta. rewrite Er. unfold roulette, goodness_sum.
  assert (M1 : mget g 0 1 = Ok fmax) by (apply mget_Ok; split; [lia|auto]). assert (M2 : mget g 0 2 = Ok fmax) by (apply mget_Ok; split; [lia|auto]).
  assert (Ho : order = [1; 2] \/ order = [2; 1]).
  { apply Permutation_length_2_inv. symmetry. exact Hsh. }
  destruct Ho as [->| ->]; cbn [ofold]; rewrite M1, M2; reflexivity.
Qed.
Print Assumptions C59_infinite_total_panics.
