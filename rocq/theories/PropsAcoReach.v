(** * Property theorems: which tours ants can make (C132) *)
From Verif Require Import AcoReachProofs AcoAcsBoundProofs AcoAntProofs AcoChoiceProofs SusProofs.
From Verif Require Import AcoModel AcoSpec AcoBoundSpec AcoReachSpec F64R.
From Coq Require Import Reals Lra Lia.
From Flocq Require Import Core.Core.
Open Scope nat_scope.

(** Whatever goodness matrices are shown to it step by step, an ant can make every tour, whatever the iteration orders of its hash set. *)
Theorem C132_an_ant_can_make_every_tour :
  forall n lo hi (a : ant) (gs : list matrix) (p : list nat),
  resolved lo hi n -> Forall (goodness_within lo hi n) gs -> length gs = n - 1 -> 0 < n -> usable n a -> may_explore a -> tour n p ->
  exists r a0 a1, ant_start (ant_clear (with_draws r a)) = Ok a0 /\ walk gs a0 = Ok a1 /\ a_path a1 = p /\ a_stuck a1 = false.
Proof.
  intros n lo hi a gs p Hres Hg Hl Hn Hu Hex T. destruct (tour_reach n p lo hi gs a Hres Hg Hl Hn Hu Hex T) as (a1 & Ep & Es & H).
  destruct (H (a_rng a)) as (r & a0 & E0 & E1). exists r, a0, (with_draws (a_rng a) a1). auto.
Qed.
Print Assumptions C132_an_ant_can_make_every_tour.

(** The colonies: any tours at all can be those of the next iteration. *)
Theorem C132_ant_system :
  forall n lo hi op ants pheromone g (tours : list (list nat)),
  resolved lo hi n -> nrows pheromone = n -> op pheromone = Ok g -> goodness_within lo hi n g -> 0 < n ->
  length ants = length tours -> Forall (usable n) ants -> Forall may_explore ants -> Forall (tour n) tours ->
  exists rs ants', length rs = length ants /\ ant_system op (zip_with with_draws rs ants) pheromone = Ok (tours, ants', pheromone).
Proof.
  intros n lo hi op ants ph g ps Hres Hr Eg Hg Hn Hl Hu Hex T. destruct (colony_reach n g lo hi Hres Hg Hn ants ps Hl Hu Hex T) as (rs & ants' & L & E).
  exists rs, ants'. split; [exact L|]. unfold ant_system. rewrite Eg. cbn [mbind outcome_bind]. rewrite Hr, E. reflexivity.
Qed.
Print Assumptions C132_ant_system.
(** With local updates, for any invariant [good] of the pheromone *)
Theorem C132_ant_colony_system :
  forall (good : matrix -> Prop) op local n lo hi ants pheromone (tours : list (list nat)),
  resolved lo hi n -> 2 <= n -> (forall p, good p -> exists g, op p = Ok g /\ goodness_within lo hi n g) ->
  (forall p paths, good p -> Forall (partial_tour n) paths -> exists p', local p paths = Ok p' /\ good p') ->
  nrows pheromone = n -> good pheromone ->
  length ants = length tours -> Forall (usable n) ants -> Forall may_explore ants -> Forall (tour n) tours ->
  exists rs ants' pheromone', length rs = length ants /\ ant_colony_system op local (zip_with with_draws rs ants) pheromone = Ok (tours, ants', pheromone').
Proof. intros good op local n lo hi ants ph ps Hres Hn Hop Hloc Hr Hg Hl Hu Hex T. exact (acs_reach good op local n lo hi ants ps ph Hres Hn Hop Hloc Hr Hg Hl Hu Hex T). Qed.
Print Assumptions C132_ant_colony_system.

(** ... in particular with the local updates of the library, the pheromone staying within [0, B] *)
Theorem C132_local_updates :
  forall (B : R) n lo hi op local ants pheromone (tours : list (list nat)),
  (bpow radix2 (-900) <= B <= bpow radix2 900)%R -> resolved lo hi n -> 2 <= n ->
  (exists rate, local = decay rate /\ nonneg_finite rate /\ (f2r rate <= 1)%R) \/
  (exists rate stable, local = decay_to rate stable /\ nonneg_finite rate /\ (f2r rate <= 1 - bpow radix2 (-48))%R /\ in_range (B / 2) stable) ->
  (forall p, matrix_range B n p -> exists g, op p = Ok g /\ goodness_within lo hi n g) -> matrix_range B n pheromone ->
  length ants = length tours -> Forall (usable n) ants -> Forall may_explore ants -> Forall (tour n) tours ->
  exists rs ants' pheromone', length rs = length ants /\ ant_colony_system op local (zip_with with_draws rs ants) pheromone = Ok (tours, ants', pheromone').
Proof.
  intros B n lo hi op local ants ph ps HB Hres Hn Hloc Hop Hph. apply (C132_ant_colony_system (matrix_range B n) op local n lo hi); auto; [|exact (proj1 Hph)].
  intros p paths Hp Hq. assert (Hq' : Forall (fun q => exists q' s r, q = q' ++ [s; r] /\ s < n /\ r < n) paths).
  { eapply Forall_impl; [exact Hq|]. intros q (L & _ & F). destruct (exists_last (l := q)) as (q1 & r & ->); [intros ->; cbn in L; lia|].
    destruct (exists_last (l := q1)) as (q2 & s & ->); [intros ->; cbn in L; lia|]. exists q2, s, r. rewrite <- app_assoc in F |- *. apply Forall_app in F as [_ F].
    inversion_clear F as [|? ? F1 F2]. inversion_clear F2 as [|? ? F3 _]. auto. }
  destruct Hloc as [(rate & -> & Nr & Hr)|(rate & stable & -> & Nr & Hr & Hs)]; [apply decay_range; auto|apply decay_to_range; auto].
Qed.
Print Assumptions C132_local_updates.

(** Positive goodness alone does not make a tour possible: a place of goodness 1 that the wheel meets after one of goodness 2^100 is never chosen. *)
Definition lopsided : matrix := Mat 3 3 (fun i j => if (i =? 0) && (j =? 1) then f_of_bits 5057542381537067008 else f1).
Theorem C132_positive_goodness_refuted :
  (forall i j, flt f0 (entry lopsided i j) = true /\ ffinite (entry lopsided i j) = true) /\ (f2r (entry lopsided 0 1) = 2 ^ 100)%R /\
  exists (a : ant) (p : list nat), usable 3 a /\ may_explore a /\ tour 3 p /\
    forall r a0 a1, ant_start (ant_clear (with_draws r a)) = Ok a0 -> walk [lopsided; lopsided] a0 = Ok a1 -> a_path a1 <> p.
Proof.
  assert (Eb : f2r (entry lopsided 0 1) = (2 ^ 100)%R).
  { assert (entry lopsided 0 1 = S754_finite false 4503599627370496 48) as -> by (vm_compute; reflexivity). rewrite (pow_IZR 2 100). change (IZR 4503599627370496 * IZR (2 ^ 48) = IZR (2 ^ Z.of_nat 100))%R. rewrite <- mult_IZR. reflexivity. }
  split; [|split; [exact Eb|]].
  { intros i j. unfold lopsided. cbn [entry]. destruct ((i =? 0) && (j =? 1)); split; reflexivity. }
  exists (Ant [] [] 3 false None (rng_of []) (rng_of [0]%N)), [0; 2; 1]. split; [split; [reflexivity|split; constructor]|]. split; [intros rate E; discriminate E|]. split; [unfold tour; apply (bool_decide_unpack _); vm_compute; exact I|].
  intros r a0 a1 E0 E1 Ep. unfold ant_start in E0. apply obind_Ok in E0 as ([s r1] & Es & E0). injection E0 as <-. unfold walk in E1. cbn [ofold] in E1.
  apply obind_Ok in E1 as (b1 & W1 & E1). apply obind_Ok in W1 as ([[l1 v1] b] & W1 & W). injection W as ->.
  apply obind_Ok in E1 as (b2 & W2 & E1). apply obind_Ok in W2 as ([[l2 v2] b] & W2 & W). injection W as ->. injection E1 as <-.
  destruct (step_cases _ _ _ _ _ W1) as [_ [(X & _)|(_ & _ & _ & P1 & _ & _ & St1)]]; [discriminate X|].
  assert (s = 0 /\ v1 = 2) as [-> ->].
  { destruct (step_cases _ _ _ _ _ W2) as [_ [(X & _ & ->)|(_ & _ & _ & P2 & _)]]; [rewrite Ep in P1; cbn in P1; discriminate P1|].
    rewrite P2, P1 in Ep. cbn in Ep. injection Ep as -> -> _. auto. }
  clear W2 Ep P1 St1 Es. unfold ant_step in W1. cbn [ant_clear with_draws a_unvisited a_path a_size a_stuck a_rate a_rng a_hash app last unwrap mbind outcome_bind] in W1.
  apply obind_Ok in W1 as ([] & _ & W1). apply obind_Ok in W1 as ([] & _ & W1). apply obind_Ok in W1 as ([order h] & Hsh & W1). vm_compute in Hsh. injection Hsh as <- _.
  apply obind_Ok in W1 as ([w r2] & Hw & W1). injection W1 as _ -> _. unfold roulette in Hw. apply obind_Ok in Hw as (t & Ht & Hw).
  assert (Et : t = entry lopsided 0 1) by (vm_compute in Ht; injection Ht as <-; vm_compute; reflexivity). clear Ht.
  apply obind_Ok in Hw as ([d r3] & Hd & Hw). apply obind_Ok in Hw as (w & Hspin & Hw). injection Hw as -> _.
  destruct (gen_range_f64_Ok _ _ _ _ _ Hd fvalid_f0) as (Vd & Fd & _ & Ft & L0 & L1 & _). rewrite Et in *.
  assert (Ve : fvalid (entry lopsided 0 1)) by reflexivity. apply fle_R in L0; auto using fvalid_f0. rewrite f2r_f0 in L0. apply fle_R in L1; auto.
  cbn [spin] in Hspin. change (mget lopsided 0 1) with (Ok (entry lopsided 0 1)) in Hspin. cbn [mbind outcome_bind] in Hspin. cbv zeta in Hspin.
  rewrite (fsub_le0 d (entry lopsided 0 1) Vd Ve Fd Ft (conj L0 L1)) in Hspin. discriminate Hspin.
Qed.
Print Assumptions C132_positive_goodness_refuted.

Example C132_nonvacuous :
  let g := Mat 4 4 (fun i j => f_of_nat (i + j)) in
  resolved 1 5 4 /\ goodness_within 1 5 4 g /\ usable 4 (canonical_ant 4 (rng_of []) (rng_of [])) /\ may_explore (canonical_ant 4 (rng_of []) (rng_of [])) /\
  may_explore (Ant [] [] 4 false (Some fhalf) (rng_of []) (rng_of [])) /\ tour 4 [2; 0; 3; 1] /\ partial_tour 4 [2; 0; 3].
Proof.
  intros g. split_and!.
  - assert (E : (2 ^ 900 = bpow radix2 900)%R) by (rewrite (pow_IZR 2 900); reflexivity). split; [split; [|lra]|split].
    + rewrite E. rewrite <- bpow_opp. change 1%R with (bpow radix2 0). apply bpow_le. lia.
    + rewrite E. apply Rle_trans with (bpow radix2 3); [change (bpow radix2 3) with 8%R; lra|apply bpow_le; lia].
    + rewrite (pow_IZR 2 49). change (2 ^ Z.of_nat 49)%Z with 562949953421312%Z. change (INR 4) with (((1 + 1) + 1) + 1)%R. lra.
  - split; [reflexivity|]. split; [reflexivity|]. intros i j Hi Hj Hne. destruct (f_of_nat_exact (i + j)) as (V & F & E); [lia|]. cbn [g entry]. split.
    + apply nonneg_of_R; [exact V|exact F|rewrite E; apply pos_INR].
    + rewrite E. split; [change 1%R with (INR 1)|replace 5%R with (INR 5) by (cbn; lra)]; apply le_INR; lia.
  - split; [reflexivity|split; constructor].
  - intros rate E. discriminate E.
  - intros rate E. injection E as <-. split; reflexivity.
  - unfold tour. apply (bool_decide_unpack _). vm_compute. exact I.
  - split; [cbn; lia|]. split; [unfold tour; apply (bool_decide_unpack _); vm_compute; exact I|repeat constructor; lia].
Qed.
