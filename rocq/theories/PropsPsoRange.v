(** * C130: the size of the numbers of a swarm *)
From Verif Require Import F64R PopulationSpec PsoModel PsoSpec PsoRunProofs PsoBestProofs PsoBoundsProofs PsoRangeSpec PsoRangeProofs.
From Coq Require Import Reals Lra Lia.
From Flocq Require Import Core.
Open Scope R_scope.

(** Initial velocities lie between -|hi - lo| and |hi - lo|, as long as twice that is a double ... *)
Theorem C130_initial_velocities :
  forall f count dims lo hi r s r', finite_f64 lo -> finite_f64 hi -> ffinite (fsub hi lo) = true -> 2 * Rabs (f2r (fsub hi lo)) < 2 ^ 1024 ->
  swarm_generate f count dims lo hi r = Ok (s, r') -> Forall (fun p => Forall (within (Rabs (f2r (fsub hi lo)))) (velocity p)) (particles s).
Proof.
  intros f count dims lo hi r s r' Hl Hh Fw HB H. unfold swarm_generate in H. destruct (generate_particles f count dims lo hi r) as [ps ra] eqn:E.
  apply obind_Ok in H as (p0 & _ & H). injection H as <- <-. cbn [particles].
  eapply Forall_impl; [eapply (generate_particles_within f count dims lo hi (fun _ => True) (within (Rabs (f2r (fsub hi lo))))); [auto| |exact E]|intros p [_ X]; exact X].
  intros u Vu Iu W. destruct Hl as [Vl Fl], Hh as [Vh Fh]. rewrite <- (proj1 (proj2 (fabs_R _ (fvalid_sub _ _ Vh Vl)))).
  apply (velocity_within lo hi u (conj Vl Fl) (conj Vh Fh) Fw); [|exact Iu]. replace BOUND with (2 ^ 1024); [exact HB|].
  change (bpow radix2 1024) with (bpow radix2 (Z.of_nat 1024)). rewrite bpow_powerRZ, <- pow_powerRZ. reflexivity.
Qed.
Print Assumptions C130_initial_velocities.
(** ... but with the bounds -2^1022 and 2^1022, whose difference is a double, every initial velocity is infinite or not a number, whatever is drawn. *)
Definition two_1022 : f64 := S754_finite false 4503599627370496 970.
Theorem C130_initial_velocities_refuted :
  proper_range (fneg two_1022, two_1022) /\ f2r two_1022 = 2 ^ 1022 /\
  forall f count dims r s r', swarm_generate f count dims (fneg two_1022) two_1022 r = Ok (s, r') -> Forall (fun p => Forall (fun v => ffinite v = false) (velocity p)) (particles s).
Proof.
  split; [split; [split; reflexivity|]; split; [split; reflexivity|]; split; reflexivity|]. split.
  { unfold f2r, two_1022, BinarySingleNaN.SF2R, F2R. cbn [Fnum Fexp cond_Zopp]. change (IZR (Z.pos 4503599627370496)) with (IZR (Zpower radix2 52)). rewrite IZR_Zpower by lia. rewrite <- bpow_plus.
    change (52 + 970)%Z with (Z.of_nat 1022). rewrite bpow_powerRZ, <- pow_powerRZ. reflexivity. }
  intros f count dims r s r' H. unfold swarm_generate in H. destruct (generate_particles f count dims _ _ r) as [ps ra] eqn:E.
  apply obind_Ok in H as (p0 & _ & H). injection H as <- <-. cbn [particles].
  eapply Forall_impl; [eapply (generate_particles_within f count dims (fneg two_1022) two_1022 (fun _ => True) (fun v => ffinite v = false)); [auto| |exact E]|intros p [_ X]; exact X].
  intros u _ (_ & H0 & H1) W. destruct u as [[]|[]| |[] m e]; try discriminate; reflexivity.
Qed.
Print Assumptions C130_initial_velocities_refuted.
(** With bounds of magnitude at most b the whole first swarm is within 2 b. *)
Theorem C130_initial_swarm :
  forall f count dims lo hi r s r' (b : f64), proper_range (lo, hi) -> fle (fadd (fsub hi lo) lo) hi = true -> fvalid b -> f2r b <= bpow radix2 1000 ->
  Rabs (f2r lo) <= f2r b -> Rabs (f2r hi) <= f2r b -> swarm_generate f count dims lo hi r = Ok (s, r') -> swarm_within (2 * f2r b) s.
Proof. exact initial_swarm. Qed.
Print Assumptions C130_initial_swarm.
(** A generation multiplies the magnitudes by at most 1 + |w| + 2 |c1| + 2 |c2| (up to rounding), so that all numbers of generation j are finite as long as M growth^j does not exceed 2^1000. *)
Theorem C130_run :
  forall f w c1 c2 met sched count dims lo hi r s0 r0 workers fuel evs s' (M : R),
  finite_f64 w -> finite_f64 c1 -> finite_f64 c2 -> bpow radix2 (-900) <= M -> swarm_within M s0 ->
  swarm_generate f count dims lo hi r = Ok (s0, r0) -> schedules_ok count (length workers) sched ->
  pso_run f w c1 c2 met sched fuel s0 workers = Ok (evs, s') ->
  exists l, evs = pso_protocol s0 l /\ s' = List.last l s0 /\
    forall j s, (s0 :: l) !! j = Some s -> growth w c1 c2 ^ j * M <= bpow radix2 1000 -> swarm_within (growth w c1 c2 ^ j * M) s.
Proof.
  intros f w c1 c2 met sched count dims lo hi r s0 r0 workers fuel evs s' M Hw H1 H2 HM HW HG HS HR.
  destruct (swarm_generate_spec _ _ _ _ _ _ _ _ HG) as (_ & Hn & HD & HL).
  destruct (run_spec f w c1 c2 met sched count dims (length workers) HS fuel s0 workers evs s' eq_refl Hn HD HL HR) as (l & E1 & E2 & EV & _).
  exists l. split; [exact E1|]. split; [exact E2|]. exact (evolution_within w c1 c2 Hw H1 H2 f l s0 M HM EV HW).
Qed.
Print Assumptions C130_run.
(** The default solver (bounds -10 and 10, w = 1/2, c1 = 1, c2 = 3): for every objective, all numbers of the first 300 generations are finite. *)
Lemma default_growth : growth fhalf f1 (f_of_nat 3) <= 951 / 100.
Proof.
  rewrite growth_eq. assert (f2r fhalf = (IZR 4503599627370496 * / IZR 9007199254740992)%R) as -> by reflexivity. replace (IZR 4503599627370496 * / IZR 9007199254740992) with (1 / 2) by lra. rewrite f2r_f1.
  replace (f2r (f_of_nat 3)) with 3; [|symmetry; rewrite (proj2 (proj2 (f_of_nat_exact 3 ltac:(cbn; lia)))); cbn; lra].
  rewrite !Rabs_pos_eq by lra. pose proof AcoTspGenProofs.uu_small. lra.
Qed.
Lemma default_range j : (j <= 300)%nat -> growth fhalf f1 (f_of_nat 3) ^ j * (2 * f2r (f_of_nat 10)) <= bpow radix2 1000.
Proof.
  intros Hj. replace (f2r (f_of_nat 10)) with 10; [|symmetry; rewrite (proj2 (proj2 (f_of_nat_exact 10 ltac:(cbn; lia)))); cbn; lra].
  pose proof (growth_1 fhalf f1 (f_of_nat 3)) as G. apply Rle_trans with ((951 / 100) ^ 300 * 20).
  - replace (2 * 10) with 20 by lra. apply Rmult_le_compat_r; [lra|]. apply Rle_trans with (growth fhalf f1 (f_of_nat 3) ^ 300); [apply Rle_pow; assumption|]. apply pow_incr. split; [lra|exact default_growth].
  - assert (E : (951 ^ 300 * 20 <= 2 ^ 1000 * 100 ^ 300)%Z) by (vm_compute; discriminate). apply IZR_le in E. rewrite !mult_IZR in E.
    assert (P : forall a n, IZR (a ^ Z.of_nat n) = IZR a ^ n) by (intros a n; symmetry; apply pow_IZR).
    change 300%Z with (Z.of_nat 300) in E. change 1000%Z with (Z.of_nat 1000) in E. rewrite !P in E.
    change (bpow radix2 1000) with (bpow radix2 (Z.of_nat 1000)). rewrite bpow_powerRZ, <- pow_powerRZ.
    unfold Rdiv. rewrite Rpow_mult_distr, pow_inv. assert (0 < 100 ^ 300) by (apply pow_lt; lra).
    apply (Rmult_le_reg_r (100 ^ 300)); [assumption|]. change (IZR radix2) with 2 in *. set (h := 100 ^ 300) in *. set (q := 951 ^ 300) in *. set (z := 2 ^ 1000) in *.
    replace (q * / h * 20 * h) with (q * 20) by (field; lra). exact E.
Qed.
Theorem C130_default_solver :
  forall f met sched count dims r s0 r0 workers fuel evs s',
  swarm_generate f count dims (fneg (f_of_nat 10)) (f_of_nat 10) r = Ok (s0, r0) -> schedules_ok count (length workers) sched ->
  pso_run f fhalf f1 (f_of_nat 3) met sched fuel s0 workers = Ok (evs, s') ->
  exists l, evs = pso_protocol s0 l /\ s' = List.last l s0 /\
    forall j s, (s0 :: l) !! j = Some s -> (j <= 300)%nat -> swarm_within (bpow radix2 1000) s.
Proof.
  intros f met sched count dims r s0 r0 workers fuel evs s' HG HS HR.
  assert (H10 : f2r (f_of_nat 10) = 10) by (rewrite (proj2 (proj2 (f_of_nat_exact 10 ltac:(cbn; lia)))); cbn; lra).
  assert (H0 : swarm_within (2 * f2r (f_of_nat 10)) s0).
  { apply (C130_initial_swarm f count dims (fneg (f_of_nat 10)) (f_of_nat 10) r s0 r0 (f_of_nat 10)); [split; [split; reflexivity|]; split; [split; reflexivity|]; split; reflexivity|reflexivity|reflexivity| | | |exact HG].
    - pose proof (default_range 0 ltac:(lia)) as X. rewrite pow_O, H10 in X. lra.
    - rewrite (proj1 (proj2 (fneg_R (f_of_nat 10) eq_refl))), Rabs_Ropp, Rabs_pos_eq; lra.
    - rewrite Rabs_pos_eq; lra. }
  destruct (C130_run f fhalf f1 (f_of_nat 3) met sched count dims (fneg (f_of_nat 10)) (f_of_nat 10) r s0 r0 workers fuel evs s' (2 * f2r (f_of_nat 10))) as (l & E1 & E2 & E3);
    [split; reflexivity|split; reflexivity|split; reflexivity| |exact H0|exact HG|exact HS|exact HR|].
  { rewrite H10. apply Rle_trans with (bpow radix2 0); [apply bpow_le; lia|cbn; lra]. }
  exists l. split; [exact E1|]. split; [exact E2|]. intros j s Hj HB. pose proof (default_range j HB) as Z. destruct (E3 j s Hj Z) as [A B].
  assert (Up : forall k, Forall (within (growth fhalf f1 (f_of_nat 3) ^ j * (2 * f2r (f_of_nat 10)))) k -> Forall (within (bpow radix2 1000)) k) by (intros k Hk; eapply Forall_impl; [exact Hk|]; intros x; apply within_le; exact Z).
  split; [exact (Up _ A)|]. eapply Forall_impl; [exact B|]. intros p (C & D & F). auto.
Qed.
Print Assumptions C130_default_solver.
(** Without the limit they need not be: with the (finite) inertia 2^600 the velocity of a single particle is infinite in the second generation and its position not a number in the third. *)
Definition huge : f64 := S754_finite false 4503599627370496 548.
Definition square1 (x : list f64) : f64 := match x with [a] => fmul a a | _ => f0 end.
Definition one_worker (i : nat) : list (nat * nat) * list nat := ([(0, 0)%nat], [0%nat]).
Theorem C130_always_finite_refuted :
  exists s0 r0 evs s', finite_f64 huge /\ swarm_generate square1 1 1 (fneg (f_of_nat 10)) (f_of_nat 10) (rng_of [0; 0]%N) = Ok (s0, r0) /\ schedules_ok 1 1 one_worker /\
    pso_run square1 huge f1 (f_of_nat 3) (generation_limit 3) one_worker 4 s0 [rng_of []] = Ok (evs, s') /\
    Forall (fun p => Forall (fun x => F64.is_nan x = true) (position p)) (particles s') /\ particles s' <> [].
Proof.
  destruct (swarm_generate square1 1 1 (fneg (f_of_nat 10)) (f_of_nat 10) (rng_of [0; 0]%N)) as [[s0 r0]| |] eqn:E; [|vm_compute in E; discriminate E|vm_compute in E; discriminate E].
  assert (X : match swarm_generate square1 1 1 (fneg (f_of_nat 10)) (f_of_nat 10) (rng_of [0; 0]%N) with Ok (s, _) => Some s | _ => None end = Some s0) by (rewrite E; reflexivity). vm_compute in X. apply (inj Some) in X as X.
  destruct (pso_run square1 huge f1 (f_of_nat 3) (generation_limit 3) one_worker 4 s0 [rng_of []]) as [[evs s']| |] eqn:R; rewrite <- X in R; [|vm_compute in R; discriminate R|vm_compute in R; discriminate R].
  exists s0, r0, evs, s'. split; [split; reflexivity|]. split; [reflexivity|]. split; [intros i; split; [split; [change ([0%nat] ≡ₚ [0%nat]); reflexivity|apply Forall_cons; split; [cbn; lia|apply Forall_nil; exact I]]|change ([0%nat] ≡ₚ [0%nat]); reflexivity]|]. split; [rewrite <- X; exact R|].
  vm_compute in R. injection R as <- <-. split; [repeat constructor|discriminate].
Qed.
Print Assumptions C130_always_finite_refuted.
