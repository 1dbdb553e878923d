(** * Proofs about a whole travelling salesman run *)
From Verif Require Export AcoRunProofs AcoDepositProofs.
From Verif Require Import F64R.
Open Scope nat_scope.

Lemma mmas_dims policy rate lo hi m sols best m' best' : mmas_update policy rate lo hi m sols best = Ok (m', best') -> nrows m' = nrows m /\ ncols m' = ncols m.
Proof.
  intros H. rewrite mmas_eq in H. apply obind_Ok in H as (m1 & H1 & H). injection H as <- <-.
  change (nrows m) with (nrows (mscale (fsub f1 rate) m)). change (ncols m) with (ncols (mscale (fsub f1 rate) m)).
  revert H1. generalize (mscale (fsub f1 rate) m) as q. induction (windows _) as [|e es IH]; intros q H1; cbn [ofold] in H1; [injection H1 as <-; auto|].
  apply obind_Ok in H1 as (q1 & Hq & H1). destruct (IH _ H1) as [R C]. destruct (mm_step_Ok _ _ _ _ _ _ Hq) as (_ & _ & R' & C' & _). split; congruence.
Qed.
Lemma rule_symmetric u m sols best m' best' : symmetric m -> apply_rule u m sols best = Ok (m', best') -> symmetric m' /\ nrows m' = nrows m.
Proof.
  intros Hm H. destruct u as [rate|rate|policy rate lo hi|policy rate]; cbn [apply_rule] in H.
  - apply obind_Ok in H as (m1 & H1 & H). injection H as <- <-. split; [eapply as_update_symmetric; eauto|]. apply trail_spec in H1 as (R & _). exact R.
  - split; [eapply elitist_symmetric; eauto|]. apply obind_Ok in H as (m1 & H1 & H). apply obind_Ok in H as (m2 & H2 & H). injection H as <- <-.
    apply trail_spec in H1 as (R & _). apply trail1_spec in H2 as (R2 & _). cbn in *. congruence.
  - split; [eapply mmas_symmetric; eauto|]. eapply mmas_dims; eauto.
  - split; [eapply acs_update_symmetric; eauto|]. apply obind_Ok in H as (m1 & H1 & H). injection H as <- <-. apply trail1_spec in H1 as (R & _). exact R.
Qed.

Definition graded (w : matrix) (s : solution) : Prop :=
  sol_fitness s = fdiv f1 (float_sum (map (fun e => entry w e.1 e.2) (windows (sol_path s)))).
Lemma tsp_iteration {T} op n w u (init : T -> T) check p s sols b p' s' : 0 < n ->
  nrows p = n -> symmetric p -> Forall (usable n) s.1 -> one_iteration (tsp (ant_system op) w u init check) p s sols b p' s' ->
  (nrows p' = n /\ symmetric p' /\ Forall (usable n) s'.1) /\ Forall (fun x => tour n (sol_path x) /\ graded w x) sols /\ b ∈ sols.
Proof.
  intros Hn Hr Hs Hu (paths & p1 & s1 & us & s2 & H1 & H2 & H3 & Hb & _ & H4). cbn [tsp colony grader update] in *.
  apply obind_Ok in H1 as ([[ps as'] q] & H1 & E). injection E as <- <- <-.
  destruct (ant_system_spec op n _ _ _ _ _ Hn Hr Hu H1) as (-> & HT & HU & _). apply from_paths_Ok in H2.
  apply obind_Ok in H3 as (ss & H3 & E). injection E as <- <-. apply grading in H3 as [HP HG].
  apply obind_Ok in H4 as ([q b'] & H4 & E). injection E as <- <-. cbn [fst snd] in H4. destruct (rule_symmetric _ _ _ _ _ _ Hs H4) as [HS HR].
  split; [split_and!; [congruence|exact HS|exact HU]|]. split; [|exact Hb].
  rewrite H2 in HP. rewrite <- HP in HT. apply (Forall_map sol_path (tour n)) in HT. rewrite Forall_forall in HT. rewrite Forall_forall in HG. apply Forall_forall. intros x Hx. split; [apply HT, Hx|apply HG, Hx].
Qed.
Lemma tsp_iterations {T} op n w u (init : T -> T) check p s l p' s' : 0 < n ->
  nrows p = n -> symmetric p -> Forall (usable n) s.1 -> iterations (tsp (ant_system op) w u init check) p s l p' s' ->
  Forall (fun '(b, q) => tour n (sol_path b) /\ graded w b /\ nrows q = n /\ symmetric q) l /\ nrows p' = n /\ symmetric p' /\ Forall (usable n) s'.1.
Proof.
  intros Hn Hr Hs Hu H. induction H as [p s|p s sols b p1 s1 l p' s' H1 H IH]; [auto|].
  destruct (tsp_iteration op n w u init check p s sols b p1 s1 Hn Hr Hs Hu H1) as ((R & S' & U) & HF & Hb).
  destruct (IH R S' U) as (IH1 & IH2). split; [|exact IH2]. constructor; [|exact IH1]. rewrite Forall_forall in HF. destruct (HF b Hb). auto.
Qed.
(** With AntColonySystemAB the reported bests are tours as well (goodness values valid and above f64::MIN). *)
Lemma tsp_acs_iterations {T} op local n w u (init : T -> T) check p s l p' s' :
  (forall p g i j, op p = Ok g -> i < n -> j < n -> fvalid (entry g i j) /\ flt fmin (entry g i j) = true) ->
  (forall p paths p', local p paths = Ok p' -> nrows p' = nrows p) ->
  nrows p = n -> Forall (usable n) s.1 -> iterations (tsp (ant_colony_system op local) w u init check) p s l p' s' ->
  Forall (fun '(b, q) => tour n (sol_path b) /\ graded w b /\ nrows q = n) l.
Proof.
  intros Hop Hloc Hr Hu H. 
  assert (Hrounds : forall k ps ants q ps' ants' q', acs_rounds op local k ps ants q = Ok (ps', ants', q') -> nrows q' = nrows q).
  { induction k as [|k IHk]; intros ps ants q ps' ants' q' HH; cbn [acs_rounds] in HH; [injection HH as _ _ <-; reflexivity|].
    apply obind_Ok in HH as (g & _ & HH). apply obind_Ok in HH as ([ps1 as1] & _ & HH). apply obind_Ok in HH as (q1 & Hq1 & HH). apply IHk in HH. apply Hloc in Hq1. congruence. }
  induction H as [p s|p s sols b p1 s1 l p' s' H1 H IH]; [constructor|].
  destruct H1 as (paths & p2 & s2 & us & s3 & E1 & E2 & E3 & Hb & _ & E4). cbn [tsp colony grader update] in *.
  apply obind_Ok in E1 as ([[ps as'] q] & E1 & E). injection E as <- <- <-.
  assert (HT : Forall (tour n) ps) by (eapply ant_colony_system_tours; eauto; intros p0 g i j Hg Hi Hj; destruct (Hop p0 g i j Hg Hi Hj); auto).
  destruct (ant_colony_system_spec op local n _ _ _ _ _ Hr Hu E1) as (HU & _ & _ & _). apply from_paths_Ok in E2.
  apply obind_Ok in E3 as (ss & E3 & E). injection E as <- <-. apply grading in E3 as [HP HG].
  apply obind_Ok in E4 as ([q' b'] & E4 & E). injection E as <- <-. cbn [fst snd] in *.
  assert (Hq : nrows q = n). { apply obind_Ok in E1 as (a0 & _ & E1). apply Hrounds in E1. congruence. }
  assert (Hq' : nrows q' = n).
  { destruct u as [rate|rate|policy rate lo hi|policy rate]; cbn [apply_rule] in E4.
    - apply obind_Ok in E4 as (m1 & F1 & F). injection F as <- <-. apply trail_spec in F1 as (R & _). cbn in R. congruence.
    - apply obind_Ok in E4 as (m1 & F1 & F). apply obind_Ok in F as (m2 & F2 & F). injection F as <- <-.
      apply trail_spec in F1 as (R & _). apply trail1_spec in F2 as (R2 & _). cbn in *. congruence.
    - apply mmas_dims in E4 as [R _]. congruence.
    - apply obind_Ok in E4 as (m1 & F1 & F). injection F as <- <-. apply trail1_spec in F1 as (R & _). cbn in R. congruence. }
  constructor; [|apply IH; auto].
  rewrite E2 in HP. rewrite <- HP in HT. apply (Forall_map sol_path (tour n)) in HT. rewrite Forall_forall in HT. rewrite Forall_forall in HG. split; [apply HT, Hb|]. split; [apply HG, Hb|exact Hq'].
Qed.

(** ** A run that cannot fail *)
Lemma tour_windows n m s : tour_or_none n s -> nrows m = n -> ncols m = n -> Forall (fun e => in_matrix m e.1 e.2 /\ in_matrix m e.2 e.1) (windows (sol_path s)).
Proof.
  intros [->|H] Hr Hc; [constructor|]. destruct (tour_facts n _ H) as (_ & _ & HF). apply windows_range in HF. eapply Forall_impl; [exact HF|].
  intros e [? ?]. unfold in_matrix. lia.
Qed.
Lemma trail1_ok n amount s m : tour_or_none n s -> nrows m = n -> ncols m = n -> exists m', leave_trail1 amount (sol_path s) m = Ok m' /\ nrows m' = n /\ ncols m' = n.
Proof.
  intros Hs Hr Hc. rewrite leave_trail1_eq. destruct (trail_fold_ok amount (windows (sol_path s)) m) as [m' E]; [apply (tour_windows n); auto|].
  exists m'. split; [exact E|]. destruct (trail_fold _ _ _ _ E) as (R & C & _). split; congruence.
Qed.
Lemma trail_ok n sols : Forall (fun x => tour n (sol_path x)) sols -> forall m, nrows m = n -> ncols m = n -> exists m', leave_trail sols m = Ok m' /\ nrows m' = n /\ ncols m' = n.
Proof.
  induction 1 as [|s sols Hs _ IH]; intros m Hr Hc; [exists m; auto|]. rewrite trail_cons. destruct (trail1_ok n (sol_fitness s) s m) as (m1 & -> & R1 & C1); auto; [right; exact Hs|].
  cbn [mbind outcome_bind]. auto.
Qed.
Lemma mm_step_ok fit lo hi m i j : in_matrix m i j -> in_matrix m j i -> exists m', mm_step fit lo hi m (i, j) = Ok m' /\ nrows m' = nrows m /\ ncols m' = ncols m.
Proof.
  intros H1 H2. unfold mm_step. rewrite (proj2 (mupd_Ok _ _ _ _ _) (conj H1 eq_refl)). cbn [mbind outcome_bind].
  match goal with |- context [mget ?q i j] => rewrite (proj2 (AcoPheromoneProofs.mget_Ok q i j _) (conj (H1 : in_matrix q i j) eq_refl)) end. cbn [mbind outcome_bind].
  match goal with |- context [mset ?q j i ?v] => rewrite (proj2 (mset_Ok q j i v _) (conj (H2 : in_matrix q j i) eq_refl)) end. eexists. split; [reflexivity|]. split; reflexivity.
Qed.
Lemma mm_fold_ok fit lo hi es : forall m, Forall (fun e => in_matrix m e.1 e.2 /\ in_matrix m e.2 e.1) es -> exists m', ofold (mm_step fit lo hi) m es = Ok m'.
Proof.
  induction es as [|[i j] es IH]; intros m H; cbn [ofold]; [eauto|]. inversion_clear H as [|? ? [H1 H2] Hs]. cbn [fst snd] in *.
  destruct (mm_step_ok fit lo hi m i j H1 H2) as (m1 & E1 & R & C). rewrite E1. cbn [mbind outcome_bind]. apply IH.
  eapply Forall_impl; [exact Hs|]. intros e. unfold in_matrix. rewrite R, C. auto.
Qed.
Lemma rule_ok u n m sols best : nrows m = n -> ncols m = n -> tour_or_none n best -> Forall (fun x => tour n (sol_path x)) sols ->
  exists m' best', apply_rule u m sols best = Ok (m', best') /\ nrows m' = n /\ ncols m' = n /\ tour_or_none n best'.
Proof.
  intros Hr Hc Hb Hs. destruct u as [rate|rate|policy rate lo hi|policy rate]; cbn [apply_rule].
  - unfold as_update. destruct (trail_ok n sols Hs (mscale (fsub f1 rate) m)) as (m' & -> & R & C); auto. cbn. eauto 6.
  - unfold elitist_update. cbn zeta. destruct (trail_ok n sols Hs (mscale (fsub f1 rate) m)) as (m' & -> & R & C); auto. cbn [mbind outcome_bind].
    pose proof (policy_tour OverallBest n best sols Hb Hs) as HP. cbn [apply_policy] in HP.
    destruct (trail1_ok n (sol_fitness (overall_best best sols)) (overall_best best sols) m' HP R C) as (m2 & -> & R2 & C2). cbn. eauto 6.
  - rewrite mmas_eq. pose proof (policy_tour policy n best sols Hb Hs) as HP. 
    destruct (mm_fold_ok (sol_fitness (apply_policy policy best sols)) lo hi (windows (sol_path (apply_policy policy best sols))) (mscale (fsub f1 rate) m)) as [m' E]; [apply (tour_windows n); auto|].
    pose proof (mmas_dims (apply_policy policy) rate lo hi m sols best m' (apply_policy policy best sols)) as D. rewrite mmas_eq, E in D. cbn [mbind outcome_bind] in D. destruct (D eq_refl) as [R C].
    rewrite E. cbn [mbind outcome_bind]. eexists _, _. split; [reflexivity|]. split_and!; [congruence..|exact HP].
  - unfold acs_update. cbn zeta. pose proof (policy_tour policy n best sols Hb Hs) as HP.
    destruct (trail1_ok n (fmul (sol_fitness (apply_policy policy best sols)) rate) (apply_policy policy best sols) (mscale (fsub f1 rate) m) HP Hr Hc) as (m2 & -> & R2 & C2). cbn [mbind outcome_bind]. eauto 7.
Qed.

Lemma as_loop_whole n g : 0 < n -> whole g n -> forall ants, Forall (usable n) ants ->
  exists paths ants', as_loop n g ants = Ok (paths, ants') /\ length paths = length ants.
Proof.
  intros H0 Hg. induction 1 as [|a ants Ha Has (ps & as' & IH & L)]; cbn [as_loop]; [eauto|].
  destruct (whole_tour n (replicate (n - 1) g) a H0 Ha) as (a0 & a' & E0 & E1 & Es & _).
  { apply Forall_replicate. exact Hg. }
  { apply replicate_length. }
  rewrite E0. cbn [mbind outcome_bind]. rewrite ant_steps_walk, E1. cbn [mbind outcome_bind]. rewrite Es. rewrite IH. cbn [mbind outcome_bind].
  eexists _, _. split; [reflexivity|]. cbn [length]. lia.
Qed.
Lemma tsp_iterate_ok {T} op n w u (init : T -> T) check p s : 0 < n ->
  (forall p, nrows p = n -> ncols p = n -> exists g, op p = Ok g /\ whole g n) -> nrows w = n -> ncols w = n ->
  nrows p = n -> ncols p = n -> Forall (usable n) s.1 -> s.1 <> [] -> tour_or_none n s.2 ->
  exists evs p' s', aco_iterate (tsp (ant_system op) w u init check) p s = Ok (evs, p', s') /\
    nrows p' = n /\ ncols p' = n /\ Forall (usable n) s'.1 /\ s'.1 <> [] /\ tour_or_none n s'.2.
Proof.
  intros H0 Hop Hwr Hwc Hr Hc Hu Hne Hb. destruct s as [ants best]. cbn [fst snd] in *. unfold aco_iterate. cbn [tsp colony grader update fst snd].
  destruct (Hop p Hr Hc) as (g & Hg & Hwhole). destruct (as_loop_whole n g H0 Hwhole ants Hu) as (paths & ants' & HL & Hlen).
  assert (HA : ant_system op ants p = Ok (paths, ants', p)) by (unfold ant_system; rewrite Hg; cbn [mbind outcome_bind]; rewrite Hr, HL; reflexivity).
  destruct (ant_system_spec op n _ _ _ _ _ H0 Hr Hu HA) as (_ & HT & HU & HL' & _).
  rewrite HA. cbn [mbind outcome_bind]. destruct (from_paths_ok n paths HT) as (us & -> & Eus). cbn [mbind outcome_bind].
  destruct (grading_ok w n us Hwr Hwc) as (sols & Hsols).
  { apply (Forall_map sol_path (fun q => Forall (fun v => v < n) q)). rewrite Eus. eapply Forall_impl; [exact HT|]. intros q Hq. apply (tour_facts n q Hq). }
  rewrite Hsols. cbn [mbind outcome_bind]. apply grading in Hsols as [HP _]. rewrite Eus in HP.
  assert (HTS : Forall (fun x => tour n (sol_path x)) sols) by (apply (Forall_map sol_path (tour n)); rewrite HP; exact HT).
  destruct (find_best_ok sols) as [b ->].
  { intros ->. cbn in HP. rewrite <- HP in Hlen. cbn in Hlen. destruct ants; [congruence|discriminate]. }
  cbn [mbind outcome_bind fst snd]. destruct (rule_ok u n p sols best Hr Hc Hb HTS) as (m' & best' & -> & R & C & TB). cbn [mbind outcome_bind].
  eexists _, _, _. split; [reflexivity|]. cbn [fst snd]. split_and!; auto. intros ->. destruct ants; [congruence|discriminate].
Qed.
