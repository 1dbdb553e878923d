(** * The particle swarm example program: proofs *)
From Verif Require Import PsoExampleModel PsoSpec PsoProofs PsoRunProofs PsoBestProofs PsoBoundsProofs PsoProbeProofs PropsPso F64R PopulationSpec TfF64Proofs IntervalProofs.
From Coq Require Import Reals Lra Lia.
Open Scope nat_scope.

(** ** Signs without any assumption on the operands *)
Definition nonneg_or_nan (a : f64) : Prop := F64.is_nan a = true \/ fle f0 a = true.
Lemma aux_sign m e l : nonneg_or_nan (SpecFloat.binary_round_aux 53 1024 false m e l).
Proof.
  unfold SpecFloat.binary_round_aux. destruct (SpecFloat.shr_fexp 53 1024 m e l) as [a b].
  destruct (SpecFloat.shr_fexp 53 1024 _ b SpecFloat.loc_Exact) as [c d]. destruct (SpecFloat.shr_m c) as [|p|p].
  - right. reflexivity.
  - right. destruct (d <=? 1024 - 53)%Z; reflexivity.
  - left. reflexivity.
Qed.
Lemma round_sign m e : nonneg_or_nan (SpecFloat.binary_round 53 1024 false m e).
Proof. unfold SpecFloat.binary_round. destruct (SpecFloat.shl_align _ _ _) as [a b]. apply aux_sign. Qed.
Lemma nonneg_cases a : nonneg_or_nan a -> a = S754_nan \/ (exists s, a = S754_zero s) \/ a = S754_infinity false \/ exists m e, a = S754_finite false m e.
Proof. intros [H|H]; destruct a as [s|[]| |[] m e]; try discriminate H; eauto 6. Qed.
Lemma mul_sign a b : nonneg_or_nan a -> nonneg_or_nan b -> nonneg_or_nan (fmul a b).
Proof.
  intros [->|[[s ->]|[->|(m & e & ->)]]]%nonneg_cases [->|[[t ->]|[->|(n & g & ->)]]]%nonneg_cases; try (left; reflexivity); try (right; reflexivity);
    try (destruct s; right; reflexivity); try (destruct t; right; reflexivity).
  apply aux_sign.
Qed.
Lemma sq_sign a : nonneg_or_nan (fmul a a).
Proof. destruct a as [s|s| |s m e]; [right; destruct s; reflexivity|right; destruct s; reflexivity|left; reflexivity|]. unfold fmul, SpecFloat.SFmul. destruct s; apply aux_sign. Qed.
Lemma add_sign a b : nonneg_or_nan a -> nonneg_or_nan b -> nonneg_or_nan (fadd a b).
Proof.
  intros [->|[[s ->]|[->|(m & e & ->)]]]%nonneg_cases [->|[[t ->]|[->|(n & g & ->)]]]%nonneg_cases; try (left; reflexivity); try (right; reflexivity);
    try (destruct s, t; right; reflexivity).
  apply round_sign.
Qed.

Lemma ok_inj {A} (a b : A) : Ok a = Ok b -> a = b. Proof. congruence. Qed.

(** ** The default objective *)
Section Obj.
Context (L : libm).
Local Instance NP : Num f64 := num_f64 L.
Lemma powi2_eq (a : f64) : powi a 2 = fmul (nlit 1 1) (fmul a a). Proof. reflexivity. Qed.
Lemma one_sign : nonneg_or_nan (nlit 1 1). Proof. right. reflexivity. Qed.
Lemma rosenbrock_sign x v : rosenbrock x = Ok v -> nonneg_or_nan v.
Proof.
  unfold rosenbrock. intros H. apply obind_Ok in H as (_ & _ & H).
  assert (H0 : nonneg_or_nan (nlit 0 1)) by (right; reflexivity). revert H. generalize (nlit 0 1) H0. clear H0.
  induction (seq 0 (length x - 1)) as [|i l IH]; intros acc H0 H.
  - injection H as <-. exact H0.
  - rewrite ofold_cons in H. apply obind_Ok in H as (acc' & H1 & H). refine (IH acc' _ H). clear IH H.
    apply obind_Ok in H1 as (a & _ & H1). apply obind_Ok in H1 as (b & _ & H1). apply ok_inj in H1 as <-.
    rewrite !powi2_eq. apply add_sign; [exact H0|]. apply add_sign.
    + apply mul_sign; [right; reflexivity|]. apply mul_sign; [exact one_sign|]. apply sq_sign.
    + apply mul_sign; [exact one_sign|]. apply sq_sign.
Qed.
Lemma iv_powi2 n x : iv (- n) n x -> (0 <= n)%Z -> small (n * n)%Z -> iv 0 (n * n)%Z (powi x 2).
Proof.
  intros H Hn S1. rewrite powi2_eq. pose proof (iv_sq n x H Hn S1) as H2.
  pose proof (iv_scale 1 0 (n * n) (nlit 1 1) _ (iv_nat 1 ltac:(lia)) H2 ltac:(lia)) as H3. rewrite !Z.mul_1_l in H3. apply H3; unfold small in *; lia.
Qed.
(** One term, for coordinates in [-10, 10]. *)
Lemma term_iv a b : iv (-10) 10 a -> iv (-10) 10 b -> iv 0 1210121 (nadd (nmul (nlit 100 1) (powi (nsub b (powi a 2)) 2)) (powi (nsub (nlit 1 1) a) 2)).
Proof.
  intros Ha Hb.
  assert (A2 : iv 0 100 (powi a 2)) by (apply (iv_powi2 10); [exact Ha|lia|unfold small; lia]).
  assert (D : iv (-110) 110 (nsub b (powi a 2))).
  { apply (iv_weaken (-10 - 100) (10 - 0)); [|lia|lia]. apply iv_sub; auto; unfold small; lia. }
  assert (D2 : iv 0 12100 (powi (nsub b (powi a 2)) 2)) by (apply (iv_powi2 110); [exact D|lia|unfold small; lia]).
  assert (E : iv (-11) 11 (nsub (nlit 1 1) a)).
  { apply (iv_weaken (1 - 10) (1 - -10)); [|lia|lia]. apply iv_sub; [exact (iv_nat 1 ltac:(lia))|exact Ha|unfold small; lia|unfold small; lia]. }
  assert (E2 : iv 0 121 (powi (nsub (nlit 1 1) a) 2)) by (apply (iv_powi2 11); [exact E|lia|unfold small; lia]).
  change 1210121%Z with (1210000 + 121)%Z. apply (iv_add 0 1210000 0 121); [|exact E2|unfold small; lia|unfold small; lia].
  apply (iv_scale 100 0 12100); [exact (iv_nat 100 ltac:(lia))|exact D2|lia|unfold small; lia|unfold small; lia].
Qed.
Lemma rosenbrock_iv x : length x = 3 -> Forall (iv (-10) 10) x -> exists v, rosenbrock x = Ok v /\ iv 0 2420242 v.
Proof.
  intros Hl H. destruct x as [|a [|b [|c [|]]]]; try discriminate Hl. apply Forall_cons in H as [Ha H]. apply Forall_cons in H as [Hb H]. apply Forall_cons in H as [Hc _].
  eexists. split; [reflexivity|]. change 2420242%Z with (1210121 + 1210121)%Z. apply (iv_add 0 1210121 0 1210121); [|apply term_iv; assumption|unfold small; lia|unfold small; lia].
  apply (iv_weaken (0 + 0) (0 + 1210121)); [|lia|lia]. apply (iv_add 0 0 0 1210121); [exact (iv_nat 0 ltac:(lia))|apply term_iv; assumption|unfold small; lia|unfold small; lia].
Qed.
End Obj.

(** ** The probes *)
Definition text_of (e : pso_event) : pso_text :=
  match e with PsoBegin s => SwarmAtStart s | PsoNewGeneration s n => SwarmAfter n s | PsoEnd s _ => SwarmAtEnd s end.
Definition row_of (e : pso_event) : list (nat * f64 * list f64) :=
  match e with PsoBegin s => [(0, gbest_value s, gbest s)] | PsoNewGeneration s n => [(n, gbest_value s, gbest s)] | PsoEnd _ _ => [] end.
Definition three_probes : probe pso_event pso_output := aggregated (aggregated_with [on_stdout pso_stdout_probe; on_csv pso_csv_probe; on_json pso_json_probe]).
Lemma three_step out cs cf js jf e : three_probes (PsoOutput out (PsoCsv cs cf) (PsoLog js jf)) e =
  Ok (PsoOutput (out ++ [text_of e]) (PsoCsv (cs ++ map fst (row_of e)) (match e with PsoEnd _ _ => Some cs | _ => cf end))
        (PsoLog (js ++ row_of e) (match e with PsoEnd _ _ => Some js | _ => jf end))).
Proof. destruct e as [s|s n|s n]; unfold three_probes, aggregated, aggregated_with; cbn; rewrite ?app_nil_r; reflexivity. Qed.
Lemma three_feed evs : forall out cs cf js jf, Forall (fun e => match e with PsoEnd _ _ => False | _ => True end) evs ->
  feed three_probes (PsoOutput out (PsoCsv cs cf) (PsoLog js jf)) evs =
  Ok (PsoOutput (out ++ map text_of evs) (PsoCsv (cs ++ map fst (concat (map row_of evs))) cf) (PsoLog (js ++ concat (map row_of evs)) jf)).
Proof.
  induction evs as [|e evs IH]; intros out cs cf js jf H; [cbn [map concat]; rewrite !app_nil_r; reflexivity|].
  apply Forall_cons in H as [He H]. rewrite feed_cons, three_step. cbn [mbind outcome_bind].
  destruct e as [s|s n|]; [| |contradiction]; rewrite IH by exact H; cbn [map concat]; rewrite map_app, <- !app_assoc; reflexivity.
Qed.

(** ** The run *)
Lemma in_tens : proper_range (fneg (f_of_nat 10), f_of_nat 10).
Proof. split; [split; reflexivity|]. split; [split; reflexivity|]. split; reflexivity. Qed.
Lemma initial_iv f count dims r s r' : swarm_generate f count dims (fneg (f_of_nat 10)) (f_of_nat 10) r = Ok (s, r') ->
  Forall (fun p => Forall (iv (-10) 10) (position p)) (particles s).
Proof.
  intros H. destruct in_tens as (Fl & Fh & Hle & Fw). cbn [fst snd] in *. unfold swarm_generate in H.
  destruct (generate_particles f count dims _ _ r) as [ps ra] eqn:E. apply obind_Ok in H as (p0 & Hp0 & H). apply ok_inj in H. apply (f_equal fst) in H. cbn [fst] in H. subst s. cbn [particles].
  pose proof (fun HP HQ => generate_particles_within f count dims _ _ (iv (-10) 10) (fun _ => True) HP HQ r ps ra E) as G.
  eapply Forall_impl; [apply G|].
  - intros u Vu Hu. destruct (lerp_within (fneg (f_of_nat 10)) (f_of_nat 10) u Fl Fh Hle Fw Vu Hu eq_refl) as ([V F] & A & B).
    apply (iv_between (-10) 10 (fneg (f_of_nat 10)) (f_of_nat 10)); auto; [apply (iv_neg 10 10)|]; exact (iv_nat 10 ltac:(lia)).
  - auto.
  - intros p [A _]. exact A.
Qed.
Definition gen_at (s0 : swarm) (l : list swarm) (n : nat) : swarm := nth n (s0 :: l) s0.
Lemma later_gens s0 l : l = map (fun i => gen_at s0 l (i + 1)) (seq 0 (length l)).
Proof.
  apply list_eq. intros i. change (map ?f ?x) with (f <$> x). rewrite list_lookup_fmap. destruct (decide (i < length l)) as [H|H].
  - rewrite lookup_seq_lt by exact H. cbn. unfold gen_at. rewrite Nat.add_1_r. cbn [nth]. destruct (lookup_lt_is_Some_2 l i H) as [x Hx]. rewrite Hx. f_equal. symmetry. apply nth_lookup_Some, Hx.
  - rewrite lookup_ge_None_2 by lia. rewrite lookup_seq_ge by lia. reflexivity.
Qed.
Lemma last_gen s0 l : List.last l s0 = gen_at s0 l (length l).
Proof.
  unfold gen_at. induction l as [|x l IH] using rev_ind; [reflexivity|]. rewrite PsoBestProofs.last_snoc, app_length. cbn [length]. rewrite Nat.add_1_r. cbn [nth].
  rewrite app_nth2 by lia. rewrite Nat.sub_diag. reflexivity.
Qed.
Lemma events_at (g : nat -> swarm) (s0 : swarm) (l : list swarm) : length l = 2000 -> (forall i, g i = gen_at s0 l i) ->
  logged_events (fun n => n mod 50 =? 0) s0 l =
  PsoBegin (g 0) :: map (fun k => PsoNewGeneration (g (50 * k)) (50 * k)) (seq 1 40) ++ [PsoEnd (g 2000) 2000].
Proof.
  intros HL HG. unfold logged_events. rewrite last_gen, HL, <- HG. replace s0 with (g 0) at 1 by apply HG. f_equal.
  assert (E : l = map (fun i => g (i + 1)) (seq 0 2000)).
  { rewrite (later_gens s0 l), HL. apply map_ext. intros i. symmetry. apply HG. }
  rewrite E. clear E HG HL. vm_compute. reflexivity.
Qed.
Lemma iv_Z z : (0 <= z <= 10000000)%Z -> iv z z (f_of_Z z).
Proof.
  intros H. destruct (f_of_nat_exact (Z.to_nat z)) as (V & F & E); [lia|]. unfold f_of_nat in *. rewrite Z2Nat.id in * by lia. split; [split; assumption|].
  rewrite E, INR_IZR_INZ, Z2Nat.id by lia. split; apply Rle_refl.
Qed.
Lemma iv_fle a b c d x y : iv a b x -> iv c d y -> (b <= c)%Z -> fle x y = true.
Proof.
  intros [[Vx Fx] Hx] [[Vy Fy] Hy] H. apply fle_R; auto. apply IZR_le in H. lra.
Qed.

Lemma evolution_at f w c1 c2 s0 l : evolution f w c1 c2 s0 l -> forall n, n < length l -> next_swarm f w c1 c2 (gen_at s0 l n) (gen_at s0 l (n + 1)).
Proof.
  intros H. assert (G : forall d n, n < length l -> next_swarm f w c1 c2 (nth n (s0 :: l) d) (nth (n + 1) (s0 :: l) d)).
  { induction H as [|s s' l HN HE IH]; intros d n Hn; cbn [length] in Hn; [lia|]. destruct n as [|n]; [exact HN|]. exact (IH d n ltac:(lia)). }
  intros n Hn. apply G, Hn.
Qed.

Section Run.
Context (L : libm).
Lemma pso_example_run clock sched workers fuel r : schedules_ok 30 (length workers) sched -> 2000 < fuel ->
  exists (g : nat -> swarm) out, pso_example L clock sched workers fuel r = Ok out /\
  printed out = SwarmAtStart (g 0) :: map (fun k => SwarmAfter (50 * k) (g (50 * k))) (seq 1 40) ++ [SwarmAtEnd (g 2000)] /\
  csv_file (in_csv out) = Some (map (fun k => (50 * k, gbest_value (g (50 * k)))) (seq 0 41)) /\
  log_file (in_json out) = Some (map (fun k => (50 * k, gbest_value (g (50 * k)), gbest (g (50 * k)))) (seq 0 41)) /\
  (forall n, n <= 2000 -> length (particles (g n)) = 30 /\ length (gbest (g n)) = 3 /\ rosenbrock (num := num_f64 L) (gbest (g n)) = Ok (gbest_value (g n)) /\
     F64.is_nan (gbest_value (g n)) = false /\ fle f0 (gbest_value (g n)) = true /\ fle (gbest_value (g n)) (f_of_Z 2420242) = true) /\
  (forall n m, n <= m -> m <= 2000 -> fle (gbest_value (g m)) (gbest_value (g n)) = true) /\
  (forall n, n < 2000 -> next_swarm (default_objective L) fhalf f1 (f_of_nat 3) (g n) (g (n + 1))).
Proof.
  intros HS Hf. unfold pso_example, pso_build. set (c := foldl pso_set _ _).
  change (pso_function c) with (default_objective L). change (particle_count c) with 30. change (dimensions c) with 3.
  change (lower_bound c) with (fneg (f_of_nat 10)). change (upper_bound c) with (f_of_nat 10).
  destruct (swarm_generate_ok (default_objective L) 30 3 (fneg (f_of_nat 10)) (f_of_nat 10) r ltac:(lia)) as (s0 & r0 & HG). rewrite HG. cbn [mbind outcome_bind].
  unfold pso_solve. change (pso_function c) with (default_objective L). change (inertia_weight c) with fhalf. change (cognitive_coefficient c) with f1.
  change (social_coefficient c) with (f_of_nat 3). change (termination c) with (GenerationLimit 2000). cbn [pso_met].
  destruct (C44_generation_limit (default_objective L) fhalf f1 (f_of_nat 3) sched 30 3 _ _ r s0 r0 workers 2000 fuel HG HS Hf) as (l & HL & HR & _).
  destruct (built_run HG HS HR) as (F & l' & E1 & _ & EV & FA & _).
  assert (l' = l) as ->.
  { unfold pso_protocol in E1. injection E1 as E1. apply app_inj_tail in E1 as [E1 _].
    apply list_eq. intros j. apply (f_equal (lookup j)) in E1. rewrite !list_lookup_imap in E1. destruct (l !! j), (l' !! j); cbn in E1; congruence. }
  rewrite HR. cbn [mbind outcome_bind]. clear E1 HR.
  destruct (interval_feed three_probes 50 s0 l (PsoOutput [] (PsoCsv [] None) (PsoLog [] None)) ltac:(discriminate)) as [last EF].
  change (aggregated (aggregated_with _)) with three_probes. rewrite EF. clear EF.
  set (g := gen_at s0 l). rewrite (events_at g s0 l HL (fun i => eq_refl)). rewrite app_comm_cons, feed_app, three_feed.
  2: { apply Forall_cons. split; [exact I|]. apply Forall_forall. intros e He. apply elem_of_list_fmap in He as (k & -> & _). exact I. }
  cbn [mbind outcome_bind]. rewrite feed_cons, three_step. cbn [mbind outcome_bind]. rewrite feed_nil. cbn [mbind outcome_bind].
  exists g. eexists. split; [reflexivity|]. cbn [printed in_csv in_json csv_file log_file].
  split; [cbn [app map text_of]; rewrite map_map; reflexivity|].
  split; [cbn [app]; f_equal; vm_compute; reflexivity|]. split; [cbn [app]; f_equal; vm_compute; reflexivity|].
  assert (AT : forall n, n <= 2000 -> (s0 :: l) !! n = Some (g n)).
  { intros n Hn. destruct (lookup_lt_is_Some_2 (s0 :: l) n) as [x Hx]; [cbn [length]; lia|]. rewrite Hx. f_equal. symmetry. apply nth_lookup_Some, Hx. }
  pose proof (initial_iv _ _ _ _ _ _ HG) as HI. destruct (swarm_generate_spec _ _ _ _ _ _ _ _ HG) as (_ & Hn & HD & _).
  destruct (lookup_lt_is_Some_2 (particles s0) 0) as [p0 Hp0]; [lia|].
  assert (Hv0 : exists v, rosenbrock (num := num_f64 L) (position p0) = Ok v /\ iv 0 2420242 v).
  { apply rosenbrock_iv; [exact (proj1 (proj1 (Forall_lookup _ _) HD 0 p0 Hp0))|exact (proj1 (Forall_lookup _ _) HI 0 p0 Hp0)]. }
  destruct Hv0 as (v0 & Ev0 & Hv0). assert (EO : default_objective L (position p0) = v0) by (unfold default_objective; rewrite Ev0; reflexivity).
  assert (N0 : F64.is_nan (default_objective L (position p0)) = false) by (rewrite EO; eapply iv_not_nan; eauto).
  assert (HB : forall n, n <= 2000 -> gbest_value (g n) = default_objective L (gbest (g n)) /\ F64.is_nan (gbest_value (g n)) = false /\
    forall p, p ∈ particles (g n) -> F64.is_nan (pbest_value p) = false -> fle (gbest_value (g n)) (pbest_value p) = true).
  { intros n Hn'. destruct (generation_of n (g n) EV (AT n Hn')) as (_ & -> & EV'). destruct (global_history _ _ _ _ s0 F _ EV') as (A & _ & C & _). destruct (C p0 Hp0 N0) as [C1 C2]. auto. }
  assert (HM : forall n m, n <= m -> m <= 2000 -> fle (gbest_value (g m)) (gbest_value (g n)) = true).
  { intros n m Hnm Hm. pose proof (HB n ltac:(lia)) as (_ & NN & _). destruct (generation_of n (g n) EV (AT n ltac:(lia))) as (_ & En & _). destruct (generation_of m (g m) EV (AT m Hm)) as (_ & Em & EV').
    assert (E : take m l = take n l ++ take (m - n) (drop n l)).
    { rewrite <- (take_drop n (take m l)). rewrite take_take, Nat.min_l by exact Hnm. f_equal. rewrite take_drop_commute. f_equal. f_equal. lia. }
    rewrite En in NN |- *. rewrite Em, E. rewrite E in EV'. apply (global_monotone (default_objective L) fhalf f1 (f_of_nat 3)); auto. }
  split; [|split; [exact HM|]].
  - intros n Hn'. destruct (HB n Hn') as (A & B & _). destruct (proj1 (Forall_lookup _ _) FA n (g n) (AT n Hn')) as (C1 & _ & C3).
    split; [exact C1|]. split; [exact C3|].
    assert (ER : rosenbrock (num := num_f64 L) (gbest (g n)) = Ok (gbest_value (g n))).
    { rewrite A. unfold default_objective. destruct (rosenbrock (gbest (g n))) as [v| |] eqn:E; [reflexivity| |]; rewrite A in B; unfold default_objective in B; rewrite E in B; discriminate B. }
    split; [exact ER|]. split; [exact B|]. split.
    + apply rosenbrock_sign in ER as [ER|ER]; [congruence|exact ER].
    + apply (fle_trans _ (gbest_value s0)); [exact (HM 0 n ltac:(lia) Hn')|].
      apply (fle_trans _ v0); [|apply (iv_fle 0 2420242 2420242 2420242); [exact Hv0|apply iv_Z; lia|lia]].
      destruct (HB 0 ltac:(lia)) as (_ & _ & C). destruct F as (F1 & _). destruct (proj1 (Forall_lookup _ _) F1 0 p0 Hp0) as (_ & _ & PV).
      specialize (C p0 (elem_of_list_lookup_2 _ _ _ Hp0)). rewrite PV, EO in C. apply C. eapply iv_not_nan; eauto.
  - intros n Hn'. unfold g. apply evolution_at; [exact EV|lia].
Qed.
End Run.
