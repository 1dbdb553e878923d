(** * Lemmas on what grading and local updates accept, and on runs of the ant colony system (C135, C136) *)
From Verif Require Import AcoModel AcoSpec AcoTrailSpec AcoCasesSpec AcoPheromoneProofs AcoTrailProofs AcoGradeProofs AcoChoiceProofs AcoAntProofs AcoTspProofs AcoAcsBoundProofs.
Open Scope nat_scope.

Lemma decided_cases {A} (P : Prop) (x : outcome A) (Q : A -> Prop) : P \/ ~ P -> possible_or_panic P x Q -> (P /\ exists a, x = Ok a /\ Q a) \/ (~ P /\ x = Panic).
Proof. intros [H|H] [A1 A2]; [left|right]; auto. Qed.
Lemma inside_windows w s : moves_inside w s <-> Forall (fun e => in_matrix w e.1 e.2) (windows (sol_path s)).
Proof.
  unfold moves_inside. rewrite Forall_forall. split.
  - intros H [a b] He. apply windows_follows in He. exact (H _ _ He).
  - intros H a b F. apply windows_follows in F. exact (H _ F).
Qed.
Lemma inside_dec w s : moves_inside w s \/ ~ moves_inside w s.
Proof. rewrite inside_windows. destruct (decide (Forall (fun e => e.1 < nrows w /\ e.2 < ncols w) (windows (sol_path s)))); [left|right]; assumption. Qed.
Lemma cost_cases w es : forall x, (Forall (fun e => in_matrix w e.1 e.2) es -> exists c, ofold (fun s '(i, j) => v ← mget w i j; Ok (fadd s v)) x es = Ok c) /\
  (~ Forall (fun e => in_matrix w e.1 e.2) es -> ofold (fun s '(i, j) => v ← mget w i j; Ok (fadd s v)) x es = Panic).
Proof.
  induction es as [|[i j] es IH]; intros x; [split; [intros _; exists x; reflexivity|intros N; exfalso; apply N; constructor]|].
  cbn [ofold]. rewrite Forall_cons. cbn [fst snd]. destruct (mget_cases w i j) as [[I ->]|[N ->]]; cbn [mbind outcome_bind].
  - destruct (IH (fadd x (entry w i j))) as [A B]. split; [intros [_ H]; exact (A H)|intros H; apply B; tauto].
  - split; [tauto|reflexivity].
Qed.
Lemma grade_cases w s : possible_or_panic (moves_inside w s) (grade_solution w s) (fun s' => sol_path s' = sol_path s).
Proof.
  unfold grade_solution, path_cost. destruct (cost_cases w (windows (sol_path s)) f0) as [A B]. rewrite <- inside_windows in A, B. split.
  - intros H. destruct (A H) as [c ->]. cbn [mbind outcome_bind]. eexists. split; reflexivity.
  - intros H. rewrite (B H). reflexivity.
Qed.
Lemma grading_cases w sols : possible_or_panic (Forall (moves_inside w) sols) (path_length_inverse w sols)
  (fun sols' => map sol_path sols' = map sol_path sols /\ Forall (fun s => sol_fitness s = fdiv f1 (float_sum (map (fun e => entry w e.1 e.2) (windows (sol_path s))))) sols').
Proof.
  assert (G : possible_or_panic (Forall (moves_inside w) sols) (path_length_inverse w sols) (fun _ => True)).
  { unfold path_length_inverse. induction sols as [|s sols [A B]]; [split; [intros _; exists []; auto|intros N; exfalso; apply N; constructor]|].
    cbn [omapM]. unfold possible_or_panic. rewrite Forall_cons. destruct (decided_cases _ _ _ (inside_dec w s) (grade_cases w s)) as [(I & s' & -> & _)|[N ->]]; cbn [mbind outcome_bind].
    - split; [intros [_ H]; destruct (A H) as (l & -> & _); cbn [mbind outcome_bind]; eauto|]. intros H. rewrite B by tauto. reflexivity.
    - split; [tauto|reflexivity]. }
  destruct G as [A B]. split; [|exact B]. intros H. destruct (A H) as (l & E & _). exists l. split; [exact E|]. exact (grading _ _ _ E).
Qed.
Lemma mset_cases m i j x : (in_matrix m i j /\ mset m i j x = Ok (upd m i j x)) \/ (~ in_matrix m i j /\ mset m i j x = Panic).
Proof.
  destruct (mget_cases m i j) as [[I _]|[N _]]; [left|right]; (split; [assumption|]).
  - apply mset_Ok. auto.
  - unfold mset. rewrite decide_False by exact N. reflexivity.
Qed.
Lemma from_path_cases p : possible_or_panic (Forall (fun v => v < length p) p) (from_path p) (fun s => s = Sol p f0).
Proof.
  unfold from_path. set (m0 := mrepeat (length p) (length p) f0).
  destruct (fold_panics (fun m '(i, j) => m ← mset m i j f1; mset m j i f1) (windows p)) with (m := m0) as [A B].
  - intros m [i j]. cbn [fst snd]. destruct (mset_cases m i j f1) as [[I ->]|[N ->]]; cbn [mbind outcome_bind]; [|right; split; [tauto|reflexivity]].
    destruct (mset_cases (upd m i j f1) j i f1) as [[I' ->]|[N ->]]; [left|right; split; [|reflexivity]].
    + split; [exact I|]. split; [exact I'|]. eexists. split; [reflexivity|]. split; reflexivity.
    + intros [_ H]. apply N. exact H.
  - change (windows p) with (windows (sol_path (Sol p f0))) in A at 1, B at 1. rewrite <- fits_windows, (fits_square m0 (Sol p f0) (length p) eq_refl eq_refl) in A, B. cbn [sol_path] in A, B. split.
    + intros H. destruct (A H) as [m ->]. cbn [mbind outcome_bind]. eexists. split; reflexivity.
    + intros H. rewrite (B H). reflexivity.
Qed.

Lemma last_edge_cases p : (exists q s r, p = q ++ [s; r] /\ last_edge p = Ok (s, r)) \/ ((forall q s r, p <> q ++ [s; r]) /\ last_edge p = Panic).
Proof.
  destruct (decide (2 <= length p)) as [H|H].
  - left. destruct (last_two p H) as (q & s & r & ->). exists q, s, r. split; [reflexivity|]. unfold last_edge. rewrite bool_decide_true by exact H. cbn [rassert mbind outcome_bind].
    assert (E1 : (q ++ [s; r]) !! (length (q ++ [s; r]) - 2) = Some s).
    { rewrite app_length. cbn [length]. replace (length q + 2 - 2) with (length q) by lia. rewrite lookup_app_r by lia. rewrite Nat.sub_diag. reflexivity. }
    assert (E2 : (q ++ [s; r]) !! (length (q ++ [s; r]) - 1) = Some r).
    { rewrite app_length. cbn [length]. replace (length q + 2 - 1) with (S (length q)) by lia. rewrite lookup_app_r by lia. replace (S (length q) - length q) with 1 by lia. reflexivity. }
    unfold index. rewrite E1. cbn [unwrap mbind outcome_bind]. rewrite E2. reflexivity.
  - right. split; [intros q s r ->; apply H; rewrite app_length; cbn [length]; lia|]. unfold last_edge. rewrite bool_decide_false by exact H. reflexivity.
Qed.
Lemma local_cases (f : matrix -> nat -> nat -> outcome matrix) :
  (forall m s r, (in_matrix m s r /\ exists m', f m s r = Ok m' /\ nrows m' = nrows m /\ ncols m' = ncols m) \/ (~ in_matrix m s r /\ f m s r = Panic)) ->
  forall paths m, (Forall (last_edge_inside m) paths -> exists m', ofold (fun m p => '(s, r) ← last_edge p; f m s r) m paths = Ok m' /\ nrows m' = nrows m /\ ncols m' = ncols m) /\
    (~ Forall (last_edge_inside m) paths -> ofold (fun m p => '(s, r) ← last_edge p; f m s r) m paths = Panic).
Proof.
  intros Hf. induction paths as [|p paths IH]; intros m; [split; [intros _; exists m; auto|intros N; exfalso; apply N; constructor]|].
  cbn [ofold]. rewrite Forall_cons. destruct (last_edge_cases p) as [(q & s & r & Ep & ->)|[N ->]]; cbn [mbind outcome_bind].
  - assert (X : last_edge_inside m p <-> in_matrix m s r).
    { split; [intros (q' & s' & r' & E & H)|intros H; exists q, s, r; auto]. rewrite Ep in E. apply (app_inj_2 q q') in E as [_ E]; [|reflexivity]. injection E as <- <-. exact H. }
    rewrite X. destruct (Hf m s r) as [(I & m1 & -> & R & C)|[N ->]]; cbn [mbind outcome_bind]; [|split; [tauto|reflexivity]].
    destruct (IH m1) as [A B]. assert (Y : Forall (last_edge_inside m) paths <-> Forall (last_edge_inside m1) paths).
    { unfold last_edge_inside, in_matrix. rewrite R, C. reflexivity. }
    rewrite Y. split; [intros [_ H]; destruct (A H) as (m2 & -> & R2 & C2); exists m2; split; [reflexivity|]; split; [rewrite R2; exact R|rewrite C2; exact C]|intros H; apply B; tauto].
  - split; [|reflexivity]. intros [(q & s & r & E & _) _]. exfalso. exact (N _ _ _ E).
Qed.
Lemma decay_cases rate m paths : possible_or_panic (Forall (last_edge_inside m) paths) (decay rate m paths) (fun m' => nrows m' = nrows m /\ ncols m' = ncols m).
Proof.
  apply (local_cases (fun m s r => mupd m s r (fun x => fmul x rate))). clear. intros m s r. destruct (mupd_cases m s r (fun x => fmul x rate)) as [[I ->]|[N ->]]; [left|right; auto].
  split; [exact I|]. eexists. split; [reflexivity|]. split; reflexivity.
Qed.
Lemma decay_to_cases rate stable m paths : possible_or_panic (Forall (last_edge_inside m) paths) (decay_to rate stable m paths) (fun m' => nrows m' = nrows m /\ ncols m' = ncols m).
Proof.
  apply (local_cases (fun m s r => m ← mupd m s r (fun x => fmul x rate); mupd m s r (fun x => fadd x (fmul stable (fsub f1 rate))))). clear. intros m s r.
  destruct (mupd_cases m s r (fun x => fmul x rate)) as [[I ->]|[N ->]]; cbn [mbind outcome_bind]; [left|right; auto].
  destruct (mupd_cases (upd m s r (fmul (entry m s r) rate)) s r (fun x => fadd x (fmul stable (fsub f1 rate)))) as [[I' ->]|[N _]]; [|exfalso; apply N; exact I].
  split; [exact I|]. eexists. split; [reflexivity|]. split; reflexivity.
Qed.

(** ** The ant colony system on whole-number goodness *)
Definition sound_dims (n : nat) (local : matrix -> list (list nat) -> outcome matrix) : Prop :=
  forall p paths, nrows p = n -> ncols p = n -> Forall (fun q => exists q' s r, q = q' ++ [s; r] /\ s < n /\ r < n) paths ->
  exists p', local p paths = Ok p' /\ nrows p' = n /\ ncols p' = n.
Lemma inside_places n m (paths : list (list nat)) : nrows m = n -> ncols m = n -> Forall (fun q => exists q' s r, q = q' ++ [s; r] /\ s < n /\ r < n) paths ->
  Forall (last_edge_inside m) paths.
Proof. intros R C H. eapply Forall_impl; [exact H|]. intros p (q & s & r & E & H1 & H2). exists q, s, r. split; [exact E|]. unfold in_matrix. rewrite R, C. auto. Qed.
Lemma decay_sound n rate : sound_dims n (decay rate).
Proof.
  intros p paths R C H. destruct (decay_cases rate p paths) as [A _]. destruct (A (inside_places n p paths R C H)) as (p' & E & R' & C'). exists p'. split; [exact E|]. split; [rewrite R'; exact R|rewrite C'; exact C].
Qed.
Lemma decay_to_sound n rate stable : sound_dims n (decay_to rate stable).
Proof.
  intros p paths R C H. destruct (decay_to_cases rate stable p paths) as [A _]. destruct (A (inside_places n p paths R C H)) as (p' & E & R' & C'). exists p'. split; [exact E|]. split; [rewrite R'; exact R|rewrite C'; exact C].
Qed.
Lemma acs_round_whole n k g : whole g n -> k + 1 < n -> forall ants, Forall (acs_ant n k) ants -> Forall (fun a => a_stuck a = false) ants ->
  exists ants', acs_round g ants = Ok (map a_path ants', ants') /\ Forall (fun a => a_stuck a = false) ants' /\ length ants' = length ants.
Proof.
  intros Hg Hk. induction 1 as [|a ants [Hw Hl] _ IH]; intros Hs; [exists []; repeat split; constructor|]. inversion_clear Hs as [|? ? Es Hs'].
  destruct (IH Hs') as (as' & E & S' & L). cbn [acs_round]. rewrite Es.
  destruct (step_whole n g a Hg Hw Es) as (l & v & a1 & H1 & _ & Es1).
  { intros E0. specialize (Hl Es). pose proof Hw as (_ & _ & Hp). rewrite Es, E0, app_nil_r in Hp. apply Permutation_length in Hp. rewrite seq_length in Hp. lia. }
  rewrite H1. cbn [mbind outcome_bind]. rewrite E. cbn [mbind outcome_bind]. exists (a1 :: as'). split; [reflexivity|]. split; [constructor; assumption|]. cbn [length]. lia.
Qed.
Lemma acs_rounds_whole n op local rounds : sound_dims n local -> (forall p, nrows p = n -> ncols p = n -> exists g, op p = Ok g /\ whole g n) ->
  forall k paths ants p, nrows p = n -> ncols p = n -> Forall (acs_ant n k) ants -> Forall (fun a => a_stuck a = false) ants -> k + rounds = n - 1 ->
  (rounds = 0 -> paths = map a_path ants) ->
  exists ants' p', acs_rounds op local rounds paths ants p = Ok (map a_path ants', ants', p') /\ nrows p' = n /\ ncols p' = n /\
    Forall (acs_ant n (n - 1)) ants' /\ Forall (fun a => a_stuck a = false) ants' /\ length ants' = length ants.
Proof.
  intros Hl Hop. induction rounds as [|rounds IH]; intros k paths ants p R C Ha Hs Hk Hz; cbn [acs_rounds].
  - exists ants, p. rewrite (Hz eq_refl). split; [reflexivity|]. split; [exact R|]. split; [exact C|]. replace (n - 1) with k by lia. auto.
  - destruct (Hop p R C) as (g & -> & Hg). cbn [mbind outcome_bind]. destruct (acs_round_whole n k g Hg ltac:(lia) ants Ha Hs) as (as' & E & S' & L).
    destruct (acs_round_spec n k g _ _ _ Ha E) as (HA & _ & _ & HF). rewrite E. cbn [mbind outcome_bind].
    destruct (Hl p (map a_path as') R C) as (p1 & E1 & R1 & C1).
    { eapply Forall_impl; [exact HF|]. intros q (a & [Hw _] & <- & Hq). destruct (last_two (a_path a) ltac:(lia)) as (q' & s & r & Ea). exists q', s, r. split; [exact Ea|].
      pose proof (walking_places n a Hw) as W. rewrite Ea, Forall_app in W. destruct W as [_ W]. inversion_clear W as [|? ? W1 W2]. inversion_clear W2. auto. }
    rewrite E1. cbn [mbind outcome_bind]. destruct (IH (k + 1) (map a_path as') as' p1 R1 C1 HA S' ltac:(lia) ltac:(auto)) as (as2 & p2 & E2 & X). exists as2, p2. split; [exact E2|].
    rewrite <- L. exact X.
Qed.
Lemma starts n ants : 0 < n -> Forall (usable n) ants ->
  exists ants0, omapM (fun a => ant_start (ant_clear a)) ants = Ok ants0 /\ Forall (acs_ant n 0) ants0 /\ Forall (fun a => a_stuck a = false) ants0 /\ length ants0 = length ants.
Proof.
  intros H0. induction 1 as [|a ants Ha _ (as0 & E & A & S0 & L)]; [exists []; repeat split; constructor|]. cbn [omapM].
  destruct (start_ok n a Ha H0) as (a0 & E0). destruct (start_walking n a a0 Ha E0) as (Hw & Es & L0). rewrite E0. cbn [mbind outcome_bind]. rewrite E. cbn [mbind outcome_bind].
  exists (a0 :: as0). split; [reflexivity|]. split; [constructor; [split; [exact Hw|intros _; lia]|exact A]|]. split; [constructor; assumption|]. cbn [length]. lia.
Qed.
Lemma colony_whole n op local ants p : 2 <= n -> sound_dims n local -> (forall p, nrows p = n -> ncols p = n -> exists g, op p = Ok g /\ whole g n) ->
  nrows p = n -> ncols p = n -> Forall (usable n) ants ->
  exists ants' p', ant_colony_system op local ants p = Ok (map a_path ants', ants', p') /\ nrows p' = n /\ ncols p' = n /\
    Forall (tour n) (map a_path ants') /\ Forall (usable n) ants' /\ length ants' = length ants.
Proof.
  intros Hn Hl Hop R C Hu. destruct (starts n ants ltac:(lia) Hu) as (as0 & E0 & A0 & S0 & L0). unfold ant_colony_system. rewrite E0. cbn [mbind outcome_bind]. rewrite R.
  destruct (acs_rounds_whole n op local (n - 1) Hl Hop 0 [] as0 p R C A0 S0 ltac:(lia) ltac:(lia)) as (as' & p' & E & R' & C' & A & S' & L).
  exists as', p'. split; [exact E|]. split; [exact R'|]. split; [exact C'|]. split; [|split; [|lia]].
  - apply Forall_map. rewrite Forall_forall in A, S'. apply Forall_forall. intros a Ha. destruct (A a Ha) as [Hw Hle]. pose proof (S' a Ha) as Es. specialize (Hle Es).
    apply walking_complete; [exact Hw|exact Es|lia].
  - eapply Forall_impl; [exact A|]. intros a [Hw _]. apply walking_usable. exact Hw.
Qed.
Lemma acs_iterate_ok {T} op local n w u (init : T -> T) check p s : 2 <= n -> sound_dims n local ->
  (forall p, nrows p = n -> ncols p = n -> exists g, op p = Ok g /\ whole g n) -> nrows w = n -> ncols w = n ->
  nrows p = n -> ncols p = n -> Forall (usable n) s.1 -> s.1 <> [] -> tour_or_none n s.2 ->
  exists evs p' s', aco_iterate (tsp (ant_colony_system op local) w u init check) p s = Ok (evs, p', s') /\
    nrows p' = n /\ ncols p' = n /\ Forall (usable n) s'.1 /\ s'.1 <> [] /\ tour_or_none n s'.2.
Proof.
  intros H0 Hl Hop Hwr Hwc Hr Hc Hu Hne Hb. destruct s as [ants best]. cbn [fst snd] in *. unfold aco_iterate. cbn [tsp colony grader update fst snd].
  destruct (colony_whole n op local ants p H0 Hl Hop Hr Hc Hu) as (ants' & p1 & E & R1 & C1 & HT & HU & HL). rewrite E. cbn [mbind outcome_bind].
  destruct (from_paths_ok n (map a_path ants') HT) as (us & -> & Eus). cbn [mbind outcome_bind].
  destruct (grading_ok w n us Hwr Hwc) as (sols & Hsols).
  { apply (Forall_map sol_path (fun q => Forall (fun v => v < n) q)). rewrite Eus. eapply Forall_impl; [exact HT|]. intros q Hq. apply (tour_facts n q Hq). }
  rewrite Hsols. cbn [mbind outcome_bind]. apply grading in Hsols as [HP _]. rewrite Eus in HP.
  assert (HTS : Forall (fun x => tour n (sol_path x)) sols) by (apply (Forall_map sol_path (tour n)); rewrite HP; exact HT).
  destruct (find_best_ok sols) as [b ->].
  { intros ->. cbn in HP. destruct ants'; [|discriminate]. cbn in HL. destruct ants; [congruence|discriminate]. }
  cbn [mbind outcome_bind fst snd]. destruct (rule_ok u n p1 sols best R1 C1 Hb HTS) as (m' & best' & -> & R & C & TB). cbn [mbind outcome_bind].
  eexists _, _, _. split; [reflexivity|]. cbn [fst snd]. split_and!; auto. intros ->. cbn in HL. destruct ants; [congruence|discriminate].
Qed.
Lemma acs_one_place op local ants p paths ants' p' : nrows p <= 1 -> ant_colony_system op local ants p = Ok (paths, ants', p') -> paths = [].
Proof.
  intros R H. unfold ant_colony_system in H. apply obind_Ok in H as (as0 & _ & H). replace (nrows p - 1) with 0 in H by lia. cbn [acs_rounds] in H. injection H as <- _ _. reflexivity.
Qed.
