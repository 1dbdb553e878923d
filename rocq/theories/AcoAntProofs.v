(** * Proofs about ants *)
From Verif Require Export AcoModel AcoSpec.
Open Scope nat_scope.

Lemma set_remove_perm x l : NoDup l -> x ∈ l -> l ≡ₚ x :: set_remove x l.
Proof.
  intros Hn Hx. apply elem_of_list_split in Hx as (l1 & l2 & ->).
  apply NoDup_app in Hn as (Hn1 & Hd & Hn2). apply NoDup_cons in Hn2 as [Hx2 Hn2].
  assert (Hx1 : x ∉ l1) by (intros Hi; apply (Hd x Hi); left).
  unfold set_remove. rewrite filter_app, filter_cons, decide_False by tauto.
  rewrite !filter_all; [rewrite Permutation_middle; reflexivity| |];
    apply Forall_forall; intros y Hy ->; contradiction.
Qed.
Lemma set_remove_notin x l : x ∉ l -> set_remove x l = l.
Proof. intros H. apply filter_all. apply Forall_forall. intros y Hy ->. contradiction. Qed.

Lemma foldl_insert_spec l : forall s, NoDup s ->
  NoDup (foldl (fun s i => set_insert i s) s l) /\ forall x, x ∈ foldl (fun s i => set_insert i s) s l <-> x ∈ s \/ x ∈ l.
Proof.
  induction l as [|i l IH]; intros s Hs; cbn [foldl].
  - split; [exact Hs|]. intros x. rewrite elem_of_nil. tauto.
  - destruct (IH (set_insert i s)) as [H1 H2]; [unfold set_insert; case_decide; [auto|constructor; auto]|].
    split; [exact H1|]. intros x. rewrite H2, elem_of_cons. unfold set_insert. case_decide; [|rewrite elem_of_cons]; intuition (subst; auto).
Qed.

Lemma NoDup_same_perm (l k : list nat) : NoDup l -> NoDup k -> (forall x, x ∈ l <-> x ∈ k) -> l ≡ₚ k.
Proof. intros. apply NoDup_Permutation; auto. Qed.

Definition clear_unvisited (a : ant) (n : nat) : usable n a -> a_unvisited (ant_clear a) ≡ₚ seq 0 n.
Proof.
  intros (Hs & Hn & Hf). cbn [ant_clear a_unvisited]. rewrite Hs.
  destruct (foldl_insert_spec (seq 0 n) (a_unvisited a) Hn) as [H1 H2].
  apply NoDup_same_perm; [exact H1|apply NoDup_seq|]. intros x. rewrite H2, elem_of_seq. rewrite Forall_forall in Hf.
  split; [intros [Hx|Hx]; [apply Hf in Hx|]; lia|auto].
Qed.

(** The invariant of a walking ant. *)
Definition walking (n : nat) (a : ant) : Prop :=
  a_size a = n /\ a_path a <> [] /\
  if a_stuck a then exists q x, a_path a = q ++ [x] /\ last q = Some x /\ q ++ a_unvisited a ≡ₚ seq 0 n
  else a_path a ++ a_unvisited a ≡ₚ seq 0 n.

Lemma walking_usable n a : walking n a -> usable n a.
Proof.
  intros (Hs & Hp & H). split; [exact Hs|].
  assert (X : exists q, q ++ a_unvisited a ≡ₚ seq 0 n) by (destruct (a_stuck a); [destruct H as (q & x & _ & _ & H)|]; eauto).
  destruct X as [q X]. assert (Hn : NoDup (q ++ a_unvisited a)) by (rewrite X; apply NoDup_seq).
  apply NoDup_app in Hn as (_ & _ & Hn). split; [exact Hn|]. apply Forall_forall. intros v Hv.
  assert (Hi : v ∈ q ++ a_unvisited a) by (apply elem_of_app; auto). rewrite X in Hi. apply elem_of_seq in Hi. lia.
Qed.

Lemma start_walking n a a0 : usable n a -> ant_start (ant_clear a) = Ok a0 -> walking n a0 /\ a_stuck a0 = false /\ length (a_path a0) = 1.
Proof.
  intros Hu H. pose proof (clear_unvisited a n Hu) as Hp. unfold ant_start in H.
  apply obind_Ok in H as ([st r] & Hg & H). apply gen_range_Ok in Hg. injection H as <-. destruct Hu as (Hs & _ & _).
  cbn [a_path a_stuck ant_clear]. split; [|split; reflexivity].
  split; [exact Hs|]. split; [discriminate|]. cbn [a_stuck ant_clear a_path a_unvisited app].
  change (foldl _ _ _) with (a_unvisited (ant_clear a)). rewrite <- Hp. symmetry. apply set_remove_perm.
  - rewrite Hp. apply NoDup_seq.
  - rewrite Hp. apply elem_of_seq. cbn [ant_clear a_size] in Hg. lia.
Qed.

Lemma start_ok n a : usable n a -> 0 < n -> exists a0, ant_start (ant_clear a) = Ok a0.
Proof.
  intros (Hs & _) Hn. unfold ant_start. cbn [ant_clear a_size]. destruct (gen_range_is_Ok 0 (a_size a) (a_rng (ant_clear a))) as (v & Hv & _); [lia|].
  rewrite Hv. cbn. eauto.
Qed.

(** ** Choosing *)
Lemma spin_in row random order next v : spin row random order next = Ok v -> v = next \/ v ∈ order.
Proof.
  revert random. induction order as [|u order IH]; intros random H; cbn [spin] in H; [injection H as <-; auto|].
  apply obind_Ok in H as (g & Hg & H). cbn beta zeta in H. destruct (fle (fsub random g) f0).
  - injection H as <-. right. left.
  - destruct (IH _ H); [auto|right; right; auto].
Qed.
Lemma roulette_in row order last r v r' : roulette row order last r = Ok (v, r') -> v = last \/ v ∈ order.
Proof.
  intros H. apply obind_Ok in H as (s & _ & H). apply obind_Ok in H as ([d r1] & _ & H). apply obind_Ok in H as (w & Hw & H).
  injection H as <- <-. eapply spin_in; eauto.
Qed.
Lemma exploit_fold_in row order : forall st st',
  ofold (fun (st : nat * f64) v => g ← row v; Ok (if flt (snd st) g then (v, g) else st)) st order = Ok st' -> fst st' = fst st \/ fst st' ∈ order.
Proof.
  induction order as [|u order IH]; intros st st' H; cbn [ofold] in H; [injection H as <-; auto|].
  apply obind_Ok in H as (st1 & H1 & H). apply obind_Ok in H1 as (g & Hg & H1). injection H1 as <-.
  destruct (IH _ _ H) as [E|E]; [|right; right; exact E]. rewrite E. destruct (flt (snd st) g); [right; left|left; reflexivity].
Qed.
Lemma exploit_in row order last v : exploit row order last = Ok v -> v = last \/ v ∈ order.
Proof.
  intros H. apply obind_Ok in H as ([w x] & H1 & H). injection H as <-. apply exploit_fold_in in H1. exact H1.
Qed.

(** What one step does. *)
Lemma step_cases g a l v a' : ant_step g a = Ok (l, v, a') ->
  last (a_path a) = Some l /\
  ((a_stuck a = true /\ v = l /\ a' = a) \/
   (a_stuck a = false /\ a_unvisited a <> [] /\ (v = l \/ v ∈ a_unvisited a) /\ a_path a' = a_path a ++ [v] /\ a_size a' = a_size a /\
    a_unvisited a' = set_remove v (a_unvisited a) /\ a_stuck a' = bool_decide (v = l))).
Proof.
  unfold ant_step. intros H. apply obind_Ok in H as (l0 & Hl & H). apply unwrap_Ok in Hl.
  destruct (a_stuck a) eqn:Es.
  - injection H as <- <- <-. split; [exact Hl|]. left. auto.
  - apply obind_Ok in H as ([] & _ & H). apply obind_Ok in H as ([] & H2 & H). apply rassert_Ok, bool_decide_eq_true in H2.
    apply obind_Ok in H as ([order h] & Hsh & H). apply shuffle_perm in Hsh. apply obind_Ok in H as ([w r] & Hw & H).
    injection H as <- <- <-. split; [exact Hl|]. right. cbn [a_path a_unvisited a_stuck a_size]. split_and!; auto.
    assert (X : w = l0 \/ w ∈ order); [|rewrite Hsh in X; exact X].
    destruct (a_rate a) as [rate|].
    + destruct (gen_f64 (a_rng a)) as [u r0]. destruct (flt u rate); [|eapply roulette_in; eauto].
      apply obind_Ok in Hw as (w' & Hw & H). injection H as <- <-. eapply exploit_in; eauto.
    + eapply roulette_in; eauto.
Qed.

Lemma step_walking n g a l v a' : walking n a -> ant_step g a = Ok (l, v, a') ->
  walking n a' /\ (a_stuck a' = false -> a_stuck a = false /\ length (a_path a') = length (a_path a) + 1) /\
  (a_stuck a = false -> length (a_path a') = length (a_path a) + 1).
Proof.
  intros (Hs & Hp & Hw) H. destruct (step_cases _ _ _ _ _ H) as [Hl [(Es & -> & ->)|(Es & Hne & Hv & Ep & Esz & Eu & Est)]].
  - split; [|split; congruence]. split_and!; auto.
  - rewrite Es in Hw. rewrite Ep, app_length. cbn [length].
    assert (Hin : l ∈ a_path a) by (apply last_Some in Hl as [q ->]; apply elem_of_app; right; left).
    assert (Hnd : NoDup (a_path a ++ a_unvisited a)) by (rewrite Hw; apply NoDup_seq).
    apply NoDup_app in Hnd as (Hn1 & Hd & Hn2).
    split; [|split; auto]. split; [congruence|]. split; [rewrite Ep; destruct (a_path a); discriminate|]. rewrite Est, Eu, Ep.
    case_bool_decide as E.
    + subst v. exists (a_path a), l. split; [reflexivity|]. split; [exact Hl|]. rewrite set_remove_notin; [exact Hw|auto].
    + destruct Hv as [|Hv]; [congruence|]. rewrite <- app_assoc. cbn [app]. rewrite <- (set_remove_perm v) by auto. exact Hw.
Qed.

Lemma walk_walking n gs : forall a a', walking n a -> walk gs a = Ok a' ->
  walking n a' /\ (a_stuck a' = false -> a_stuck a = false /\ length (a_path a') = length (a_path a) + length gs).
Proof.
  induction gs as [|g gs IH]; intros a a' Hw H; unfold walk in H; cbn [ofold] in H.
  - injection H as <-. split; [exact Hw|]. intros E. cbn. split; [exact E|lia].
  - apply obind_Ok in H as (a1 & H1 & H). apply obind_Ok in H1 as ([[l v] a2] & H1 & E). injection E as ->.
    destruct (step_walking n g a l v a1 Hw H1) as (Hw1 & Hl1 & _).
    destruct (IH a1 a' Hw1 H) as [Hw2 Hl2]. split; [exact Hw2|]. intros E. destruct (Hl2 E) as [E1 L1]. destruct (Hl1 E1) as [E2 L2].
    split; [exact E2|]. cbn [length]. lia.
Qed.

Lemma walking_complete n a : walking n a -> a_stuck a = false -> length (a_path a) = n -> tour n (a_path a).
Proof.
  intros (_ & _ & Hw) Es Hl. rewrite Es in Hw. pose proof (Permutation_length Hw) as L. rewrite app_length, seq_length in L.
  destruct (a_unvisited a); [|cbn in L; lia]. rewrite app_nil_r in Hw. exact Hw.
Qed.

(** ** Theorems about a single ant *)
Lemma walk_partition n a a0 gs a' : usable n a -> ant_start (ant_clear a) = Ok a0 -> walk gs a0 = Ok a' ->
  usable n a' /\
  (a_stuck a' = false -> a_path a' ++ a_unvisited a' ≡ₚ seq 0 n) /\
  (a_stuck a' = true -> broken n (a_path a') /\ exists q x, a_path a' = q ++ [x] /\ q ++ a_unvisited a' ≡ₚ seq 0 n).
Proof.
  intros Hu H0 H. destruct (start_walking n a a0 Hu H0) as (Hw & _ & _). destruct (walk_walking n gs a0 a' Hw H) as [Hw' _].
  split; [apply walking_usable; exact Hw'|]. destruct Hw' as (_ & _ & Hw'). destruct (a_stuck a'); split; intros E; try discriminate; auto.
  destruct Hw' as (q & x & Ep & Hl & Hq). split; [|eauto]. exists q, x.
  assert (Hn : NoDup (q ++ a_unvisited a')) by (rewrite Hq; apply NoDup_seq). apply NoDup_app in Hn as (Hn & _). split_and!; auto.
  apply Forall_forall. intros v Hv. assert (Hi : v ∈ q ++ a_unvisited a') by (apply elem_of_app; auto). rewrite Hq in Hi. apply elem_of_seq in Hi. lia.
Qed.
Lemma walk_tour n a a0 gs a' : usable n a -> ant_start (ant_clear a) = Ok a0 -> walk gs a0 = Ok a' ->
  length gs = n - 1 -> 0 < n -> a_stuck a' = false -> tour n (a_path a').
Proof.
  intros Hu H0 H Hg Hn Es. destruct (start_walking n a a0 Hu H0) as (Hw & _ & L0). destruct (walk_walking n gs a0 a' Hw H) as [Hw' HL].
  apply walking_complete; auto. destruct (HL Es) as [_ HL']. lia.
Qed.
Lemma stuck_stays g a l v a' : a_stuck a = true -> ant_step g a = Ok (l, v, a') -> a' = a /\ v = l /\ last (a_path a) = Some l.
Proof. intros Es H. destruct (step_cases _ _ _ _ _ H) as [Hl [(_ & -> & ->)|(E & _)]]; [auto|congruence]. Qed.

(** ** AntSystemAB *)
Lemma ant_steps_walk n g : forall a, ant_steps n g a = walk (replicate n g) a.
Proof.
  induction n as [|n IH]; intros a; [reflexivity|]. cbn [ant_steps replicate]. unfold walk. cbn [ofold].
  destruct (ant_step g a) as [[[l v] a1]| |]; [|reflexivity|reflexivity]. cbn [mbind outcome_bind]. apply IH.
Qed.
Lemma as_loop_spec n g : 0 < n -> forall ants paths ants', Forall (usable n) ants -> as_loop n g ants = Ok (paths, ants') ->
  Forall (tour n) paths /\ Forall (usable n) ants' /\ length ants' = length ants /\
  paths = a_path <$> take (length paths) ants' /\
  Forall (fun a => a_stuck a = false) (take (length paths) ants') /\
  (length paths = length ants \/ exists a, ants' !! length paths = Some a /\ a_stuck a = true /\
     drop (length paths + 1) ants' = drop (length paths + 1) ants).
Proof.
  intros Hn. induction ants as [|a ants IH]; intros paths ants' Hu H; cbn [as_loop] in H.
  - injection H as <- <-. split_and!; auto; constructor.
  - inversion_clear Hu as [|? ? Ha Hus].
    apply obind_Ok in H as (a0 & H0 & H). apply obind_Ok in H as (a1 & H1 & H). rewrite ant_steps_walk in H1.
    destruct (walk_partition n a a0 _ a1 Ha H0 H1) as (Hu1 & _ & _).
    destruct (a_stuck a1) eqn:Es.
    + injection H as <- <-. cbn [length take drop]. split_and!; auto. right. exists a1. cbn. auto.
    + apply obind_Ok in H as ([ps as'] & H2 & H). injection H as <- <-.
      destruct (IH _ _ Hus H2) as (HT & HU & HL & HP & HS & HE). cbn [length take drop]. split_and!; auto.
      * constructor; [|exact HT]. apply (walk_tour n a a0 (replicate (n - 1) g) a1); auto. apply replicate_length.
      * cbn. f_equal. exact HP.
      * destruct HE as [HE|(b & Hb & Eb & HD)]; [left; lia|right]. exists b. auto.
Qed.
Lemma ant_system_spec op n ants pheromone paths ants' p' : 0 < n -> nrows pheromone = n -> Forall (usable n) ants ->
  ant_system op ants pheromone = Ok (paths, ants', p') ->
  p' = pheromone /\ Forall (tour n) paths /\ Forall (usable n) ants' /\ length ants' = length ants /\
  paths = a_path <$> take (length paths) ants' /\
  Forall (fun a => a_stuck a = false) (take (length paths) ants') /\
  (length paths = length ants \/ exists a, ants' !! length paths = Some a /\ a_stuck a = true /\
     drop (length paths + 1) ants' = drop (length paths + 1) ants).
Proof.
  intros Hn Hr Hu H. apply obind_Ok in H as (g & _ & H). apply obind_Ok in H as ([ps as'] & H & E). injection E as <- <- <-.
  rewrite Hr in H. split; [reflexivity|]. eapply as_loop_spec; eauto.
Qed.

(** ** AntColonySystemAB *)
(** [k] steps have been made; a stuck ant got stuck in some step. *)
Definition acs_ant (n k : nat) (a : ant) : Prop := walking n a /\ (a_stuck a = false -> length (a_path a) = k + 1).
Lemma acs_round_spec n k g : forall ants paths ants', Forall (acs_ant n k) ants -> acs_round g ants = Ok (paths, ants') ->
  Forall (acs_ant n (k + 1)) ants' /\ length ants' = length ants /\
  paths = omap (fun '(a, a') => if a_stuck a then None else Some (a_path a')) (zip ants ants') /\
  Forall (fun p => exists a, acs_ant n (k + 1) a /\ a_path a = p /\ length p = k + 2) paths.
Proof.
  induction ants as [|a ants IH]; intros paths ants' Hu H; cbn [acs_round] in H.
  - injection H as <- <-. split_and!; auto.
  - inversion_clear Hu as [|? ? [Hw Hl] Hus]. destruct (a_stuck a) eqn:Es.
    + apply obind_Ok in H as ([ps as'] & H1 & H). injection H as <- <-. destruct (IH _ _ Hus H1) as (HA & HL & HP & HF).
      split_and!; auto.
      * constructor; [split; [exact Hw|congruence]|exact HA].
      * cbn. lia.
      * cbn. rewrite Es. exact HP.
    + apply obind_Ok in H as ([[l v] a1] & Hst & H). apply obind_Ok in H as ([ps as'] & H1 & H). injection H as <- <-.
      destruct (IH _ _ Hus H1) as (HA & HL & HP & HF). destruct (step_walking n g a l v a1 Hw Hst) as (Hw1 & Hl1 & Hl2).
      specialize (Hl eq_refl). specialize (Hl2 Es).
      assert (HA1 : acs_ant n (k + 1) a1) by (split; [exact Hw1|lia]).
      split_and!; auto.
      * cbn. lia.
      * cbn. rewrite Es. f_equal. exact HP.
      * constructor; [|exact HF]. exists a1. split_and!; auto. lia.
Qed.
Lemma acs_rounds_spec n op local rounds : forall k paths ants p paths' ants' p',
  Forall (acs_ant n k) ants ->
  Forall (fun q => exists a, acs_ant n k a /\ a_path a = q /\ length q = k + 1) paths ->
  acs_rounds op local rounds paths ants p = Ok (paths', ants', p') ->
  Forall (acs_ant n (k + rounds)) ants' /\ length ants' = length ants /\
  Forall (fun q => exists a, acs_ant n (k + rounds) a /\ a_path a = q /\ length q = k + rounds + 1) paths'.
Proof.
  induction rounds as [|rounds IH]; intros k paths ants p paths' ants' p' Ha Hp H; cbn [acs_rounds] in H.
  - injection H as <- <- <-. rewrite Nat.add_0_r. auto.
  - apply obind_Ok in H as (g & _ & H). apply obind_Ok in H as ([ps as'] & H1 & H). apply obind_Ok in H as (p1 & _ & H).
    destruct (acs_round_spec n k g _ _ _ Ha H1) as (HA & HL & _ & HF).
    destruct (IH (k + 1) _ _ _ _ _ _ HA ltac:(eapply Forall_impl; [exact HF|]; intros q (a & ? & ? & ?); exists a; split_and!; auto; lia) H) as (HA' & HL' & HF').
    replace (k + 1 + rounds) with (k + S rounds) in * by lia. split_and!; auto. lia.
Qed.
Lemma omapM_start n ants ants0 : Forall (usable n) ants -> omapM (fun a => ant_start (ant_clear a)) ants = Ok ants0 ->
  Forall (acs_ant n 0) ants0 /\ length ants0 = length ants.
Proof.
  revert ants0. induction ants as [|a ants IH]; intros ants0 Hu H; cbn [omapM] in H; [injection H as <-; auto|].
  inversion_clear Hu as [|? ? Ha Hus]. apply obind_Ok in H as (a0 & H0 & H). apply obind_Ok in H as (as' & H1 & H). injection H as <-.
  destruct (IH _ Hus H1) as [HA HL]. destruct (start_walking n a a0 Ha H0) as (Hw & Es & Hl). split; [|cbn; lia].
  constructor; [|exact HA]. split; [exact Hw|]. lia.
Qed.
Lemma ant_colony_system_spec op local n ants pheromone paths ants' p' : nrows pheromone = n -> Forall (usable n) ants ->
  ant_colony_system op local ants pheromone = Ok (paths, ants', p') ->
  Forall (usable n) ants' /\ length ants' = length ants /\
  Forall (fun q => length q = n /\ (tour n q \/ broken n q)) paths /\ (n = 1 -> paths = []).
Proof.
  intros Hr Hu H. apply obind_Ok in H as (ants0 & H0 & H). rewrite Hr in H. destruct (omapM_start n ants ants0 Hu H0) as [HA HL].
  destruct (acs_rounds_spec n op local (n - 1) 0 [] ants0 pheromone paths ants' p' HA ltac:(constructor) H) as (HA' & HL' & HF).
  split_and!.
  - eapply Forall_impl; [exact HA'|]. intros a [Hw _]. apply walking_usable. exact Hw.
  - lia.
  - destruct n as [|n].
    { cbn in H. injection H as <- _ _. constructor. }
    eapply Forall_impl; [exact HF|]. intros q (a & [Hw Hl] & <- & Hlq). split; [lia|].
    destruct (a_stuck a) eqn:Es; [right|left].
    + destruct Hw as (_ & _ & Hw). rewrite Es in Hw. destruct Hw as (q & x & Ep & Hlast & Hq). exists q, x.
      assert (Hn : NoDup (q ++ a_unvisited a)) by (rewrite Hq; apply NoDup_seq). apply NoDup_app in Hn as (Hn & _). split_and!; auto.
      apply Forall_forall. intros v Hv. assert (Hi : v ∈ q ++ a_unvisited a) by (apply elem_of_app; auto). rewrite Hq in Hi. apply elem_of_seq in Hi. lia.
    + apply walking_complete; auto. lia.
  - intros ->. cbn in H. injection H as <- _ _. reflexivity.
Qed.
