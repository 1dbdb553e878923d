(** * Proofs about the main loop and about whole runs *)
From Verif Require Export AcoAntProofs AcoChoiceProofs AcoGradeProofs.
From Verif Require Import F64R.
Open Scope nat_scope.

Section Run.
Context {Ph S T : Type} (c : aco Ph S T).
Lemma iterate_Ok p s evs p' s' : aco_iterate c p s = Ok (evs, p', s') ->
  exists sols b, one_iteration c p s sols b p' s' /\ evs = [AcoCurrentBest b; AcoPheromoneUpdate p'].
Proof.
  unfold aco_iterate. intros H. apply obind_Ok in H as ([[paths p1] s1] & H1 & H). apply obind_Ok in H as (us & H2 & H).
  apply obind_Ok in H as ([sols s2] & H3 & H). apply obind_Ok in H as (b & H4 & H). apply obind_Ok in H as ([p2 s3] & H5 & H). injection H as <- <- <-.
  exists sols, b. split; [|reflexivity]. exists paths, p1, s1, us, s2. split_and!; auto; [apply find_best_in, H4|]. intros Hn. apply find_best_max; auto.
Qed.
Lemma loop_Ok fuel : forall p s t evs p' s', aco_loop c fuel p s t = Ok (evs, p', s') ->
  exists l, evs ++ [AcoEnd] = protocol l /\ iterations c p s l p' s' /\ stops_after c t p l.
Proof.
  induction fuel as [|fuel IH]; intros p s t evs p' s' H; cbn [aco_loop] in H; [discriminate|]. destruct (tc_check c t p) as [stop t1] eqn:Et. destruct stop.
  - injection H as <- <- <-. exists []. split; [reflexivity|]. split; [constructor|]. econstructor; eauto.
  - apply obind_Ok in H as ([[evs1 p1] s1] & H1 & H). apply obind_Ok in H as ([[evs2 p2] s2] & H2 & H). injection H as <- <- <-.
    destruct (iterate_Ok _ _ _ _ _ H1) as (sols & b & Hit & ->). destruct (IH _ _ _ _ _ _ H2) as (l & El & Hl & Hs).
    exists ((b, p1) :: l). split; [|split; [econstructor; eauto|econstructor; eauto]].
    unfold protocol. cbn [map concat]. rewrite <- app_assoc. cbn [app]. do 4 f_equal. rewrite El. reflexivity.
Qed.
Lemma run_Ok fuel p s t evs p' s' : aco_run c fuel p s t = Ok (evs, p', s') ->
  exists l, evs = protocol l /\ iterations c p s l p' s' /\ stops_after c (tc_init c t) p l.
Proof.
  unfold aco_run. intros H. apply obind_Ok in H as ([[evs1 p1] s1] & H1 & H). injection H as <- <- <-. apply (loop_Ok _ _ _ _ _ _ _ H1).
Qed.
(** An iteration without a solution panics. *)
Lemma iterate_empty p s p1 s1 ungraded s2 paths : colony c p s = Ok (paths, p1, s1) -> omapM from_path paths = Ok ungraded -> grader c ungraded s1 = Ok ([], s2) ->
  aco_iterate c p s = Panic.
Proof. intros H1 H2 H3. unfold aco_iterate. rewrite H1. cbn [mbind outcome_bind]. rewrite H2. cbn [mbind outcome_bind]. rewrite H3. reflexivity. Qed.
(** An invariant of the iterations makes the whole run succeed. *)
Lemma loop_total (I : Ph -> S -> Prop) :
  (forall p s, I p s -> exists evs p' s', aco_iterate c p s = Ok (evs, p', s') /\ I p' s') ->
  forall fuel p s t, I p s -> (exists evs p' s', aco_loop c fuel p s t = Ok (evs, p', s') /\ I p' s') \/ aco_loop c fuel p s t = Diverge.
Proof.
  intros HI. induction fuel as [|fuel IH]; intros p s t Hps; [right; reflexivity|]. cbn [aco_loop]. destruct (tc_check c t p) as [[] t1].
  - left. eexists _, _, _. split; [reflexivity|exact Hps].
  - destruct (HI p s Hps) as (evs & p1 & s1 & -> & H1). cbn [mbind outcome_bind]. destruct (IH p1 s1 t1 H1) as [(evs2 & p2 & s2 & -> & H2)|E].
    + left. cbn [mbind outcome_bind]. eexists _, _, _. split; [reflexivity|exact H2].
    + right. rewrite E. reflexivity.
Qed.
End Run.

(** ** IterationCond *)
Section Limit.
Context {Ph S : Type} (col : Ph -> S -> outcome (list (list nat) * Ph * S)) (gr : list solution -> S -> outcome (list solution * S))
  (up : Ph -> list solution -> S -> outcome (Ph * S)).
Definition limited : aco Ph S (nat * nat) := Aco Ph S (nat * nat) col gr up ic_init ic_check.
Lemma limited_stops k : forall i p l, i <= k -> stops_after limited (i, k) p l -> length l = k - i.
Proof.
  intros i p l Hi H. remember (i, k) as t eqn:Et. revert i Hi Et. induction H as [t p t' E|t p t' b q l E H IH]; intros i Hi ->.
  - cbn [limited tc_check ic_check fst snd] in E. injection E as E _. apply Nat.ltb_lt in E. cbn [length]. lia.
  - cbn [limited tc_check ic_check fst snd] in E. injection E as E <-. apply Nat.ltb_ge in E. cbn [length]. rewrite (IH (i + 1)); [lia|lia|reflexivity].
Qed.
Lemma limited_run k fuel p s i evs p' s' : aco_run limited fuel p s (i, k) = Ok (evs, p', s') ->
  exists l, length l = k /\ evs = protocol l /\ iterations limited p s l p' s'.
Proof.
  intros H. apply run_Ok in H as (l & He & Hl & Hs). exists l. split; [|auto]. apply (limited_stops k 0) in Hs; [lia|lia].
Qed.
Lemma limited_loop_fuel k : forall fuel i p s, i <= k -> k - i < fuel -> aco_loop limited fuel p s (i, k) <> Diverge \/ exists q s0, aco_iterate limited q s0 = Diverge.
Proof.
  induction fuel as [|fuel IH]; intros i p s Hi Hf; [lia|]. cbn [aco_loop]. unfold limited at 1. cbn [tc_check ic_check fst snd].
  destruct (Nat.ltb_spec k (i + 1)); [left; discriminate|].
  destruct (aco_iterate limited p s) as [[[evs p1] s1]| |] eqn:E; [|left; discriminate|right; eauto]. cbn [mbind outcome_bind].
  destruct (IH (i + 1) p1 s1) as [N|X]; [lia|lia| |auto]. left. destruct (aco_loop limited fuel p1 s1 (i + 1, k)) as [[[]]| |]; [discriminate|discriminate|congruence].
Qed.
Lemma limited_total (I : Ph -> S -> Prop) k fuel p s i : k < fuel -> I p s ->
  (forall p s, I p s -> exists evs p' s', aco_iterate limited p s = Ok (evs, p', s') /\ I p' s') ->
  exists evs p' s', aco_run limited fuel p s (i, k) = Ok (evs, p', s').
Proof.
  intros Hf H0 HI. unfold aco_run.
  assert (X : exists evs p' s', aco_loop limited fuel p s (0, k) = Ok (evs, p', s')).
  { assert (G : forall fuel i p s, i <= k -> k - i < fuel -> I p s -> exists evs p' s', aco_loop limited fuel p s (i, k) = Ok (evs, p', s')).
    { clear p s i H0 Hf fuel. induction fuel as [|fuel IH]; intros i p s Hi Hf H0; [lia|]. cbn [aco_loop]. unfold limited at 1. cbn [tc_check ic_check fst snd].
      destruct (Nat.ltb_spec k (i + 1)); [eauto|]. destruct (HI p s H0) as (evs & p1 & s1 & -> & H1). cbn [mbind outcome_bind].
      destruct (IH (i + 1) p1 s1) as (evs2 & p2 & s2 & ->); [lia|lia|exact H1|]. cbn. eauto. }
    apply G; [lia|lia|exact H0]. }
  destruct X as (evs & p1 & s1 & E). change (tc_init limited (i, k)) with (0, k). rewrite E. cbn. eauto.
Qed.
End Limit.
(** ** TimeCond *)
Section Timed.
Context {Ph S : Type} (col : Ph -> S -> outcome (list (list nat) * Ph * S)) (gr : list solution -> S -> outcome (list solution * S))
  (up : Ph -> list solution -> S -> outcome (Ph * S)) (ck : nat -> N).
Definition timed : aco Ph S (nat * N) := Aco Ph S (nat * N) col gr up time_init (time_check ck).
Lemma timed_stops limit : forall i p l, stops_after timed (i, limit) p l ->
  (limit < ck (i + length l))%N /\ forall j, j < length l -> (ck (i + j) <= limit)%N.
Proof.
  intros i p l H. remember (i, limit) as t eqn:Et. revert i Et. induction H as [t p t' E|t p t' b q l E H IH]; intros i ->.
  - cbn [timed tc_check time_check fst snd] in E. injection E as E _. apply N.ltb_lt in E. cbn [length]. rewrite Nat.add_0_r. split; [exact E|]. intros j Hj. inversion Hj.
  - cbn [timed tc_check time_check fst snd] in E. injection E as E <-. apply N.ltb_ge in E. destruct (IH (i + 1) eq_refl) as [H1 H2]. cbn [length]. split.
    + replace (i + Datatypes.S (length l)) with (i + 1 + length l) by lia. exact H1.
    + intros [|j] Hj; [rewrite Nat.add_0_r; exact E|]. replace (i + Datatypes.S j) with (i + 1 + j) by lia. apply H2. lia.
Qed.
Lemma timed_run limit fuel p s i evs p' s' : aco_run timed fuel p s (i, limit) = Ok (evs, p', s') ->
  exists l, evs = protocol l /\ iterations timed p s l p' s' /\ (limit < ck (length l))%N /\ forall j, j < length l -> (ck j <= limit)%N.
Proof.
  intros H. apply run_Ok in H as (l & He & Hl & Hs). exists l. split; [exact He|]. split; [exact Hl|]. apply (timed_stops limit 0) in Hs. exact Hs.
Qed.
End Timed.

(** ** from_path *)
Lemma mset_fold_ok m es : Forall (fun e => in_matrix m e.1 e.2 /\ in_matrix m e.2 e.1) es ->
  exists m', ofold (fun m '(i, j) => m ← mset m i j f1; mset m j i f1) m es = Ok m'.
Proof.
  revert m. induction es as [|[i j] es IH]; intros m H; cbn [ofold]; [eauto|]. inversion_clear H as [|? ? [H1 H2] Hs]. cbn [fst snd] in *.
  rewrite (proj2 (mset_Ok _ _ _ _ _) (conj H1 eq_refl)). cbn [mbind outcome_bind].
  rewrite (proj2 (mset_Ok _ _ _ _ _) (conj (H2 : in_matrix (upd m i j _) j i) eq_refl)). cbn [mbind outcome_bind]. apply IH.
  eapply Forall_impl; [exact Hs|]. intros e He. exact He.
Qed.
Lemma from_path_ok p : Forall (fun v => v < length p) p -> from_path p = Ok (Sol p f0).
Proof.
  intros H. unfold from_path. destruct (mset_fold_ok (mrepeat (length p) (length p) f0) (windows p)) as [m ->]; [|reflexivity].
  apply windows_range in H. eapply Forall_impl; [exact H|]. intros e [? ?]. unfold in_matrix, mrepeat. cbn [nrows ncols]. lia.
Qed.
Lemma from_path_Ok p s : from_path p = Ok s -> s = Sol p f0.
Proof. unfold from_path. intros H. apply obind_Ok in H as (m & _ & H). injection H as <-. reflexivity. Qed.
Lemma from_paths_Ok paths sols : omapM from_path paths = Ok sols -> map sol_path sols = paths.
Proof.
  revert sols. induction paths as [|p paths IH]; intros sols H; cbn [omapM] in H; [injection H as <-; reflexivity|].
  apply obind_Ok in H as (s & Hs & H). apply obind_Ok in H as (ss & Hss & H). injection H as <-. apply from_path_Ok in Hs as ->. cbn. f_equal. auto.
Qed.
Lemma from_paths_ok n paths : Forall (tour n) paths -> exists sols, omapM from_path paths = Ok sols /\ map sol_path sols = paths.
Proof.
  induction 1 as [|p paths Hp _ (ss & IH & E)]; cbn [omapM]; [eexists; split; reflexivity|]. destruct (tour_facts n p Hp) as (_ & Hl & HF).
  rewrite from_path_ok by (rewrite Hl; exact HF). cbn [mbind outcome_bind]. rewrite IH. cbn [mbind outcome_bind]. eexists. split; [reflexivity|]. cbn. f_equal. exact E.
Qed.
