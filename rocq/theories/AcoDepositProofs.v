(** * Proofs: exactly what each pheromone update does to each edge *)
From Verif Require Export AcoPheromoneProofs AcoGradeProofs.
From Verif Require Import F64R AcoGroupProofs SusProofs.
From Coq Require Import Reals Lra.
Open Scope nat_scope.

Lemma neighbours_dec p a b : {neighbours p a b} + {~ neighbours p a b}.
Proof.
  destruct (decide ((a, b) ∈ windows p)) as [H|H]; [left; left; apply windows_follows, H|].
  destruct (decide ((b, a) ∈ windows p)) as [H'|H']; [left; right; apply windows_follows, H'|].
  right. intros [X|X]; apply windows_follows in X; auto.
Qed.
Definition simple (p : list nat) : Prop := NoDup p /\ (p = [] \/ 3 <= length p).
Lemma tour_simple n s : 3 <= n -> tour_or_none n s -> simple (sol_path s).
Proof.
  intros Hn [->|H]; [split; [constructor|auto]|]. destruct (tour_facts n _ H) as (ND & L & _). split; [exact ND|]. right. lia.
Qed.
Lemma neighbours_one' p a b : simple p -> neighbours p a b -> hits a b (windows p) = 1.
Proof.
  intros [ND [->|L]] H; [|apply neighbours_one; auto]. exfalso. destruct H as [(i & H & _)|(i & H & _)]; discriminate.
Qed.
Lemma trail_deposits sols : Forall (fun s => simple (sol_path s)) sols -> forall a b v, after_deposits a b sols v (trail_value sols a b v).
Proof.
  induction 1 as [|s sols Hs _ IH]; intros a b v; [constructor|]. unfold trail_value. cbn [foldl].
  destruct (neighbours_dec (sol_path s) a b) as [H|H].
  - rewrite (neighbours_one' _ _ _ Hs H). apply dep_on; [exact H|]. apply IH.
  - rewrite (not_neighbours_zero _ _ _ H). apply dep_off; [exact H|]. apply IH.
Qed.
Lemma after_deposits_snoc a b sols s v v1 v2 : after_deposits a b sols v v1 -> after_deposits a b [s] v1 v2 -> after_deposits a b (sols ++ [s]) v v2.
Proof. induction 1; cbn [app]; auto; intros H'; [apply dep_on|apply dep_off]; auto. Qed.
Lemma trail1_deposits amount path m m' : simple path -> leave_trail1 amount path m = Ok m' ->
  nrows m' = nrows m /\ ncols m' = ncols m /\ forall a b, after_deposits a b [Sol path amount] (entry m a b) (entry m' a b).
Proof.
  intros Hs H. apply trail1_spec in H as (R & C & E & _). split_and!; auto. intros a b. rewrite E.
  change (deposited amount (entry m a b) (hits a b (windows path))) with (trail_value [Sol path amount] a b (entry m a b)).
  apply trail_deposits. apply Forall_cons. split; [exact Hs|constructor].
Qed.

Lemma as_deposits rate m sols m' n : 3 <= n -> Forall (fun s => tour n (sol_path s)) sols -> as_update rate m sols = Ok m' ->
  nrows m' = nrows m /\ ncols m' = ncols m /\ forall a b, after_deposits a b sols (fmul (entry m a b) (fsub f1 rate)) (entry m' a b).
Proof.
  intros Hn Hs H. apply trail_spec in H as (R & C & E). split_and!; auto. intros a b. rewrite E. apply trail_deposits.
  eapply Forall_impl; [exact Hs|]. intros s Ht. apply (tour_simple n); [exact Hn|]. right. exact Ht.
Qed.
Lemma policy_tour k n best sols : tour_or_none n best -> Forall (fun x => tour n (sol_path x)) sols -> tour_or_none n (apply_policy k best sols).
Proof.
  intros Hb Hs. rewrite Forall_forall in Hs. destruct k; cbn [apply_policy].
  - unfold iteration_best. destruct (find_best_sol sols) as [b| |] eqn:E; [|exact Hb|exact Hb]. right. apply Hs. apply find_best_in, E.
  - destruct (overall_best_cases best sols) as [->|(b & E & _ & ->)]; [exact Hb|]. right. apply Hs. apply find_best_in, E.
Qed.
Lemma elitist_deposits rate m sols best m' best' n : 3 <= n -> Forall (fun s => tour n (sol_path s)) sols -> tour_or_none n best ->
  elitist_update rate m sols best = Ok (m', best') ->
  best' = overall_best best sols /\ nrows m' = nrows m /\ ncols m' = ncols m /\
  forall a b, after_deposits a b (sols ++ [best']) (fmul (entry m a b) (fsub f1 rate)) (entry m' a b).
Proof.
  intros Hn Hs Hb H. apply obind_Ok in H as (m1 & H1 & H). apply obind_Ok in H as (m2 & H2 & H). injection H as <- <-.
  destruct (as_deposits rate m sols m1 n Hn Hs H1) as (R1 & C1 & E1).
  apply trail1_deposits in H2 as (R2 & C2 & E2); [|apply (tour_simple n); [exact Hn|]; apply (policy_tour OverallBest); auto].
  split_and!; [reflexivity|congruence..|]. intros a b. eapply after_deposits_snoc; [apply E1|].
  replace (overall_best best sols) with (Sol (sol_path (overall_best best sols)) (sol_fitness (overall_best best sols))) by (destruct (overall_best best sols); reflexivity). apply E2.
Qed.
Lemma acs_deposits k rate m sols best m' best' n : 3 <= n -> Forall (fun s => tour n (sol_path s)) sols -> tour_or_none n best ->
  acs_update (apply_policy k) rate m sols best = Ok (m', best') ->
  best' = apply_policy k best sols /\ nrows m' = nrows m /\ ncols m' = ncols m /\
  forall a b, after_deposits a b [Sol (sol_path best') (fmul (sol_fitness best') rate)] (fmul (entry m a b) (fsub f1 rate)) (entry m' a b).
Proof.
  intros Hn Hs Hb H. apply obind_Ok in H as (m1 & H1 & H). injection H as <- <-.
  apply trail1_deposits in H1 as (R2 & C2 & E2); [|apply (tour_simple n); [exact Hn|]; apply policy_tour; auto].
  split_and!; auto.
Qed.
(** MMAS: on the best tour, in the direction of travel *)
Lemma mm_fold_exact fit lo hi es : NoDup es -> (forall a b, (a, b) ∈ es -> (b, a) ∉ es) -> forall m m', ofold (mm_step fit lo hi) m es = Ok m' ->
  forall a b, (a, b) ∈ es -> entry m' a b = fclamp (fadd (entry m a b) fit) lo hi /\ entry m' b a = entry m' a b.
Proof.
  induction es as [|e es IH]; intros ND Hd m m' H a b Hin; [inversion Hin|]. cbn [ofold] in H. apply obind_Ok in H as (m1 & H1 & H).
  apply NoDup_cons in ND as [Hn ND]. destruct (mm_step_Ok _ _ _ _ _ _ H1) as (_ & _ & R & C & E).
  assert (Hd' : forall a b, (a, b) ∈ es -> (b, a) ∉ es) by (intros x y Hx Hy; apply (Hd x y); right; auto).
  assert (HK : forall x y, hits x y es = 0 -> entry m' x y = entry m1 x y).
  { clear - H. revert m1 m' H. induction es as [|e es IH]; intros m1 m' H x y Hz; cbn [ofold] in H; [injection H as <-; reflexivity|].
    apply obind_Ok in H as (m2 & H2 & H). change (hits x y (e :: es)) with (hit x y e + hits x y es) in Hz. rewrite (IH _ _ H) by lia.
    destruct (mm_step_Ok _ _ _ _ _ _ H2) as (_ & _ & _ & _ & E). rewrite E, decide_True by lia. reflexivity. }
  apply elem_of_cons in Hin as [<-|Hin].
  - assert (N : (b, a) ∉ es) by (intros X; apply (Hd a b); [left|right; exact X]).
    rewrite !HK by (apply hits_zero; auto). rewrite !E. cbn [fst snd].
    rewrite !decide_False; [auto|..]; intros X; apply hit_zero in X; destruct X; tauto.
  - destruct (IH ND Hd' _ _ H a b Hin) as [X Y]. split; [|exact Y]. rewrite X, E, decide_True; [reflexivity|].
    destruct e as [i j]. apply hit_zero. split; intros [-> ->]; [auto|]. apply (Hd i j); [left|right; exact Hin].
Qed.
Lemma mmas_exact k rate lo hi m sols best m' best' n : 3 <= n -> Forall (fun s => tour n (sol_path s)) sols -> tour_or_none n best ->
  mmas_update (apply_policy k) rate lo hi m sols best = Ok (m', best') ->
  best' = apply_policy k best sols /\
  forall a b, follows (sol_path best') a b ->
    entry m' a b = fclamp (fadd (fmul (entry m a b) (fsub f1 rate)) (sol_fitness best')) lo hi /\ entry m' b a = entry m' a b.
Proof.
  intros Hn Hs Hb H. rewrite mmas_eq in H. apply obind_Ok in H as (m1 & H1 & H). injection H as <- <-. split; [reflexivity|].
  pose proof (tour_simple n _ Hn (policy_tour k n best sols Hb Hs)) as [ND L]. intros a b Hf.
  assert (L3 : 3 <= length (sol_path (apply_policy k best sols))).
  { destruct L as [E|L]; [|exact L]. rewrite E in Hf. destruct Hf as (i & X & _). discriminate. }
  apply windows_follows in Hf. refine (mm_fold_exact _ lo hi _ (NoDup_windows _ ND) _ _ _ H1 a b Hf).
  intros x y Hx Hy. apply windows_follows in Hx, Hy. exact (follows_antisym _ _ _ ND L3 Hx Hy).
Qed.

(** ** Signs and bounds *)
Lemma keep_rate rate : nonneg_finite rate -> fle rate f1 = true -> fvalid (fsub f1 rate) /\ ffinite (fsub f1 rate) = true /\ (0 <= f2r (fsub f1 rate) <= 1)%R.
Proof.
  intros (V & F & P) L. assert (N1 : nonneg_finite f1) by (repeat split; reflexivity).
  destruct (fsub_nonneg f1 rate N1 (conj V (conj F P)) L) as (Vs & Fs & Es & Ps). split_and!; auto.
  rewrite Es. apply fle_R in P; auto using fvalid_f0. rewrite f2r_f0 in P.
  assert (E1 : f2r f1 = 1%R) by exact f2r_f1. assert (R1 : rnd 1 = 1%R) by (rewrite <- E1; apply rnd_id; reflexivity). rewrite <- R1. apply rnd_le. lra.
Qed.
Lemma mmas_upper k rate lo hi m sols best m' best' : flt lo hi = true -> nonneg_finite rate -> fle rate f1 = true ->
  (forall i j, in_matrix m i j -> nonneg_finite (entry m i j) /\ fle (entry m i j) hi = true) ->
  fle f0 lo = true -> mmas_update (apply_policy k) rate lo hi m sols best = Ok (m', best') ->
  forall i j, in_matrix m i j -> fle f0 (entry m' i j) = true /\ fle (entry m' i j) hi = true.
Proof.
  intros Hlt Hr Hr1 Hm H0 H i j Hij. destruct (mmas_spec _ _ _ _ _ _ _ _ _ Hlt H) as (_ & _ & _ & Hon & Hoff).
  destruct (neighbours_dec (sol_path best') i j) as [N|N].
  - destruct (Hon i j N) as [A B]. split; [|exact B]. eapply fle_trans; eauto.
  - rewrite (Hoff i j N). destruct (Hm i j Hij) as ((V & F & P) & U). destruct (keep_rate rate Hr Hr1) as (Vk & Fk & Pk).
    destruct (fmul_shrinks _ _ V F P Vk Fk Pk) as (_ & _ & A & B). split; [exact A|]. eapply fle_trans; eauto.
Qed.
