(** * Proofs about pheromone updates *)
From Verif Require Export AcoModel AcoSpec.
From Verif Require Import F64R.
Open Scope nat_scope.

Lemma mget_Ok m i j v : mget m i j = Ok v <-> in_matrix m i j /\ v = entry m i j.
Proof. unfold mget, in_matrix. case_decide; split; [intros [= <-]|intros [_ ->]|discriminate|]; try tauto. Qed.
Definition upd (m : matrix) (i j : nat) (v : f64) : matrix :=
  Mat (nrows m) (ncols m) (fun a b => if decide (a = i /\ b = j) then v else entry m a b).
Lemma mset_Ok m i j v m' : mset m i j v = Ok m' <-> in_matrix m i j /\ m' = upd m i j v.
Proof. unfold mset, in_matrix, upd. case_decide; split; [intros [= <-]|intros [_ ->]|discriminate|]; try tauto. Qed.
Lemma mupd_Ok m i j f m' : mupd m i j f = Ok m' <-> in_matrix m i j /\ m' = upd m i j (f (entry m i j)).
Proof.
  unfold mupd. rewrite obind_Ok. split.
  - intros (v & Hv & H). apply mget_Ok in Hv as [_ ->]. apply mset_Ok in H as [? ->]. auto.
  - intros [Hi ->]. exists (entry m i j). rewrite mget_Ok, mset_Ok. auto.
Qed.

(** Adding [x] to [v], [k] times. *)
Definition deposited (x v : f64) (k : nat) : f64 := Nat.iter k (fun y => fadd y x) v.
Lemma deposited_add x v j k : deposited x v (j + k) = deposited x (deposited x v j) k.
Proof. unfold deposited. rewrite Nat.add_comm. induction k as [|k IH]; [reflexivity|]. cbn. f_equal. exact IH. Qed.
Lemma deposited_S x v k : deposited x v (S k) = deposited x (fadd v x) k.
Proof. change (S k) with (1 + k). rewrite deposited_add. reflexivity. Qed.

(** How often the directed edge (a, b) occurs in a list of edges, in either direction. *)
Definition hit (a b : nat) (e : nat * nat) : nat :=
  (if decide (e = (a, b)) then 1 else 0) + (if decide (e = (b, a)) then 1 else 0).
Definition hits (a b : nat) (es : list (nat * nat)) : nat := sum_list_with (hit a b) es.
Lemma hit_sym a b e : hit a b e = hit b a e.
Proof. unfold hit. lia. Qed.
Lemma hits_sym a b es : hits a b es = hits b a es.
Proof. induction es as [|e es IH]; cbn; [reflexivity|]. rewrite hit_sym. unfold hits in IH. lia. Qed.

Definition trail_step (amount : f64) (m : matrix) (e : nat * nat) : outcome matrix :=
  let '(i, j) := e in m ← mupd m i j (fun x => fadd x amount); mupd m j i (fun x => fadd x amount).
Lemma trail_step_Ok amount m e m' : trail_step amount m e = Ok m' ->
  in_matrix m e.1 e.2 /\ in_matrix m e.2 e.1 /\ nrows m' = nrows m /\ ncols m' = ncols m /\
  forall a b, entry m' a b = deposited amount (entry m a b) (hit a b e).
Proof.
  destruct e as [i j]. unfold trail_step. intros H. apply obind_Ok in H as (m1 & H1 & H). apply mupd_Ok in H1 as [Hi ->]. apply mupd_Ok in H as [Hj ->].
  cbn [upd nrows ncols entry fst snd]. split_and!; auto. intros a b. unfold hit.
  destruct (decide (a = j /\ b = i)) as [[Ea Eb]|N1].
  - rewrite (decide_True (P := (i, j) = (b, a))) by congruence. subst a b.
    destruct (decide (j = i)) as [->|N].
    + rewrite !decide_True by auto. reflexivity.
    + rewrite (decide_False (P := j = i /\ i = j)) by (intros [? ?]; congruence). rewrite (decide_False (P := (i, j) = (j, i))) by congruence. reflexivity.
  - rewrite (decide_False (P := (i, j) = (b, a))) by (intros X; injection X; intros; apply N1; auto).
    destruct (decide (a = i /\ b = j)) as [[Ea Eb]|N2].
    + subst a b. rewrite decide_True by auto. reflexivity.
    + rewrite decide_False by (intros X; injection X; intros; apply N2; auto). reflexivity.
Qed.
Lemma trail_fold amount : forall es m m', ofold (trail_step amount) m es = Ok m' ->
  nrows m' = nrows m /\ ncols m' = ncols m /\ (forall a b, entry m' a b = deposited amount (entry m a b) (hits a b es)) /\
  Forall (fun e => in_matrix m e.1 e.2 /\ in_matrix m e.2 e.1) es.
Proof.
  induction es as [|e es IH]; intros m m' H; cbn [ofold] in H.
  - injection H as <-. split_and!; auto.
  - apply obind_Ok in H as (m1 & H1 & H). destruct (trail_step_Ok _ _ _ _ H1) as (I1 & I2 & R1 & C1 & E1).
    destruct (IH _ _ H) as (R2 & C2 & E2 & F2). rewrite R1 in R2. rewrite C1 in C2. split_and!; auto.
    + intros a b. rewrite E2, E1, <- deposited_add. reflexivity.
    + constructor; [auto|]. eapply Forall_impl; [exact F2|]. intros x. unfold in_matrix. rewrite R1, C1. auto.
Qed.
Lemma leave_trail1_eq amount path m : leave_trail1 amount path m = ofold (trail_step amount) m (windows path).
Proof. reflexivity. Qed.
Lemma trail1_spec amount path m m' : leave_trail1 amount path m = Ok m' ->
  nrows m' = nrows m /\ ncols m' = ncols m /\ (forall a b, entry m' a b = deposited amount (entry m a b) (hits a b (windows path))) /\
  Forall (fun e => in_matrix m e.1 e.2 /\ in_matrix m e.2 e.1) (windows path).
Proof. rewrite leave_trail1_eq. apply trail_fold. Qed.
Lemma trail_step_ok amount m i j : in_matrix m i j -> in_matrix m j i -> exists m', trail_step amount m (i, j) = Ok m'.
Proof.
  intros H1 H2. unfold trail_step. rewrite (proj2 (mupd_Ok _ _ _ _ _) (conj H1 eq_refl)). cbn [mbind outcome_bind].
  rewrite (proj2 (mupd_Ok _ _ _ _ _) (conj (H2 : in_matrix (upd m i j _) j i) eq_refl)). eauto.
Qed.
Lemma trail_fold_ok amount : forall es m, Forall (fun e => in_matrix m e.1 e.2 /\ in_matrix m e.2 e.1) es -> exists m', ofold (trail_step amount) m es = Ok m'.
Proof.
  induction es as [|[i j] es IH]; intros m H; cbn [ofold]; [eauto|]. inversion_clear H as [|? ? [H1 H2] Hs]. cbn [fst snd] in *.
  destruct (trail_step_ok amount m i j H1 H2) as [m1 E1]. rewrite E1. cbn [mbind outcome_bind]. apply IH.
  destruct (trail_step_Ok _ _ _ _ E1) as (_ & _ & R & C & _). eapply Forall_impl; [exact Hs|]. intros e. unfold in_matrix. rewrite R, C. auto.
Qed.

(** ** Windows *)
Lemma windows_lookup {A} (l : list A) i e : windows l !! i = Some e <->
  exists a b, e = (a, b) /\ l !! i = Some a /\ l !! ((i + 1) mod length l) = Some b.
Proof.
  destruct l as [|x xs].
  - cbn. split; [discriminate|intros (a & b & _ & H & _); discriminate].
  - unfold windows. destruct e as [a b]. rewrite lookup_zip_with_Some.
    assert (Hlen : length (x :: xs) = S (length xs)) by reflexivity.
    assert (Hn : i < S (length xs) -> (xs ++ [x]) !! i = (x :: xs) !! ((i + 1) mod length (x :: xs))).
    { intros Hi. rewrite Hlen. destruct (decide (i = length xs)) as [->|Ne].
      - rewrite Nat.add_1_r, Nat.mod_same by lia. rewrite lookup_app_r, Nat.sub_diag by lia. reflexivity.
      - rewrite Nat.mod_small by lia. rewrite lookup_app_l by lia. rewrite Nat.add_1_r. reflexivity. }
    split.
    + intros (a' & b' & E & Ha & Hb). injection E as -> ->. exists a', b'. split; [reflexivity|]. split; [exact Ha|].
      rewrite <- Hn; [exact Hb|]. apply lookup_lt_Some in Ha. cbn in Ha. exact Ha.
    + intros (a' & b' & E & Ha & Hb). injection E as -> ->. exists a', b'. split; [reflexivity|]. split; [exact Ha|].
      rewrite Hn; [exact Hb|]. apply lookup_lt_Some in Ha. cbn in Ha. exact Ha.
Qed.
Lemma windows_follows (p : list nat) a b : (a, b) ∈ windows p <-> follows p a b.
Proof.
  rewrite elem_of_list_lookup. unfold follows. split.
  - intros (i & H). apply windows_lookup in H as (a' & b' & E & Ha & Hb). injection E as <- <-. eauto.
  - intros (i & Ha & Hb). exists i. apply windows_lookup. eauto.
Qed.
Lemma windows_length {A} (l : list A) : length (windows l) = length l.
Proof. destruct l as [|x xs]; [reflexivity|]. unfold windows. rewrite zip_with_length, app_length. cbn [length]. lia. Qed.

Lemma hits_zero a b es : (a, b) ∉ es -> (b, a) ∉ es -> hits a b es = 0.
Proof.
  induction es as [|e es IH]; intros H1 H2; [reflexivity|]. apply not_elem_of_cons in H1 as [H1 H1'], H2 as [H2 H2'].
  cbn. fold (hits a b es). rewrite IH by auto. unfold hit. rewrite !decide_False by congruence. reflexivity.
Qed.
Lemma not_neighbours_zero p a b : ~ neighbours p a b -> hits a b (windows p) = 0.
Proof.
  intros H. apply hits_zero; rewrite windows_follows; intros X; apply H; [left|right]; exact X.
Qed.
(** On a path without repetitions of at least three places each pair of neighbours is met exactly once. *)
Definition occ (e : nat * nat) (es : list (nat * nat)) : nat := sum_list_with (fun x => if decide (x = e) then 1 else 0) es.
Lemma hits_occ a b es : hits a b es = occ (a, b) es + occ (b, a) es.
Proof. induction es as [|e es IH]; cbn; [reflexivity|]. fold (hits a b es) (occ (a, b) es) (occ (b, a) es). rewrite IH. unfold hit. lia. Qed.
Lemma occ_notin e es : e ∉ es -> occ e es = 0.
Proof. induction es as [|x es IH]; intros H; [reflexivity|]. apply not_elem_of_cons in H as [H1 H2]. cbn. fold (occ e es). rewrite IH, decide_False by congruence. reflexivity. Qed.
Lemma occ_NoDup e es : NoDup es -> e ∈ es -> occ e es = 1.
Proof.
  induction 1 as [|x es Hx Hn IH]; intros H; [inversion H|]. cbn. fold (occ e es). apply elem_of_cons in H as [->|H].
  - rewrite decide_True, occ_notin by auto. reflexivity.
  - rewrite IH by exact H. rewrite decide_False; [reflexivity|]. intros ->. contradiction.
Qed.
Lemma NoDup_windows (p : list nat) : NoDup p -> NoDup (windows p).
Proof.
  intros H. apply NoDup_alt. intros i j e Hi Hj. apply windows_lookup in Hi as (a & b & -> & Ha & _). apply windows_lookup in Hj as (a' & b' & E & Ha' & _).
  injection E as <- <-. eapply NoDup_lookup; eauto.
Qed.
Lemma follows_antisym p a b : NoDup p -> 3 <= length p -> follows p a b -> ~ follows p b a.
Proof.
  intros Hn Hl (i & Hi & Hi') (j & Hj & Hj').
  assert (E1 : (i + 1) mod length p = j) by (eapply NoDup_lookup; eauto).
  assert (E2 : (j + 1) mod length p = i) by (eapply NoDup_lookup; eauto).
  pose proof (lookup_lt_Some _ _ _ Hi) as L1. pose proof (lookup_lt_Some _ _ _ Hj) as L2.
  destruct (decide (i + 1 = length p)) as [E|N].
  - rewrite E, Nat.mod_same in E1 by lia. subst j. rewrite Nat.mod_small in E2 by lia. lia.
  - rewrite Nat.mod_small in E1 by lia. subst j. destruct (decide (i + 1 + 1 = length p)) as [E|N'].
    + rewrite E, Nat.mod_same in E2 by lia. lia.
    + rewrite Nat.mod_small in E2 by lia. lia.
Qed.
Lemma neighbours_one p a b : NoDup p -> 3 <= length p -> neighbours p a b -> hits a b (windows p) = 1.
Proof.
  intros Hn Hl H. rewrite hits_occ. pose proof (NoDup_windows p Hn) as Hw. destruct H as [H|H].
  - rewrite (occ_NoDup (a, b)) by (auto; apply windows_follows; auto). rewrite occ_notin; [lia|].
    rewrite windows_follows. eapply follows_antisym; eauto.
  - rewrite (occ_NoDup (b, a)) by (auto; apply windows_follows; auto). rewrite occ_notin; [lia|].
    rewrite windows_follows. eapply follows_antisym; eauto.
Qed.
Lemma tour_facts n p : tour n p -> NoDup p /\ length p = n /\ Forall (fun v => v < n) p.
Proof.
  intros H. split; [rewrite H; apply NoDup_seq|]. split; [rewrite H; apply seq_length|].
  apply Forall_forall. intros v Hv. rewrite H in Hv. apply elem_of_seq in Hv. lia.
Qed.
Lemma windows_range (p : list nat) n : Forall (fun v => v < n) p -> Forall (fun e => e.1 < n /\ e.2 < n) (windows p).
Proof.
  intros H. apply Forall_forall. intros [a b] He. apply windows_follows in He as (i & Ha & Hb). rewrite Forall_lookup in H.
  split; eapply H; eauto.
Qed.

(** ** Symmetry *)
Lemma scale_symmetric c m : symmetric m -> symmetric (mscale c m).
Proof. intros [Hd H]. split; [exact Hd|]. intros i j Hi. cbn [mscale entry]. rewrite H; auto. Qed.
Lemma trail1_symmetric amount path m m' : symmetric m -> leave_trail1 amount path m = Ok m' -> symmetric m'.
Proof.
  intros [Hd Hs] H. destruct (trail1_spec _ _ _ _ H) as (R & C & E & _). split; [congruence|]. intros i j [Hi Hj]. rewrite !E, hits_sym. f_equal.
  apply Hs. split; congruence.
Qed.
Lemma trail_cons s sols m : leave_trail (s :: sols) m = (m1 ← leave_trail1 (sol_fitness s) (sol_path s) m; leave_trail sols m1).
Proof. reflexivity. Qed.
Lemma trail_symmetric sols : forall m m', symmetric m -> leave_trail sols m = Ok m' -> symmetric m'.
Proof.
  induction sols as [|s sols IH]; intros m m' Hm H; [injection H as <-; exact Hm|]. rewrite trail_cons in H. apply obind_Ok in H as (m1 & H1 & H).
  eapply IH; [|exact H]. eapply trail1_symmetric; eauto.
Qed.
(** The value left at (a, b): every solution in turn adds its fitness once for each of its edges between a and b. *)
Definition trail_value (sols : list solution) (a b : nat) (v : f64) : f64 :=
  foldl (fun v s => deposited (sol_fitness s) v (hits a b (windows (sol_path s)))) v sols.
Lemma trail_spec sols : forall m m', leave_trail sols m = Ok m' ->
  nrows m' = nrows m /\ ncols m' = ncols m /\ forall a b, entry m' a b = trail_value sols a b (entry m a b).
Proof.
  induction sols as [|s sols IH]; intros m m' H; [injection H as <-; auto|]. rewrite trail_cons in H. apply obind_Ok in H as (m1 & H1 & H).
  destruct (trail1_spec _ _ _ _ H1) as (R & C & E & _). destruct (IH _ _ H) as (R' & C' & E'). split_and!; [congruence..|].
  intros a b. rewrite E', E. reflexivity.
Qed.
Lemma trail_value_off sols a b v : Forall (fun s => ~ neighbours (sol_path s) a b) sols -> trail_value sols a b v = v.
Proof.
  unfold trail_value. intros H. revert v. induction H as [|s sols Hs Hss IH]; intros v; [reflexivity|]. cbn [foldl]. rewrite not_neighbours_zero by exact Hs. apply IH.
Qed.

Lemma as_update_symmetric rate m sols m' : symmetric m -> as_update rate m sols = Ok m' -> symmetric m'.
Proof. intros Hm H. eapply trail_symmetric; [|exact H]. apply scale_symmetric, Hm. Qed.
Lemma elitist_symmetric rate m sols best m' best' : symmetric m -> elitist_update rate m sols best = Ok (m', best') -> symmetric m'.
Proof.
  intros Hm H. apply obind_Ok in H as (m1 & H1 & H). apply obind_Ok in H as (m2 & H2 & H). injection H as <- <-.
  eapply trail1_symmetric; [|exact H2]. eapply trail_symmetric; [|exact H1]. apply scale_symmetric, Hm.
Qed.
Lemma acs_update_symmetric policy rate m sols best m' best' : symmetric m -> acs_update policy rate m sols best = Ok (m', best') -> symmetric m'.
Proof.
  intros Hm H. apply obind_Ok in H as (m1 & H1 & H). injection H as <- <-. eapply trail1_symmetric; [|exact H1]. apply scale_symmetric, Hm.
Qed.

(** ** Max-min *)
Lemma hit_zero a b i j : hit a b (i, j) = 0 <-> ~ (a = i /\ b = j) /\ ~ (a = j /\ b = i).
Proof.
  unfold hit. destruct (decide ((i, j) = (a, b))) as [E|N]; [|destruct (decide ((i, j) = (b, a))) as [E|N']].
  - injection E as <- <-. split; [discriminate|intros [H _]; exfalso; apply H; auto].
  - injection E as <- <-. split; [discriminate|intros [_ H]; exfalso; apply H; auto].
  - split; [|reflexivity]. intros _. split; intros [-> ->]; congruence.
Qed.
Definition mm_step (fit lo hi : f64) (m : matrix) (e : nat * nat) : outcome matrix :=
  let '(i, j) := e in m ← mupd m i j (fun x => fclamp (fadd x fit) lo hi); v ← mget m i j; mset m j i v.
Lemma mm_step_Ok fit lo hi m e m' : mm_step fit lo hi m e = Ok m' ->
  in_matrix m e.1 e.2 /\ in_matrix m e.2 e.1 /\ nrows m' = nrows m /\ ncols m' = ncols m /\
  forall a b, entry m' a b = if decide (hit a b e = 0) then entry m a b else fclamp (fadd (entry m e.1 e.2) fit) lo hi.
Proof.
  destruct e as [i j]. unfold mm_step. intros H. apply obind_Ok in H as (m1 & H1 & H). apply mupd_Ok in H1 as [Hi ->].
  apply obind_Ok in H as (v & Hv & H). apply mget_Ok in Hv as [_ ->]. apply mset_Ok in H as [Hj ->].
  cbn [upd nrows ncols entry fst snd]. split_and!; auto. intros a b. rewrite (decide_True (P := i = i /\ j = j)) by auto.
  destruct (decide (hit a b (i, j) = 0)) as [Hz|Hz]; rewrite hit_zero in Hz.
  - rewrite !decide_False by tauto. reflexivity.
  - destruct (decide (a = j /\ b = i)) as [X|X]; [reflexivity|]. rewrite decide_True by tauto. reflexivity.
Qed.
Lemma mmas_eq policy rate lo hi m sols best : mmas_update policy rate lo hi m sols best =
  (m ← ofold (mm_step (sol_fitness (policy best sols)) lo hi) (mscale (fsub f1 rate) m) (windows (sol_path (policy best sols))); Ok (m, policy best sols)).
Proof. reflexivity. Qed.
Lemma mm_fold_symmetric fit lo hi : forall es m m', symmetric m -> ofold (mm_step fit lo hi) m es = Ok m' -> symmetric m'.
Proof.
  induction es as [|e es IH]; intros m m' Hm H; cbn [ofold] in H; [injection H as <-; exact Hm|]. apply obind_Ok in H as (m1 & H1 & H).
  eapply IH; [|exact H]. destruct (mm_step_Ok _ _ _ _ _ _ H1) as (_ & _ & R & C & E). destruct Hm as [Hd Hs]. split; [congruence|].
  intros i j [Hi Hj]. rewrite !E, (hit_sym j i). case_decide; [|reflexivity]. apply Hs. split; congruence.
Qed.
Lemma mmas_symmetric policy rate lo hi m sols best m' best' : symmetric m -> mmas_update policy rate lo hi m sols best = Ok (m', best') -> symmetric m'.
Proof.
  intros Hm H. rewrite mmas_eq in H. apply obind_Ok in H as (m1 & H1 & H). injection H as <- <-. eapply mm_fold_symmetric; [|exact H1]. apply scale_symmetric, Hm.
Qed.
Lemma fclamp_within v lo hi : flt lo hi = true -> fle lo (fclamp v lo hi) = true /\ fle (fclamp v lo hi) hi = true.
Proof.
  intros H. unfold fclamp, fgt. destruct (flt lo v) eqn:E1; [destruct (flt v hi) eqn:E2|]; split; auto using flt_le; apply fle_refl;
    eauto using flt_nan_l, flt_nan_r.
Qed.
Lemma mm_fold_spec fit lo hi : flt lo hi = true -> forall es m m', ofold (mm_step fit lo hi) m es = Ok m' ->
  nrows m' = nrows m /\ ncols m' = ncols m /\
  forall a b, (hits a b es = 0 -> entry m' a b = entry m a b) /\
              (hits a b es <> 0 -> fle lo (entry m' a b) = true /\ fle (entry m' a b) hi = true).
Proof.
  intros Hlt. induction es as [|e es IH]; intros m m' H; cbn [ofold] in H.
  - injection H as <-. split; [reflexivity|]. split; [reflexivity|]. intros a b. split; [auto|]. intros X. exfalso. apply X. reflexivity.
  - apply obind_Ok in H as (m1 & H1 & H). destruct (mm_step_Ok _ _ _ _ _ _ H1) as (_ & _ & R & C & E). destruct (IH _ _ H) as (R' & C' & E').
    split_and!; [congruence..|]. intros a b. change (hits a b (e :: es)) with (hit a b e + hits a b es). destruct (E' a b) as [E0 E1]. split.
    + intros Hz. rewrite E0 by lia. rewrite E, decide_True by lia. reflexivity.
    + intros Hnz. destruct (decide (hits a b es = 0)) as [Z|NZ]; [|auto]. rewrite E0 by exact Z. rewrite E, decide_False by lia. apply fclamp_within, Hlt.
Qed.
Lemma hits_neighbours p a b : neighbours p a b -> hits a b (windows p) <> 0.
Proof.
  intros H. rewrite hits_occ.
  assert (X : forall e es, e ∈ es -> occ e es <> 0).
  { intros e es. induction es as [|x es IH]; intros He; [inversion He|]. cbn. fold (occ e es). apply elem_of_cons in He as [->|He].
    - rewrite decide_True by reflexivity. lia.
    - specialize (IH He). lia. }
  destruct H as [H|H]; apply windows_follows in H; apply X in H; lia.
Qed.
Lemma mmas_spec policy rate lo hi m sols best m' best' : flt lo hi = true -> mmas_update policy rate lo hi m sols best = Ok (m', best') ->
  best' = policy best sols /\ nrows m' = nrows m /\ ncols m' = ncols m /\
  (forall a b, neighbours (sol_path best') a b -> fle lo (entry m' a b) = true /\ fle (entry m' a b) hi = true) /\
  (forall a b, ~ neighbours (sol_path best') a b -> entry m' a b = fmul (entry m a b) (fsub f1 rate)).
Proof.
  intros Hlt H. rewrite mmas_eq in H. apply obind_Ok in H as (m1 & H1 & H). injection H as <- <-.
  destruct (mm_fold_spec _ _ _ Hlt _ _ _ H1) as (R & C & E). split_and!; auto.
  - intros a b Hn. apply E. apply hits_neighbours, Hn.
  - intros a b Hn. destruct (E a b) as [E0 _]. rewrite E0 by (apply not_neighbours_zero, Hn). reflexivity.
Qed.
