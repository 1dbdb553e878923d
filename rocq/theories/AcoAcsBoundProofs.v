(** * Proofs: Ant Colony System runs keep the pheromone in its range *)
From Verif Require Export AcoBoundProofs.
From Verif Require Import AcoModel AcoSpec AcoAntProofs AcoChoiceProofs AcoGradeProofs AcoPheromoneProofs AcoDepositProofs AcoTspProofs AcoRunProofs AcoUtilProofs
  AcoTspGenProofs AcoCostProofs AcoWheelProofs ChanceProofs SusProofs F64R.
From Coq Require Import Reals Lra Lia.
From Flocq Require Import Core.Core IEEE754.BinarySingleNaN.
Local Existing Instances Hfexp HNE Hprec53 Hmax1024.
Open Scope nat_scope.

Lemma moderate_sane g n a : moderate g n -> sane a g n.
Proof.
  intros (_ & _ & H) i j Hi Hj. destruct (H i j Hi Hj) as (V & L & _). split; [exact V|]. right. apply (flt_le_trans fmin f0 (entry g i j)); [reflexivity|exact L].
Qed.
Section Acs.
Variables (B : R) (n : nat) (op : matrix -> outcome matrix) (local : matrix -> list (list nat) -> outcome matrix).
Hypothesis Hn : 2 <= n.
Hypothesis Hnmax : (Z.of_nat n <= 2 ^ 53)%Z.
Hypothesis Hop : forall p, matrix_range B n p -> exists g, op p = Ok g /\ moderate g n.
Hypothesis Hloc : forall p paths, matrix_range B n p -> Forall (fun q => exists q' s r, q = q' ++ [s; r] /\ s < n /\ r < n) paths ->
  exists p', local p paths = Ok p' /\ matrix_range B n p'.

Lemma acs_round_ok k g : moderate g n -> k + 1 < n -> forall ants, Forall (acs_ant n k) ants -> exists paths ants', acs_round g ants = Ok (paths, ants') /\ length paths <= length ants.
Proof using Hn Hnmax.
  intros Hg Hk. induction 1 as [|a ants [Hw Hl] _ (ps & as' & IH & L)]; [eexists _, _; split; [reflexivity|cbn; lia]|]. cbn [acs_round]. destruct (a_stuck a) eqn:Es.
  - rewrite IH. cbn [mbind outcome_bind]. eexists _, _. split; [reflexivity|]. cbn [length]. lia.
  - destruct (step_ok n g a Hg Hnmax Hw) as (l & v & a1 & ->).
    { intros _ E. specialize (Hl eq_refl). pose proof Hw as (_ & _ & Hp). rewrite Es, E, app_nil_r in Hp. apply Permutation_length in Hp. rewrite seq_length in Hp. lia. }
    cbn [mbind outcome_bind]. rewrite IH. cbn [mbind outcome_bind]. eexists _, _. split; [reflexivity|]. cbn [length]. lia.
Qed.
Lemma walking_places a : walking n a -> Forall (fun v => v < n) (a_path a).
Proof using.
  clear. intros (_ & _ & H). apply Forall_forall. intros v Hv. assert (v ∈ seq 0 n) as X; [|apply elem_of_seq in X; lia]. destruct (a_stuck a).
  - destruct H as (q & x & E & Hl & Hp). rewrite <- Hp. apply elem_of_app. left. rewrite E in Hv. apply elem_of_app in Hv as [Hv|Hv]; [exact Hv|].
    apply elem_of_list_singleton in Hv as ->. apply last_Some in Hl as [q' ->]. apply elem_of_app. right. left.
  - rewrite <- H. apply elem_of_app. left. exact Hv.
Qed.
Lemma last_two {X} (l : list X) : 2 <= length l -> exists q s r, l = q ++ [s; r].
Proof using.
  clear. intros H. destruct l as [|x l _] using rev_ind; [cbn in H; lia|]. destruct l as [|y l _] using rev_ind; [cbn in H; lia|].
  exists l, y, x. rewrite <- app_assoc. reflexivity.
Qed.
Lemma acs_rounds_range rounds : forall k paths ants p, matrix_range B n p -> Forall (acs_ant n k) ants -> k + rounds = n - 1 -> 1 <= rounds ->
  exists paths' ants' p', acs_rounds op local rounds paths ants p = Ok (paths', ants', p') /\ matrix_range B n p' /\ Forall (tour n) paths' /\
    Forall (usable n) ants' /\ length ants' = length ants /\ length paths' <= length ants.
Proof using All.
  induction rounds as [|rounds IH]; intros k paths ants p Hp Ha Hk Hr; [lia|]. cbn [acs_rounds].
  destruct (Hop p Hp) as (g & -> & Hg). cbn [mbind outcome_bind]. destruct (acs_round_ok k g Hg ltac:(lia) ants Ha) as (ps & as' & E1 & L1).
  destruct (acs_round_spec n k g _ _ _ Ha E1) as (HA & HL & _ & HF). 
  destruct (Hloc p ps Hp) as (p1 & E2 & Hp1).
  { eapply Forall_impl; [exact HF|]. intros q (a & [Hw _] & <- & Hl). destruct (last_two (a_path a) ltac:(lia)) as (q' & s & r & E). exists q', s, r. split; [exact E|].
    pose proof (walking_places a Hw) as W. rewrite E, Forall_app in W. destruct W as [_ W]. inversion_clear W as [|? ? W1 W2]. inversion_clear W2. auto. }
  rewrite E1. cbn [mbind outcome_bind]. rewrite E2. cbn [mbind outcome_bind]. destruct rounds as [|rounds].
  - cbn [acs_rounds]. exists ps, as', p1. split; [reflexivity|]. split; [exact Hp1|]. split; [|split; [|split; [exact HL|exact L1]]].
    + apply (acs_last_round n g ants ps as'); [|exact Hn| |exact E1]; [replace (n - 2) with k by lia; exact Ha|]. apply Forall_forall. intros a _. apply moderate_sane, Hg.
    + eapply Forall_impl; [exact HA|]. intros a [Hw _]. apply walking_usable. exact Hw.
  - destruct (IH (k + 1) ps as' p1 Hp1 HA ltac:(lia) ltac:(lia)) as (ps' & as2 & p2 & -> & R & HT & HU & HL2 & L2). exists ps', as2, p2. split; [reflexivity|].
    split; [exact R|]. split; [exact HT|]. split; [exact HU|]. lia.
Qed.
Lemma ant_colony_system_range ants p : Forall (usable n) ants -> matrix_range B n p ->
  exists paths ants' p', ant_colony_system op local ants p = Ok (paths, ants', p') /\ matrix_range B n p' /\ Forall (tour n) paths /\
    Forall (usable n) ants' /\ length ants' = length ants /\ length paths <= length ants.
Proof using All.
  intros Hu Hp. assert (exists ants0, omapM (fun a => ant_start (ant_clear a)) ants = Ok ants0) as [ants0 E].
  { clear -Hu Hn. induction Hu as [|a ants Ha _ [as' IH]]; cbn [omapM]; [eauto|]. destruct (start_ok n a Ha ltac:(lia)) as [a0 ->]. cbn [mbind outcome_bind]. rewrite IH. cbn. eauto. }
  destruct (omapM_start n ants ants0 Hu E) as [HA HL]. unfold ant_colony_system. rewrite E. cbn [mbind outcome_bind]. pose proof Hp as (Hr & _). rewrite Hr.
  destruct (acs_rounds_range (n - 1) 0 [] ants0 p Hp HA ltac:(lia) ltac:(lia)) as (ps & as' & p' & E' & R). exists ps, as', p'. split; [exact E'|]. rewrite HL in R. exact R.
Qed.
End Acs.

(** ** Local updates keep the range *)
Lemma steps_range (P : f64 -> Prop) f a b paths v v' : (forall x, P x -> P (f x)) -> after_steps f a b paths v v' -> P v -> P v'.
Proof. intros Hf. induction 1; auto. Qed.
Lemma in_matrix_paths n m (paths : list (list nat)) : nrows m = n -> ncols m = n -> Forall (fun q => exists q' s r, q = q' ++ [s; r] /\ s < n /\ r < n) paths ->
  Forall (fun p => exists q s r, p = q ++ [s; r] /\ in_matrix m s r) paths.
Proof. intros Hr Hc H. eapply Forall_impl; [exact H|]. intros p (q & s & r & E & H1 & H2). exists q, s, r. split; [exact E|]. unfold in_matrix. lia. Qed.
Lemma decay_to_ok rate stable m paths : Forall (fun p => exists q s r, p = q ++ [s; r] /\ in_matrix m s r) paths -> exists m', decay_to rate stable m paths = Ok m'.
Proof.
  apply (local_fold_ok (fun x => fadd (fmul x rate) (fmul stable (fsub f1 rate))) (fun m s r => m ← mupd m s r (fun x => fmul x rate);
                    mupd m s r (fun x => fadd x (fmul stable (fsub f1 rate))))).
  - intros q s r q' H. apply obind_Ok in H as (q1 & H1 & H). apply mupd_Ok in H1 as [Hin ->]. apply mupd_Ok in H as [_ ->]. split_and!; auto. intros a b. unfold upd. cbn [entry].
    rewrite (decide_True (P := s = s /\ r = r)) by auto. destruct (decide _) as [[-> ->]|]; reflexivity.
  - intros q s r H. eexists. rewrite (proj2 (mupd_Ok _ _ _ _ _) (conj H eq_refl)). cbn [mbind outcome_bind]. apply mupd_Ok. split; [exact H|reflexivity].
Qed.
Open Scope R_scope.
Lemma decay_in_range B x rate : in_range B x -> nonneg_finite rate -> f2r rate <= 1 -> in_range B (fmul x rate).
Proof.
  intros [(Vx & Fx & Lx) Hx] Nr Hr. pose proof (nonneg_R _ Nr). destruct Nr as (Vr & Fr & _).
  destruct (fmul_shrinks x rate Vx Fx Lx Vr Fr ltac:(lra)) as (V & F & P & L). apply fle_R in L; auto. split; [split; auto|lra].
Qed.
(** The rate leaves room for rounding: it is 1 or at most 1 - 2^-48, and the stable value is at most half the bound. *)
Lemma decay_to_in_range B x rate stable : bpow radix2 (-900) <= B <= bpow radix2 900 -> in_range B x -> nonneg_finite rate -> f2r rate <= 1 - bpow radix2 (-48) ->
  in_range (B / 2) stable -> in_range B (fadd (fmul x rate) (fmul stable (fsub f1 rate))).
Proof.
  intros HB Hx Nr Hr Hs. pose proof (bpow_gt_0 radix2 (-48)) as P48. assert (bpow radix2 (-48) = 32 * uu) as E48. { unfold uu. change 32 with (bpow radix2 5). rewrite <- bpow_plus. reflexivity. }
  pose proof uu_pos as U. pose proof uu_small as US. pose proof (bpow_gt_0 radix2 (-900)) as P9. pose proof (nonneg_R _ Nr) as Pr.
  assert (f2r rate <= 1) as Hr1 by (apply Rle_trans with (1 - bpow radix2 (-48)); [exact Hr|lra]).
  destruct (AcoBoundProofs.keep_rate rate Nr Hr1) as (Vk & Fk & K1 & K2). set (k := fsub f1 rate) in *. set (p := f2r rate) in *.
  pose proof (decay_in_range B x rate Hx Nr Hr1) as Ha. assert (Nk : nonneg_finite k) by (apply nonneg_of_R; auto; lra).
  pose proof (decay_in_range (B / 2) stable k Hs Nk ltac:(lra)) as Hb.
  assert (f2r (fmul x rate) <= B * p * (1 + uu) + bpow radix2 (-1022)) as A1.
  { destruct Hx as [Nx Hx], Ha as [Na _]. pose proof (nonneg_R _ Nx) as Px. destruct Nx as (Vx & Fx & Lx). destruct Nr as (Vr & Fr & Lr). assert (0 <= f2r x * f2r rate) as P0 by (apply Rmult_le_pos; [exact Px|exact Pr]).
    destruct (fmul_R x rate Vx Vr Fx Fr) as [E _].
    { rewrite Rabs_pos_eq by (rewrite <- rnd_0; apply rnd_le; exact P0). apply Rle_lt_trans with (f2r x); [|pose proof (f2r_bound _ Vx) as W; rewrite Rabs_pos_eq in W by lra; exact W].
      rewrite <- (rnd_id x Vx) at 2. apply rnd_le. fold p. nra. }
    rewrite E. eapply Rle_trans; [apply rnd_up; exact P0|]. apply Rplus_le_compat_r, Rmult_le_compat_r; [lra|]. apply Rmult_le_compat_r; [exact Pr|lra]. }
  assert (f2r (fmul stable k) <= B / 2 * ((1 - p) * (1 + uu)) * (1 + uu) + bpow radix2 (-1022)) as A2.
  { destruct Hs as [Nx Hx']. pose proof (nonneg_R _ Nx) as Px. destruct Nx as (Vx & Fx & Lx). assert (0 <= f2r stable * f2r k) as P0 by (apply Rmult_le_pos; lra).
    destruct (fmul_R stable k Vx Vk Fx Fk) as [E _].
    { rewrite Rabs_pos_eq by (rewrite <- rnd_0; apply rnd_le; exact P0). apply Rle_lt_trans with (f2r stable); [|pose proof (f2r_bound _ Vx) as W; rewrite Rabs_pos_eq in W by lra; exact W].
      rewrite <- (rnd_id stable Vx) at 2. apply rnd_le. nra. }
    rewrite E. eapply Rle_trans; [apply rnd_up; exact P0|]. apply Rplus_le_compat_r, Rmult_le_compat_r; [lra|]. apply Rmult_le_compat; lra. }
  set (a := fmul x rate) in *. set (b := fmul stable k) in *. destruct Ha as [Na _], Hb as [Nb _]. pose proof (nonneg_R _ Na) as Pa. pose proof (nonneg_R _ Nb) as Pb.
  destruct Na as (Va & Fa & _), Nb as (Vb & Fb & _). pose proof (add_rel a b Va Vb Pa Pb) as [_ S].
  assert (bpow radix2 (-1022) <= B * uu) as Hsm. { apply Rle_trans with (bpow radix2 (-900) * uu); [unfold uu; rewrite <- bpow_plus; apply bpow_le; lia|apply Rmult_le_compat_r; lra]. }
  assert (f2r a + f2r b <= B * (1 - 8 * uu)) as T.
  { assert (0 <= 1 - p <= 1) as Q by lra. assert (exists d, p = 1 - d /\ 32 * uu <= d) as (d & Ep & D) by (exists (1 - p); split; [ring|lra]). clearbody p. subst p.
    replace (1 - (1 - d)) with d in * by ring.
    assert ((1 + uu) * (1 + uu) <= 1 + 3 * uu) as W by nra. assert (0 < B) as PB by lra.
    assert (B / 2 * (d * (1 + uu)) * (1 + uu) <= B / 2 * d * (1 + 3 * uu)). { replace (B / 2 * (d * (1 + uu)) * (1 + uu)) with (B / 2 * d * ((1 + uu) * (1 + uu))) by ring. apply Rmult_le_compat_l; [apply Rmult_le_pos; lra|exact W]. }
    assert (B * ((1 - d) * (1 + uu) + d / 2 * (1 + 3 * uu) + 2 * uu) <= B * (1 - 8 * uu)) as Y. { apply Rmult_le_compat_l; [lra|]. nra. }
    lra. }
  assert (rnd (f2r a + f2r b) <= B) as R0. { eapply Rle_trans; [exact S|]. apply Rle_trans with (B * (1 - 8 * uu) * (1 + uu)); [apply Rmult_le_compat_r; lra|]. nra. }
  assert (0 <= rnd (f2r a + f2r b)) as Z0 by (rewrite <- rnd_0; apply rnd_le; lra).
  destruct (fadd_R a b Va Vb Fa Fb) as [E Fi].
  { rewrite Rabs_pos_eq by exact Z0. eapply Rle_lt_trans; [exact R0|]. eapply Rle_lt_trans; [apply HB|]. apply bpow_lt. lia. }
  split; [apply nonneg_of_R; [apply fvalid_add; auto|exact Fi|rewrite E; exact Z0]|rewrite E; exact R0].
Qed.
Lemma decay_range B n rate p paths : nonneg_finite rate -> f2r rate <= 1 -> matrix_range B n p ->
  Forall (fun q => exists q' s r, q = q' ++ [s; r] /\ (s < n)%nat /\ (r < n)%nat) paths -> exists p', decay rate p paths = Ok p' /\ matrix_range B n p'.
Proof.
  intros Nr Hr (R & C & H) Hp. destruct (decay_ok rate p paths (in_matrix_paths n p paths R C Hp)) as [p' E]. exists p'. split; [exact E|].
  apply decay_spec in E as (R' & C' & D). split; [congruence|]. split; [congruence|]. intros i j Hi Hj.
  refine (steps_range (in_range B) _ i j paths _ _ _ (D i j) (H i j Hi Hj)). intros x Hx. apply decay_in_range; auto.
Qed.
Lemma decay_to_range B n rate stable p paths : bpow radix2 (-900) <= B <= bpow radix2 900 -> nonneg_finite rate -> f2r rate <= 1 - bpow radix2 (-48) -> in_range (B / 2) stable -> matrix_range B n p ->
  Forall (fun q => exists q' s r, q = q' ++ [s; r] /\ (s < n)%nat /\ (r < n)%nat) paths -> exists p', decay_to rate stable p paths = Ok p' /\ matrix_range B n p'.
Proof.
  intros HB Nr Hr Hs (R & C & H) Hp. destruct (decay_to_ok rate stable p paths (in_matrix_paths n p paths R C Hp)) as [p' E]. exists p'. split; [exact E|].
  apply decay_to_spec in E as (R' & C' & D). split; [congruence|]. split; [congruence|]. intros i j Hi Hj.
  refine (steps_range (in_range B) _ i j paths _ _ _ (D i j) (H i j Hi Hj)). intros x Hx. apply decay_to_in_range; auto.
Qed.
