(** * Proofs: accuracy of path costs under any non-negative weights *)
From Verif Require Export AcoTspGenProofs.
From Verif Require Import SusProofs F64R.
From Coq Require Import Reals Lra Lia.
From Flocq Require Import Core.Core IEEE754.BinarySingleNaN.
From Flocq.Prop Require Import Relative Plus_error.
Local Existing Instances Hfexp HNE Hprec53 Hmax1024.
Open Scope R_scope.

(** The exact sum *)
Definition exact_sum (l : list f64) : R := fold_right (fun x r => f2r x + r) 0 l.

Lemma generic_FLT x : generic_format radix2 (SpecFloat.fexp 53 1024) x -> generic_format radix2 (FLT_exp (-1074) 53) x.
Proof. exact (fun H => H). Qed.
(** Adding two numbers makes a relative error of at most 2^-53, also among subnormal numbers. *)
Lemma add_rel x y : fvalid x -> fvalid y -> 0 <= f2r x -> 0 <= f2r y ->
  (f2r x + f2r y) * (1 - uu) <= rnd (f2r x + f2r y) <= (f2r x + f2r y) * (1 + uu).
Proof.
  intros Vx Vy Px Py.
  assert (generic_format radix2 (FLT_exp (-1074) 53) (f2r x)) as Gx.
  { apply generic_FLT. rewrite <- (rnd_id x Vx). apply generic_format_round; auto with typeclass_instances. }
  assert (generic_format radix2 (FLT_exp (-1074) 53) (f2r y)) as Gy.
  { apply generic_FLT. rewrite <- (rnd_id y Vy). apply generic_format_round; auto with typeclass_instances. }
  destruct (FLT_plus_error_N_ex radix2 (-1074) 53 (fun x => negb (Z.even x)) (f2r x) (f2r y) Gx Gy) as (e & He & E).
  replace (rnd (f2r x + f2r y)) with ((f2r x + f2r y) * (1 + e)) by (symmetry; exact E).
  assert (Rabs e <= uu) as He'.
  { eapply Rle_trans; [exact He|]. assert (u_ro radix2 53 = uu) as ->.
    { unfold u_ro, uu. change (/2) with (bpow radix2 (-1)). rewrite <- bpow_plus. reflexivity. }
    pose proof uu_pos. apply Rmult_le_reg_r with (1 + uu); [lra|]. unfold Rdiv. rewrite Rmult_assoc, Rinv_l by lra. nra. }
  apply Rabs_le_inv in He'. split; apply Rmult_le_compat_l; lra.
Qed.
Lemma exact_sum_pos l : Forall nonneg_finite l -> 0 <= exact_sum l.
Proof. induction 1 as [|x l Hx _ IH]; [cbn; lra|]. apply nonneg_R in Hx. unfold exact_sum in *. cbn. lra. Qed.
Lemma exact_sum_perm l l' : l ≡ₚ l' -> exact_sum l = exact_sum l'.
Proof. unfold exact_sum. induction 1; cbn; lra. Qed.
Lemma fold_accuracy l : forall s, nonneg_finite s -> Forall nonneg_finite l -> ffinite (foldl fadd s l) = true ->
  (f2r s + exact_sum l) * (1 - uu) ^ length l <= f2r (foldl fadd s l) <= (f2r s + exact_sum l) * (1 + uu) ^ length l.
Proof.
  induction l as [|x l IH]; intros s Hs Hl F; [unfold exact_sum; cbn; lra|].
  inversion_clear Hl as [|? ? Hx Hl']. cbn [foldl] in *.
  pose proof (nonneg_R _ Hs) as Rs. pose proof (nonneg_R _ Hx) as Rx.
  destruct (fadd_nonneg s x Hs Hx) as [[Hn _]|E]; [|rewrite E, foldl_inf in F by auto; discriminate].
  destruct Hs as (Vs & Fs & _), Hx as (Vx & Fx & _).
  destruct (fadd_pos s x Vs Vx Fs Fx Rs Rx) as [[_ E]|E]; [|destruct Hn as (_ & Fn & _); rewrite E in Fn; discriminate].
  specialize (IH _ Hn Hl' F). rewrite E in IH. pose proof (add_rel s x Vs Vx Rs Rx) as B. pose proof (exact_sum_pos l Hl') as Pl.
  pose proof uu_pos. pose proof uu_small. pose proof (cond_1u (length l)) as C1. pose proof (cond_u1 (length l)) as C2.
  change (exact_sum (x :: l)) with (f2r x + exact_sum l). cbn [length pow]. set (t := exact_sum l) in *. set (a := (1 - uu) ^ length l) in *. set (b := (1 + uu) ^ length l) in *.
  set (r := rnd (f2r s + f2r x)) in *. split.
  - eapply Rle_trans; [|apply IH]. rewrite <- Rmult_assoc. apply Rmult_le_compat_r; [lra|]. nra.
  - eapply Rle_trans; [apply IH|]. rewrite <- Rmult_assoc. apply Rmult_le_compat_r; [lra|]. nra.
Qed.
Lemma sum_accuracy l : Forall nonneg_finite l -> ffinite (float_sum l) = true ->
  exact_sum l * (1 - uu) ^ length l <= f2r (float_sum l) <= exact_sum l * (1 + uu) ^ length l.
Proof.
  intros Hl F. pose proof (fold_accuracy l f0 nonneg_f0 Hl F) as H. rewrite f2r_f0, Rplus_0_l in H. exact H.
Qed.

(** ** Path costs *)
(** The exact length of the closed path [p] under the weights [w] *)
Definition exact_length (w : matrix) (p : list nat) : R :=
  fold_right Rplus 0 (map (fun k => match p !! k, p !! ((k + 1) mod length p)%nat with Some i, Some j => f2r (entry w i j) | _, _ => 0 end) (seq 0 (length p))).
Lemma list_by_index {A} (g : A -> R) (l : list A) : fold_right Rplus 0 (map (fun k => match l !! k with Some x => g x | None => 0 end) (seq 0 (length l))) = fold_right (fun x r => g x + r) 0 l.
Proof.
  induction l as [|x l IH]; [reflexivity|]. cbn [length seq map fold_right]. rewrite <- seq_shift, map_map. cbn [lookup list_lookup]. f_equal. exact IH.
Qed.
Lemma exact_length_sum w p : exact_length w p = exact_sum (map (fun e => entry w e.1 e.2) (windows p)).
Proof.
  unfold exact_length, exact_sum. transitivity (fold_right (fun e r => f2r (entry w e.1 e.2) + r) 0 (windows p)).
  - rewrite <- (list_by_index (fun e => f2r (entry w e.1 e.2))). rewrite windows_length. f_equal. apply map_ext. intros k.
    destruct (windows p !! k) as [e|] eqn:E.
    + destruct e as [a b]. apply windows_lookup in E as (a' & b' & E & -> & ->). injection E as -> ->. reflexivity.
    + destruct (p !! k) as [a|] eqn:Ea; [|reflexivity]. apply lookup_ge_None in E. rewrite windows_length in E. apply lookup_lt_Some in Ea. lia.
  - induction (windows p) as [|e l IH]; [reflexivity|]. cbn [fold_right map]. rewrite IH. reflexivity.
Qed.
Definition sound_edges (w : matrix) (p : list nat) : Prop :=
  forall k i j, p !! k = Some i -> p !! ((k + 1) mod length p)%nat = Some j -> nonneg_finite (entry w i j).
Lemma sound_weights w p : sound_edges w p -> Forall nonneg_finite (map (fun e => entry w e.1 e.2) (windows p)).
Proof.
  intros H. apply Forall_map, Forall_forall. intros [a b] He. apply elem_of_list_lookup in He as [k He]. apply windows_lookup in He as (a' & b' & E & Ha & Hb).
  injection E as -> ->. exact (H k _ _ Ha Hb).
Qed.
Lemma cost_accuracy w p c : path_cost w p = Ok c -> sound_edges w p -> ffinite c = true ->
  exact_length w p * (1 - uu) ^ length p <= f2r c <= exact_length w p * (1 + uu) ^ length p.
Proof.
  intros Hc Hs F. apply cost_fold_spec in Hc as [_ ->]. pose proof (sum_accuracy _ (sound_weights w p Hs) F) as H.
  rewrite map_length, windows_length in H. rewrite exact_length_sum. exact H.
Qed.
Lemma exact_rotation w p q : exact_length w (p ++ q) = exact_length w (q ++ p).
Proof. rewrite !exact_length_sum. apply exact_sum_perm. apply Permutation_map, windows_rotate. Qed.
Lemma exact_reversal w p : (forall i j, entry w i j = entry w j i) -> exact_length w (reverse p) = exact_length w p.
Proof.
  intros Hs. rewrite !exact_length_sum. rewrite (exact_sum_perm _ _ (Permutation_map _ (windows_reverse p))). rewrite map_map. f_equal. apply map_ext.
  intros [a b]. apply Hs.
Qed.
Lemma sound_perm w p q : (forall e, e ∈ windows q -> e ∈ windows p \/ exists a b, e = (b, a) /\ (a, b) ∈ windows p /\ entry w a b = entry w b a) -> sound_edges w p -> sound_edges w q.
Proof.
  intros H Hs k i j Hi Hj. assert (windows q !! k = Some (i, j)) as E by (apply windows_lookup; eauto).
  assert (forall a b, (a, b) ∈ windows p -> nonneg_finite (entry w a b)) as HP.
  { intros a b [m Hm]%elem_of_list_lookup. apply windows_lookup in Hm as (a' & b' & Em & Ha & Hb). injection Em as -> ->. exact (Hs m _ _ Ha Hb). }
  destruct (H (i, j)) as [He|(a & b & He & Hab & Es)]; [apply elem_of_list_lookup; eauto|apply HP, He|]. injection He as -> ->. rewrite <- Es. apply HP, Hab.
Qed.
Lemma near (x y L a b : R) : 0 < a -> 0 < b -> L * a <= x <= L * b -> L * a <= y <= L * b -> x * a <= y * b /\ y * a <= x * b.
Proof. intros. nra. Qed.
Lemma exact_length_pos w p : sound_edges w p -> 0 <= exact_length w p.
Proof. intros H. rewrite exact_length_sum. apply exact_sum_pos, sound_weights, H. Qed.
Lemma rotation_near w p q c d : path_cost w (p ++ q) = Ok c -> path_cost w (q ++ p) = Ok d -> sound_edges w (p ++ q) -> ffinite c = true -> ffinite d = true ->
  let n := length (p ++ q) in f2r c * (1 - uu) ^ n <= f2r d * (1 + uu) ^ n /\ f2r d * (1 - uu) ^ n <= f2r c * (1 + uu) ^ n.
Proof.
  intros Hc Hd Hs Fc Fd n.
  assert (sound_edges w (q ++ p)) as Hs'. { eapply sound_perm; [|exact Hs]. intros e He. left. rewrite windows_rotate. exact He. }
  pose proof (cost_accuracy _ _ _ Hc Hs Fc) as A. pose proof (cost_accuracy _ _ _ Hd Hs' Fd) as B. rewrite <- exact_rotation in B.
  replace (length (q ++ p)) with n in B by (unfold n; rewrite !app_length; lia). fold n in A.
  pose proof (cond_1u n). pose proof (cond_u1 n). eapply near; [| |exact A|exact B]; lra.
Qed.
Lemma reversal_near w p c d : path_cost w p = Ok c -> path_cost w (reverse p) = Ok d -> (forall i j, entry w i j = entry w j i) -> sound_edges w p -> ffinite c = true -> ffinite d = true ->
  let n := length p in f2r c * (1 - uu) ^ n <= f2r d * (1 + uu) ^ n /\ f2r d * (1 - uu) ^ n <= f2r c * (1 + uu) ^ n.
Proof.
  intros Hc Hd Hsym Hs Fc Fd n.
  assert (sound_edges w (reverse p)) as Hs'.
  { eapply sound_perm; [|exact Hs]. intros e He. right. rewrite windows_reverse in He. apply elem_of_list_fmap in He as ([a b] & -> & He). exists a, b. auto. }
  pose proof (cost_accuracy _ _ _ Hc Hs Fc) as A. pose proof (cost_accuracy _ _ _ Hd Hs' Fd) as B. rewrite exact_reversal in B by exact Hsym.
  rewrite reverse_length in B. fold n in A, B.
  pose proof (cond_1u n). pose proof (cond_u1 n). eapply near; [| |exact A|exact B]; lra.
Qed.
(** Comparing computed costs of two tours *)
Lemma cheaper_near w p q c d : path_cost w p = Ok c -> path_cost w q = Ok d -> sound_edges w p -> sound_edges w q -> ffinite d = true -> length p = length q -> fle c d = true ->
  exact_length w p * (1 - uu) ^ length p <= exact_length w q * (1 + uu) ^ length p.
Proof.
  intros Hc Hd Sp Sq Fd EL H. destruct (ffinite c) eqn:Fc.
  - pose proof (cost_accuracy _ _ _ Hc Sp Fc) as A. pose proof (cost_accuracy _ _ _ Hd Sq Fd) as B. rewrite <- EL in B.
    assert (f2r c <= f2r d); [|lra]. apply fle_R; auto.
    + apply cost_fold_spec in Hc as [_ ->]. apply (foldl_mono _ _ nonneg_f0 (sound_weights w p Sp) Fc).
    + apply cost_fold_spec in Hd as [_ ->]. apply (foldl_mono _ _ nonneg_f0 (sound_weights w q Sq) Fd).
  - exfalso. apply cost_fold_spec in Hc as [_ ->].
    assert (foldl fadd f0 (map (fun e => entry w e.1 e.2) (windows p)) = finf) as E.
    { pose proof (sound_weights w p Sp) as HF. revert Fc. clear -HF. assert (nonneg_finite f0) as H0 by exact nonneg_f0. revert H0. generalize f0 as s.
      induction HF as [|x l Hx HF IH]; intros s Hs Fc; cbn [foldl] in *; [destruct Hs as (_ & Fs & _); congruence|].
      destruct (fadd_nonneg s x Hs Hx) as [[Hn _]|E]; [apply IH; assumption|]. rewrite E. apply foldl_inf, HF. }
    rewrite E in H. destruct d as [s|s| |s m e]; try discriminate Fd; discriminate H.
Qed.
