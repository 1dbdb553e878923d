(** * Proofs about the selection operators that need rounding arguments *)
From Verif Require Import SelectionProofs F64R.
From Coq Require Import Reals Lra.
From Flocq Require Import Core BinarySingleNaN.
Open Scope nat_scope.

Lemma fle_ffinite x : fle f0 x = true -> fle x f1 = true -> ffinite x = true.
Proof. destruct x as [s|s| |s m e]; try reflexivity; try destruct s; cbn; discriminate. Qed.
Lemma unit_f2r x : fvalid x -> fle f0 x = true -> fle x f1 = true -> ffinite x = true /\ (0 <= f2r x <= 1)%R.
Proof.
  intros V H0 H1. pose proof (fle_ffinite x H0 H1) as F. split; [exact F|].
  apply fle_R in H0; auto using fvalid_f0. apply fle_R in H1; auto using fvalid_f1.
  rewrite f2r_f0 in H0. rewrite f2r_f1 in H1. lra.
Qed.

(** ** Tournament size *)
Lemma tournament_size_bounds factor len : fvalid factor -> unit_factor factor -> 0 < len -> (Z.of_nat len <= 2 ^ 53)%Z ->
  1 <= tournament_size factor len <= len /\
  Z.of_nat (tournament_size factor len) = Z.max (Zfloor (rnd (INR len * f2r factor))) 1.
Proof.
  intros V [H0 H1] Hl Hb. destruct (unit_f2r factor V H0 H1) as [F Hf].
  destruct (f_of_nat_exact len Hb) as (Vn & Fn & En).
  assert (P0 : (0 <= INR len)%R) by apply pos_INR.
  assert (Hn0 : fle f0 (f_of_nat len) = true) by (apply fle_R; auto using fvalid_f0; rewrite f2r_f0, En; exact P0).
  destruct (fmul_shrinks (f_of_nat len) factor Vn Fn Hn0 V F Hf) as (Vm & Fm & Hm0 & Hm1).
  apply fle_R in Hm0; auto using fvalid_f0. apply fle_R in Hm1; auto. rewrite f2r_f0 in Hm0. rewrite En in Hm1.
  assert (Em : f2r (fmul (f_of_nat len) factor) = rnd (INR len * f2r factor)).
  { rewrite <- En. apply fmul_R; auto.
    assert (R0 : (0 <= f2r (f_of_nat len) * f2r factor)%R) by (rewrite En; apply Rmult_le_pos; lra).
    assert (R1 : (f2r (f_of_nat len) * f2r factor <= f2r (f_of_nat len))%R).
    { rewrite <- (Rmult_1_r (f2r (f_of_nat len))) at 2. apply Rmult_le_compat_l; [rewrite En; lra|lra]. }
    rewrite Rabs_pos_eq by (rewrite <- rnd_0; apply rnd_le; exact R0).
    apply Rle_lt_trans with (f2r (f_of_nat len)); [rewrite <- (rnd_id _ Vn) at 2; apply rnd_le; exact R1|].
    eapply Rle_lt_trans; [apply RRle_abs|]. apply f2r_bound; auto. }
  pose proof (f_to_usize_floor _ Vm Fm Hm0) as Hu.
  assert (Hfl : (Zfloor (f2r (fmul (f_of_nat len) factor)) <= Z.of_nat len)%Z).
  { apply le_IZR. rewrite <- INR_IZR_INZ. eapply Rle_trans; [apply Zfloor_lb|]. exact Hm1. }
  assert (Hfl0 : (0 <= Zfloor (f2r (fmul (f_of_nat len) factor)))%Z).
  { apply Zfloor_lub. exact Hm0. }
  assert (Z.of_N (f_to_usize (fmul (f_of_nat len) factor)) = Zfloor (f2r (fmul (f_of_nat len) factor))) as Hu'.
  { rewrite Hu. apply Z.min_r. lia. }
  unfold tournament_size. split.
  - lia.
  - rewrite <- Em, <- Hu'. lia.
Qed.

Lemma tournament_size_full len : 0 < len -> (Z.of_nat len <= 2 ^ 53)%Z -> tournament_size f1 len = len.
Proof.
  intros H0 H. destruct (tournament_size_bounds f1 len fvalid_f1 (conj eq_refl eq_refl) H0 H) as [_ E].
  rewrite f2r_f1, Rmult_1_r in E. destruct (f_of_nat_exact len H) as (Vn & Fn & En).
  rewrite <- En, (rnd_id _ Vn), En, INR_IZR_INZ, Zfloor_IZR in E. lia.
Qed.

Section Sel.
Context {G : Type}.
Notation population := (list (individual G)).
Implicit Types pop : population.

Lemma tournament_spec factor count pop r : fvalid factor -> unit_factor factor -> pop <> [] ->
  (Z.of_nat (length pop) <= 2 ^ 53)%Z -> comparable pop ->
  exists sel groups r', tournament factor count pop r = Ok (sel, r') /\ length sel = count /\
    Forall2 (fun grp s => Z.of_nat (length grp) = Z.max (Zfloor (rnd (INR (length pop) * f2r factor))) 1 /\ NoDup grp /\
      Forall (fun i => i < length pop) grp /\ tournament_winner pop grp s) groups sel.
Proof.
  intros V U Hne%length_pos_ne Hb Hn.
  destruct (tournament_size_bounds factor (length pop) V U Hne Hb) as [Hs Ez].
  destruct (tournament_gen factor count pop r U) as (sel & groups & r' & E & Hl & Hf); [lia|exact Hn|].
  exists sel, groups, r'. split; [exact E|]. split; [exact Hl|]. eapply Forall2_impl; [exact Hf|].
  intros grp s (H1 & H2 & H3 & H4). split_and!; auto. rewrite H1. exact Ez.
Qed.

Lemma tournament_full_max count pop r : pop <> [] -> (Z.of_nat (length pop) <= 2 ^ 53)%Z -> comparable pop ->
  exists sel r', tournament f1 count pop r = Ok (sel, r') /\ length sel = count /\
    forall s b a, s ∈ sel -> pop !! s = Some b -> a ∈ pop -> fle (fitness a) (fitness b) = true.
Proof.
  intros Hne%length_pos_ne Hb Hn.
  destruct (tournament_gen f1 count pop r) as (sel & groups & r' & E & Hl & Hf); [split; reflexivity| |exact Hn|].
  { rewrite tournament_size_full by auto. lia. }
  exists sel, r'. split; [exact E|]. split; [exact Hl|]. intros s b a Hs Hsb Ha.
  apply elem_of_list_lookup in Hs as [k Hk]. destruct (Forall2_lookup_r _ _ _ _ _ Hf Hk) as (grp & _ & Hg & Hnd & Hall & Hw).
  rewrite tournament_size_full in Hg by auto.
  apply elem_of_list_lookup in Ha as [j Hj]. destruct Hw as [_ Hw]. apply (Hw j a b); auto.
  assert (Hp : seq 0 (length pop) ≡ₚ grp).
  { symmetry. apply submseteq_Permutation_length_le; [rewrite seq_length; lia|].
    apply NoDup_submseteq; auto. intros x Hx. rewrite Forall_forall in Hall. apply elem_of_seq. specialize (Hall x Hx). lia. }
  rewrite <- Hp. apply elem_of_seq. apply lookup_lt_Some in Hj. lia.
Qed.

(** ** RouletteWheel *)
Lemma sum_valid l : Forall fvalid l -> fvalid (sum_f64 l).
Proof.
  intros H. unfold sum_f64. assert (Hg : forall l acc, Forall fvalid l -> fvalid acc -> fvalid (foldl fadd acc l)).
  { clear. induction l as [|x l IH]; intros acc Hl Ha; [exact Ha|]. inversion_clear Hl. cbn. apply IH; auto. apply fvalid_add; auto. }
  apply Hg; auto. reflexivity.
Qed.

Lemma standard_draw_unit r k : fvalid (standard_draw r k) /\ ffinite (standard_draw r k) = true /\ (0 <= f2r (standard_draw r k) <= 1)%R.
Proof.
  assert (H : (r k mod 2 ^ 53 < 2 ^ 53)%N) by (apply N.mod_lt; discriminate).
  unfold standard_draw. split; [apply fvalid_unit; [lia|exact H]|]. split; [apply ffinite_unit|].
  pose proof (f2r_unit_range 53 _ ltac:(lia) H). lra.
Qed.

Lemma roulette_spec count pop r : pop <> [] -> Forall (fun p => fvalid (fitness p)) pop ->
  ffinite (total_fitness pop) = true -> fle f0 (total_fitness pop) = true ->
  exists sel r', roulette_wheel count pop r = Ok (sel, r') /\ length sel = count /\
    forall k i, sel !! k = Some i -> wheel_hit (fitness <$> pop) (fmul (total_fitness pop) (standard_draw r k)) i.
Proof.
  intros Hne Hv Hf H0. apply roulette_full; auto. intros k _.
  destruct (standard_draw_unit r k) as (Vu & Fu & Ru).
  apply fmul_shrinks; auto. apply sum_valid. apply Forall_fmap. exact Hv.
Qed.
End Sel.

(** Positive fitness whose total overflows, first draw 0: inf * 0 is NaN and the spin selects nobody. *)
Lemma roulette_overflow : exists (pop : list (individual bool)) r sel r',
  Forall (fun p => fvalid (fitness p) /\ flt f0 (fitness p) = true) pop /\
  roulette_wheel 2 pop r = Ok (sel, r') /\ length sel < 2.
Proof.
  exists [Ind [] fmax; Ind [] fmax], (rng_of [0; 0]%N), []. eexists. split_and!.
  - repeat constructor.
  - vm_compute. reflexivity.
  - cbn; lia.
Qed.
Lemma roulette_negative : exists (pop : list (individual bool)) r sel r',
  Forall (fun p => fvalid (fitness p) /\ ffinite (fitness p) = true) pop /\
  roulette_wheel 2 pop r = Ok (sel, r') /\ length sel < 2.
Proof.
  exists [Ind [] (fneg f1)], (rng_of [0; 0]%N), []. eexists. split_and!.
  - repeat constructor.
  - vm_compute. reflexivity.
  - cbn; lia.
Qed.

