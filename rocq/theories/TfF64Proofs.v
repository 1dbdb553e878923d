(** * The test functions that are sums of squares, over IEEE-754 numbers: never NaN, never negative *)
From Coq Require Import Reals Lra Lia.
From Verif Require Export TfSpec F64R PopulationSpec.
From Flocq Require Import Core.Core IEEE754.BinarySingleNaN.
Local Existing Instances Hfexp HNE Hprec53 Hmax1024.
Open Scope nat_scope.

Definition fin (a : f64) : Prop := fvalid a /\ ffinite a = true.
Definition nn (a : f64) : Prop := fvalid a /\ F64.is_nan a = false.
Definition pos (a : f64) : Prop := fvalid a /\ fle f0 a = true.
(** A finite number that is not zero *)
Definition nz (a : f64) : Prop := fvalid a /\ exists s m e, a = S754_finite s m e.
Definition pnz (a : f64) : Prop := fvalid a /\ exists m e, a = S754_finite false m e.

Lemma fin_nn a : fin a -> nn a.
Proof. intros [V F]. split; [exact V|]. apply ffinite_not_nan, F. Qed.
Lemma pos_nn a : pos a -> nn a.
Proof. intros [V F]. split; [exact V|]. destruct a; try reflexivity. discriminate F. Qed.
Lemma pos_cases a : pos a -> (exists s, a = S754_zero s) \/ (exists m e, a = S754_finite false m e) \/ a = S754_infinity false.
Proof. intros [V F]. destruct a as [s|[]| |[] m e]; try discriminate F; eauto. Qed.
Lemma pos_of_R a : fvalid a -> ffinite a = true -> (0 <= f2r a)%R -> pos a.
Proof. intros V F H. split; [exact V|]. apply fle_R; [reflexivity|exact V|reflexivity|exact F|]. rewrite f2r_f0. exact H. Qed.
Lemma pos_R a : pos a -> (0 <= f2r a)%R.
Proof.
  intros H. destruct (decide (ffinite a = true)) as [F|F].
  - destruct H as [V H]. apply fle_R in H; [|reflexivity|exact V|reflexivity|exact F]. rewrite f2r_f0 in H. exact H.
  - destruct (pos_cases a H) as [[s ->]|[(m & e & ->)| ->]]; try (exfalso; apply F; reflexivity). cbn. lra.
Qed.
(** Finite operands: the result is finite, or an infinity of the sign of the exact result. *)
Lemma fmul_fin a b : fin a -> fin b -> nn (fmul a b) /\ ((0 <= f2r a * f2r b)%R -> pos (fmul a b)).
Proof.
  intros [Va Fa] [Vb Fb]. pose proof (fvalid_mul _ _ Va Vb) as V. destruct (Rlt_le_dec (Rabs (rnd (f2r a * f2r b))) (bpow radix2 1024)) as [H|H].
  - destruct (fmul_R a b Va Vb Fa Fb H) as [E F]. split; [apply fin_nn; split; assumption|]. intros Hp. apply pos_of_R; [exact V|exact F|].
    rewrite E, <- rnd_0. apply rnd_le, Hp.
  - apply fvalid_ex in Va as [x ->], Vb as [y ->]. rewrite fmul_B in *. rewrite ffinite_B in *. rewrite !f2r_B in *.
    pose proof (Bmult_correct 53 1024 _ _ mode_NE x y) as C. unfold rnd in H. cbn [round_mode] in C. rewrite Rlt_bool_false in C by exact H.
    rewrite C. split; [split; [rewrite C in V; exact V|reflexivity]|]. intros Hp. split; [rewrite C in V; exact V|].
    enough (xorb (Bsign x) (Bsign y) = false) as -> by reflexivity. 
    destruct x as [sx| | |sx mx ex Hx]; try discriminate Fa; destruct y as [sy| | |sy my ey Hy]; try discriminate Fb.
    1-3: exfalso; cbn [B2R] in H; rewrite ?Rmult_0_l, ?Rmult_0_r, round_0, Rabs_R0 in H by auto with typeclass_instances; pose proof (bpow_gt_0 radix2 1024); lra.
    cbn [Bsign B2R] in *. destruct sx, sy; try reflexivity; exfalso; cbn [cond_Zopp] in Hp.
    + assert (F2R (Float radix2 (- Z.pos mx) ex) < 0)%R by (apply F2R_lt_0; cbn; lia). assert (0 < F2R (Float radix2 (Z.pos my) ey))%R by (apply F2R_gt_0; cbn; lia). nra.
    + assert (F2R (Float radix2 (- Z.pos my) ey) < 0)%R by (apply F2R_lt_0; cbn; lia). assert (0 < F2R (Float radix2 (Z.pos mx) ex))%R by (apply F2R_gt_0; cbn; lia). nra.
Qed.
Lemma fadd_fin a b : fin a -> fin b -> nn (fadd a b) /\ (pos a -> pos b -> pos (fadd a b)).
Proof.
  intros [Va Fa] [Vb Fb]. pose proof (fvalid_add _ _ Va Vb) as V. destruct (Rlt_le_dec (Rabs (rnd (f2r a + f2r b))) (bpow radix2 1024)) as [H|H].
  - destruct (fadd_R a b Va Vb Fa Fb H) as [E F]. split; [apply fin_nn; split; assumption|]. intros Ha%pos_R Hb%pos_R. apply pos_of_R; [exact V|exact F|].
    rewrite E, <- rnd_0. apply rnd_le. lra.
  - apply fvalid_ex in Va as [x ->], Vb as [y ->]. rewrite fadd_B in *. rewrite !ffinite_B in *. rewrite !f2r_B in *.
    pose proof (Bplus_correct 53 1024 _ _ mode_NE x y Fa Fb) as C. unfold rnd in H. cbn [round_mode] in C. rewrite Rlt_bool_false in C by exact H. destruct C as [C Sg].
    rewrite C. split; [split; [rewrite C in V; exact V|reflexivity]|]. intros Ha Hb. split; [rewrite C in V; exact V|].
    enough (Bsign x = false) as -> by reflexivity.
    destruct (pos_cases _ Ha) as [[s E]|[(m & e & E)|E]]; destruct x as [sx| | |sx mx ex Hx]; try discriminate E; try discriminate Fa.
    + destruct (pos_cases _ Hb) as [[s' E']|[(m' & e' & E')|E']]; destruct y as [sy| | |sy my ey Hy]; try discriminate E'; try discriminate Fb.
      * exfalso. cbn [B2R] in H. rewrite Rplus_0_l, round_0, Rabs_R0 in H by auto with typeclass_instances. pose proof (bpow_gt_0 radix2 1024). lra.
      * injection E' as -> -> ->. rewrite Sg. reflexivity.
    + injection E as -> -> ->. reflexivity.
Qed.
Lemma f2r_sq a : (0 <= f2r a * f2r a)%R.
Proof. nra. Qed.
Lemma sq_pos a : nn a -> pos (fmul a a).
Proof.
  intros [V N]. destruct (decide (ffinite a = true)) as [F|F].
  - apply fmul_fin; [split; assumption|split; assumption|]. apply f2r_sq.
  - destruct a as [s|s| |s m e]; try discriminate N; try (exfalso; apply F; reflexivity). destruct s; split; reflexivity.
Qed.
Lemma scale_pos k a : pnz k -> pos a -> pos (fmul k a).
Proof.
  intros [Vk (m & e & ->)] Ha. destruct (pos_cases a Ha) as [[s ->]|[(m' & e' & ->)| ->]].
  - destruct s; split; reflexivity.
  - destruct Ha as [Va Ha]. apply fmul_fin; [split; [exact Vk|reflexivity]|split; [exact Va|reflexivity]|].
    apply Rmult_le_pos; apply pos_R; split; try assumption; reflexivity.
  - split; reflexivity.
Qed.
Lemma scale_nn k a : nz k -> nn a -> nn (fmul k a).
Proof.
  intros [Vk (s & m & e & ->)] [Va Na]. destruct (decide (ffinite a = true)) as [F|F].
  - apply fmul_fin; split; try assumption; reflexivity.
  - destruct a as [|s'| |]; try discriminate Na; try (exfalso; apply F; reflexivity). destruct s, s'; split; reflexivity.
Qed.
Lemma add_pos a b : pos a -> pos b -> pos (fadd a b).
Proof.
  intros Ha Hb. destruct (decide (ffinite a = true)) as [Fa|Fa]; [destruct (decide (ffinite b = true)) as [Fb|Fb]|].
  - apply fadd_fin; try assumption; split; try assumption; [apply Ha|apply Hb].
  - destruct (pos_cases a Ha) as [[s ->]|[(m & e & ->)| ->]]; destruct (pos_cases b Hb) as [[s' ->]|[(m' & e' & ->)| ->]]; try (exfalso; apply Fb; reflexivity); split; reflexivity.
  - destruct (pos_cases a Ha) as [[s ->]|[(m & e & ->)| ->]]; destruct (pos_cases b Hb) as [[s' ->]|[(m' & e' & ->)| ->]]; try (exfalso; apply Fa; reflexivity); split; reflexivity.
Qed.
Lemma add_nn a b : fin a -> nn b -> nn (fadd a b).
Proof.
  intros Ha [Vb Nb]. destruct (decide (ffinite b = true)) as [F|F].
  - apply fadd_fin; [exact Ha|split; assumption].
  - destruct Ha as [Va Fa]. destruct b as [|s'| |]; try discriminate Nb; try (exfalso; apply F; reflexivity). destruct a; try discriminate Fa; split; try reflexivity; exact Vb.
Qed.
Lemma add_nn' a b : nn a -> fin b -> nn (fadd a b).
Proof.
  intros [Va Na] Hb. destruct (decide (ffinite a = true)) as [F|F].
  - apply fadd_fin; [split; assumption|exact Hb].
  - destruct Hb as [Vb Fb]. destruct a as [|s'| |]; try discriminate Na; try (exfalso; apply F; reflexivity). destruct b; try discriminate Fb; split; try reflexivity; exact Va.
Qed.
Lemma fsub_as_add a b : fsub a b = fadd a (fneg b).
Proof. destruct a as [[]|[]| |[]], b as [[]|[]| |[]]; reflexivity. Qed.
Lemma neg_valid b : fvalid b -> fvalid (fneg b).
Proof. destruct b; intros H; exact H. Qed.
Lemma neg_nn b : nn b -> nn (fneg b).
Proof. intros [V N]. split; [apply neg_valid, V|]. destruct b; try exact N; reflexivity. Qed.
Lemma neg_fin b : fin b -> fin (fneg b).
Proof. intros [V N]. split; [apply neg_valid, V|]. destruct b; try exact N; reflexivity. Qed.
Lemma sub_nn a b : fin a -> nn b -> nn (fsub a b).
Proof. intros Ha Hb. rewrite fsub_as_add. apply add_nn; [exact Ha|apply neg_nn, Hb]. Qed.
Lemma sub_nn' a b : nn a -> fin b -> nn (fsub a b).
Proof. intros Ha Hb. rewrite fsub_as_add. apply add_nn'; [exact Ha|apply neg_fin, Hb]. Qed.
Lemma abs_pos a : nn a -> pos (fabs a).
Proof. intros [V N]. destruct a as [s|s| |s m e]; try discriminate N; split; try reflexivity. exact V. Qed.
Lemma abs_fin a : fin a -> fin (fabs a).
Proof. intros [V N]. destruct a as [s|s| |s m e]; try discriminate N; split; try reflexivity. exact V. Qed.

Section F.
Context (L : libm).
Local Instance NF : Num f64 := num_f64 L.
Lemma powi2_eq (a : f64) : powi a 2 = fmul (nlit 1 1) (fmul a a). Proof. reflexivity. Qed.
Lemma powi4_eq (a : f64) : powi a 4 = fmul (nlit 1 1) (fmul (fmul a a) (fmul a a)). Proof. reflexivity. Qed.
Lemma pnz_1 : pnz (nlit 1 1).
Proof. split; [vm_compute; reflexivity|]. eexists _, _. vm_compute. reflexivity. Qed.
Lemma pow2_pos a : nn a -> pos (powi a 2).
Proof. intros H. rewrite powi2_eq. apply scale_pos; [exact pnz_1|apply sq_pos, H]. Qed.
Lemma pow4_pos a : nn a -> pos (powi a 4).
Proof. intros H. rewrite powi4_eq. apply scale_pos; [exact pnz_1|apply sq_pos, pos_nn, sq_pos, H]. Qed.
Lemma of_nat_pnz n : 1 <= n -> (Z.of_nat n <= 2 ^ 53)%Z -> pnz (of_nat n).
Proof.
  intros H1 Hn. unfold of_nat. cbn [nlit num_f64 NF]. change (f_of_Z 1) with f1.
  destruct (f_of_nat_exact n Hn) as (V & F & R). unfold f_of_nat in *. 
  assert (1 <= INR n)%R by (apply (le_INR 1); exact H1).
  assert (V1 : fvalid f1) by reflexivity.
  destruct (fdiv_R (f_of_Z (Z.of_nat n)) f1 V V1 F) as [E F'].
  - rewrite f2r_f1. lra.
  - rewrite f2r_f1. unfold Rdiv. rewrite Rinv_1, Rmult_1_r, rnd_id by exact V. apply f2r_bound, V.
  - rewrite f2r_f1 in E. unfold Rdiv in E. rewrite Rinv_1, Rmult_1_r, rnd_id in E by exact V.
    split; [apply fvalid_div; assumption|]. destruct (fdiv _ _) as [s|s| |s m e]; try discriminate F'.
    + exfalso. change (f2r (S754_zero s)) with 0%R in E. rewrite R in E. lra.
    + destruct s; [|eauto]. exfalso. rewrite R in E.
      assert (F2R (Float radix2 (- Z.pos m) e) < 0)%R by (apply F2R_lt_0; cbn; lia). change (f2r (S754_finite true m e)) with (F2R (Float radix2 (- Z.pos m) e)) in E. lra.
Qed.

Notation fadd' := (nadd (Num := NF)).
Lemma a_pos (a b : f64) : pos a -> pos b -> pos (nadd a b). Proof. apply add_pos. Qed.
Lemma m_pos (a b : f64) : pnz a -> pos b -> pos (nmul a b). Proof. apply scale_pos. Qed.
Lemma abs_pos' (a : f64) : nn a -> pos (nabs a). Proof. apply abs_pos. Qed.
Lemma a_nn (a b : f64) : fin a -> nn b -> nn (nadd a b). Proof. apply add_nn. Qed.
Lemma a_nn' (a b : f64) : nn a -> fin b -> nn (nadd a b). Proof. apply add_nn'. Qed.
Lemma s_nn (a b : f64) : fin a -> nn b -> nn (nsub a b). Proof. apply sub_nn. Qed.
Lemma s_nn' (a b : f64) : nn a -> fin b -> nn (nsub a b). Proof. apply sub_nn'. Qed.
Lemma m_nn (a b : f64) : nz a -> nn b -> nn (nmul a b). Proof. apply scale_nn. Qed.
Lemma abs_fin' (a : f64) : fin a -> fin (nabs a). Proof. apply abs_fin. Qed.
Ltac lit_fin := split; vm_compute; reflexivity.
Ltac lit_nz := split; [vm_compute; reflexivity|eexists _, _, _; vm_compute; reflexivity].
Ltac lit_pnz := split; [vm_compute; reflexivity|eexists _, _; vm_compute; reflexivity].
Ltac sol := repeat match goal with
  | |- pos (nadd _ _) => apply a_pos
  | |- pos (powi _ 2) => apply pow2_pos
  | |- pos (powi _ 4) => apply pow4_pos
  | |- pos (nmul _ _) => apply m_pos
  | |- pos (nabs _) => apply abs_pos'
  | |- pnz (nlit _ _) => lit_pnz
  | |- nz (nlit _ _) => lit_nz
  | |- fin (nlit _ _) => lit_fin
  | |- fin (nabs _) => apply abs_fin'
  | |- fin _ => assumption
  | |- nn (powi _ 2) => apply pos_nn, pow2_pos
  | |- nn (nmul _ _) => apply m_nn
  | |- nn (nsub _ (nlit _ _)) => apply s_nn'
  | |- nn (nsub (nlit _ _) _) => apply s_nn
  | H : fin ?b |- nn (nsub _ ?b) => apply s_nn'
  | H : fin ?a |- nn (nsub ?a _) => apply s_nn
  | H : fin ?b |- nn (nadd _ ?b) => apply a_nn'
  | H : fin ?a |- nn (nadd ?a _) => apply a_nn
  | |- nn _ => apply fin_nn
  end.
Lemma foldl_pos {A} (g : f64 -> A -> f64) (l : list A) acc : (forall r a, a ∈ l -> pos r -> pos (g r a)) -> pos acc -> pos (foldl g acc l).
Proof. revert acc. induction l as [|a l IH]; intros acc Hg Ha; [exact Ha|]. cbn [foldl]. apply IH; [intros; apply Hg; [constructor; assumption|assumption]|]. apply Hg; [constructor|exact Ha]. Qed.
Lemma ofold_pos {A} (g : f64 -> A -> outcome f64) (l : list A) acc : (forall r a, a ∈ l -> pos r -> exists v, g r a = Ok v /\ pos v) -> pos acc -> exists v, ofold g acc l = Ok v /\ pos v.
Proof.
  revert acc. induction l as [|a l IH]; intros acc Hg Ha; [exists acc; auto|]. cbn [ofold]. destruct (Hg acc a) as (v & -> & Hv); [constructor|exact Ha|].
  cbn [mbind outcome_bind]. apply IH; [intros; apply Hg; [constructor; assumption|assumption]|exact Hv].
Qed.
Lemma pos_0 : pos (nlit 0 1). Proof. split; vm_compute; reflexivity. Qed.
Definition good (f : list f64 -> outcome f64) (x : list f64) : Prop := exists v, f x = Ok v /\ pos v.
Section X.
Context (x : list f64) (Hfin : Forall fin x).
Lemma x_fin a : a ∈ x -> fin a. Proof. apply (proj1 (Forall_forall _ _) Hfin). Qed.
Lemma x_index i : i < length x -> exists a, index x i = Ok a /\ fin a.
Proof. intros H. destruct (lookup_lt_is_Some_2 x i H) as [a E]. exists a. unfold index. rewrite E. split; [reflexivity|]. eapply x_fin, elem_of_list_lookup_2, E. Qed.
Lemma rassert_yes P {d : Decision P} : P -> rassert (bool_decide P) = Ok tt.
Proof. intros H. rewrite bool_decide_eq_true_2 by exact H. reflexivity. Qed.
Lemma sphere_good : x <> [] -> good sphere x.
Proof. intros H. unfold good, sphere. rewrite rassert_yes by exact H. eexists. split; [reflexivity|]. apply foldl_pos; [|exact pos_0]. intros r a Ha%x_fin Hr. sol. assumption. Qed.
Lemma chung_reynolds_good : good chung_reynolds x.
Proof. eexists. split; [reflexivity|]. apply pow2_pos, pos_nn, foldl_pos; [|exact pos_0]. intros r a Ha%x_fin Hr. sol. assumption. Qed.
Lemma schumer_steiglitz_good : good schumer_steiglitz x.
Proof. eexists. split; [reflexivity|]. apply foldl_pos; [|exact pos_0]. intros r a Ha%x_fin Hr. sol. assumption. Qed.
Lemma qing_good i : fin i -> good (fun x => qing x i) x.
Proof. intros Hi. eexists. split; [reflexivity|]. apply foldl_pos; [|exact pos_0]. intros r a Ha%x_fin Hr. sol. assumption. Qed.
Lemma sum_squares_good : x <> [] -> (Z.of_nat (length x) <= 2 ^ 53)%Z -> good sum_squares x.
Proof.
  intros H Hl. unfold good, sum_squares. rewrite rassert_yes by exact H. eexists. split; [reflexivity|]. apply foldl_pos; [|exact pos_0].
  intros r [i a] Ha Hr. apply elem_of_lookup_imap in Ha as (j & y & [= -> ->] & Hj). pose proof (lookup_lt_Some _ _ _ Hj). apply elem_of_list_lookup_2, x_fin in Hj. sol; [assumption|].
  apply of_nat_pnz; lia.
Qed.
Lemma rotated_hyper_ellipsoid_good : x <> [] -> good rotated_hyper_ellipsoid x.
Proof.
  intros H. unfold good, rotated_hyper_ellipsoid. rewrite rassert_yes by exact H. eexists. split; [reflexivity|]. apply foldl_pos; [|exact pos_0].
  intros r i _ Hr. apply foldl_pos; [|exact Hr]. intros r' a Ha Hr'. apply elem_of_take in Ha as (k & Hk & _). apply elem_of_list_lookup_2, x_fin in Hk. sol; assumption.
Qed.
Lemma rosenbrock_good : 2 <= length x -> good rosenbrock x.
Proof.
  intros H. unfold good, rosenbrock. rewrite rassert_yes by exact H. apply ofold_pos; [|exact pos_0]. intros r i Hi Hr. apply elem_of_list_In, in_seq in Hi.
  destruct (x_index i) as (a & -> & Ha); [lia|]. destruct (x_index (i + 1)) as (b & -> & Hb); [lia|]. eexists. split; [reflexivity|]. sol. assumption.
Qed.
Lemma dixon_price_good : 2 <= length x -> (Z.of_nat (length x) <= 2 ^ 53)%Z -> good dixon_price x.
Proof.
  intros H Hl. unfold good, dixon_price. rewrite rassert_yes by exact H. destruct (x_index 0) as (z & E & Hz); [lia|]. cbn [mbind outcome_bind]. rewrite E.
  apply ofold_pos; [|sol; assumption]. intros r i Hi Hr. apply elem_of_list_In, in_seq in Hi.
  destruct (x_index i) as (a & -> & Ha); [lia|]. destruct (x_index (i - 1)) as (b & -> & Hb); [lia|]. eexists. split; [reflexivity|]. sol; [assumption|].
  apply of_nat_pnz; lia.
Qed.
Lemma powell2_good : 4 <= length x -> good powell2 x.
Proof.
  intros H. unfold good, powell2. rewrite rassert_yes by lia. apply ofold_pos; [|exact pos_0]. intros r i Hi Hr. apply elem_of_list_In, in_seq in Hi.
  destruct (x_index (i - 1)) as (a & -> & Ha); [lia|]. destruct (x_index i) as (b & -> & Hb); [lia|]. destruct (x_index (i + 1)) as (c & -> & Hc); [lia|].
  destruct (x_index (i + 2)) as (e & -> & He); [lia|]. eexists. split; [reflexivity|]. sol. assumption.
Qed.
End X.
Lemma two_good : Forall (fun f => forall a b, fin a -> fin b -> good f [a; b]) [booth; himmelblau; price1; leon; bukin_4].
Proof.
  repeat (apply List.Forall_cons; [intros a b Ha Hb; eexists; split; [reflexivity|]; sol|]). apply List.Forall_nil.
Qed.

(** At the documented points the result is exactly zero. *)
Lemma foldl_const {A} (g : f64 -> A -> f64) z (l : list A) : (forall a, a ∈ l -> g z a = z) -> foldl g z l = z.
Proof. induction l as [|a l IH]; intros H; [reflexivity|]. cbn [foldl]. rewrite H by constructor. apply IH. intros; apply H; constructor; assumption. Qed.
Lemma ofold_const {A} (g : f64 -> A -> outcome f64) z (l : list A) : (forall a, a ∈ l -> g z a = Ok z) -> ofold g z l = Ok z.
Proof. induction l as [|a l IH]; intros H; [reflexivity|]. cbn [ofold]. rewrite H by constructor. apply IH. intros; apply H; constructor; assumption. Qed.
Lemma in_const {A} (c : A) n a : a ∈ constant n c -> a = c.
Proof. unfold constant. intros H. apply elem_of_list_In in H. apply repeat_spec in H. exact H. Qed.
Lemma index_const {A} (c : A) n i : i < n -> index (constant n c) i = Ok c.
Proof. intros H. unfold index. replace (constant n c !! i) with (Some c); [reflexivity|]. symmetry. revert i H. induction n as [|n IH]; intros i H; [lia|]. destruct i as [|i]; [reflexivity|]. apply IH. lia. Qed.
Lemma const_ne {A} (c : A) n : 1 <= n -> constant n c <> [].
Proof. destruct n; [lia|discriminate]. Qed.
Lemma const_len {A} (c : A) n : length (constant n c) = n.
Proof. apply repeat_length. Qed.
Lemma lit0 : nlit (T := f64) 0 1 = f0. Proof. vm_compute. reflexivity. Qed.
Lemma fmul_0_r n : 1 <= n -> (Z.of_nat n <= 2 ^ 53)%Z -> nmul (of_nat n) f0 = f0.
Proof. intros H1 Hn. destruct (of_nat_pnz n H1 Hn) as [_ (m & e & ->)]. reflexivity. Qed.
Lemma sphere_zero n : 1 <= n -> sphere (constant n f0) = Ok f0.
Proof. intros H. unfold sphere. rewrite rassert_yes by (apply const_ne, H). cbn [mbind outcome_bind]. f_equal. rewrite lit0. apply foldl_const. intros a ->%in_const. vm_compute. reflexivity. Qed.
Lemma chung_reynolds_zero n : chung_reynolds (constant n f0) = Ok f0.
Proof. unfold chung_reynolds. cbv zeta. rewrite lit0, foldl_const; [vm_compute; reflexivity|]. intros a ->%in_const. vm_compute. reflexivity. Qed.
Lemma schumer_steiglitz_zero n : schumer_steiglitz (constant n f0) = Ok f0.
Proof. unfold schumer_steiglitz. rewrite lit0, foldl_const; [reflexivity|]. intros a ->%in_const. vm_compute. reflexivity. Qed.
Lemma sum_squares_zero n : 1 <= n -> (Z.of_nat n <= 2 ^ 53)%Z -> sum_squares (constant n f0) = Ok f0.
Proof.
  intros H Hn. unfold sum_squares. rewrite rassert_yes by (apply const_ne, H). cbn [mbind outcome_bind]. f_equal. rewrite lit0. apply foldl_const.
  intros [i a] Ha. apply elem_of_lookup_imap in Ha as (j & y & [= -> ->] & Hj). pose proof (lookup_lt_Some _ _ _ Hj) as Hl. rewrite const_len in Hl. apply elem_of_list_lookup_2, in_const in Hj as ->.
  change (powi f0 2) with f0. rewrite fmul_0_r by lia. vm_compute. reflexivity.
Qed.
Lemma rotated_hyper_ellipsoid_zero n : 1 <= n -> rotated_hyper_ellipsoid (constant n f0) = Ok f0.
Proof.
  intros H. unfold rotated_hyper_ellipsoid. rewrite rassert_yes by (apply const_ne, H). cbn [mbind outcome_bind]. f_equal. rewrite lit0. apply foldl_const.
  intros i _. apply foldl_const. intros a Ha. apply elem_of_take in Ha as (k & Hk & _). apply elem_of_list_lookup_2, in_const in Hk as ->. vm_compute. reflexivity.
Qed.
Lemma rosenbrock_zero n : 2 <= n -> rosenbrock (constant n f1) = Ok f0.
Proof.
  intros H. unfold rosenbrock. rewrite const_len, rassert_yes by exact H. cbn [mbind outcome_bind]. rewrite lit0. apply ofold_const.
  intros i Hi. apply elem_of_list_In, in_seq in Hi. rewrite !index_const by lia. vm_compute. reflexivity.
Qed.
Lemma powell2_zero n : 4 <= n -> powell2 (constant n f0) = Ok f0.
Proof.
  intros H. unfold powell2. rewrite const_len, rassert_yes by lia. cbn [mbind outcome_bind]. rewrite lit0. apply ofold_const.
  intros i Hi. apply elem_of_list_In, in_seq in Hi. rewrite !index_const by lia. vm_compute. reflexivity.
Qed.
Lemma two_zero : Forall (fun '(f, a, b) => f [f_of_Z a; f_of_Z b] = Ok f0)
  [(booth, 1%Z, 3%Z); (himmelblau, 3%Z, 2%Z); (price1, 5%Z, 5%Z); (price1, (-5)%Z, 5%Z); (leon, 1%Z, 1%Z); (bukin_4, (-10)%Z, 0%Z)].
Proof. repeat (apply List.Forall_cons; [vm_compute; reflexivity|]). apply List.Forall_nil. Qed.
End F.
