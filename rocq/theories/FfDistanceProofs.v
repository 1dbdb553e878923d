(** * The distance functions of the firefly algorithm *)
From Coq Require Import Reals Lra Lia SpecFloat.
From Verif Require Export FfModel.
From Verif Require Import F64R TfF64Proofs.
From Flocq Require Import Core.Core IEEE754.BinarySingleNaN.
Local Existing Instances Hfexp HNE Hprec53 Hmax1024.
Open Scope nat_scope.

Definition sum_of (l : list f64) : f64 := foldl fadd f0 l.
Lemma loop_values g : forall x y acc, length x = length y -> distance_loop g x y acc = Ok (foldl fadd acc (zip_with (fun a b => g (fsub a b)) x y)).
Proof. induction x as [|a x IH]; intros [|b y] acc L; try discriminate; cbn [distance_loop zip_with foldl]; [reflexivity|]. apply IH. cbn in L. lia. Qed.
(** Exchanging the points changes nothing but the sign of the differences *)
Lemma round_abs s m e : fabs (SpecFloat.binary_round 53 1024 s m e) = fabs (SpecFloat.binary_round 53 1024 (negb s) m e).
Proof.
  unfold SpecFloat.binary_round. destruct (SpecFloat.shl_align _ _ _) as [mz ez]. unfold SpecFloat.binary_round_aux. destruct (SpecFloat.shr_fexp 53 1024 (Z.pos mz) ez _) as [mrs' e']. destruct (SpecFloat.shr_fexp 53 1024 _ _ _) as [mrs'' e'']. destruct (SpecFloat.shr_m mrs''); try reflexivity. destruct (_ <=? _)%Z; reflexivity.
Qed.
Lemma sub_comm_abs a b : fabs (fsub a b) = fabs (fsub b a).
Proof.
  unfold fsub. destruct a as [sa|sa| |sa ma ea], b as [sb|sb| |sb mb eb]; cbn [SFsub SFopp]; try reflexivity; try (destruct sa; reflexivity); try (destruct sb; reflexivity); try (destruct sa, sb; reflexivity).
  rewrite (Z.min_comm eb ea). set (u := cond_Zopp sa _). set (v := cond_Zopp sb _). replace (v - u)%Z with (- (u - v))%Z by lia. destruct (u - v)%Z as [|m|m]; cbn [SpecFloat.binary_normalize Z.opp]; [reflexivity| |]; rewrite round_abs; reflexivity.
Qed.
Lemma square_abs x : fmul x x = fmul (fabs x) (fabs x).
Proof. unfold fmul. destruct x as [s|s| |s m e]; cbn; try (destruct s; reflexivity); reflexivity. Qed.
Lemma square_comm a b : fmul (fsub a b) (fsub a b) = fmul (fsub b a) (fsub b a).
Proof. rewrite square_abs, sub_comm_abs, <- square_abs. reflexivity. Qed.
Lemma loop_comm g (Hg : forall a b, g (fsub a b) = g (fsub b a)) : forall x y acc, length x = length y -> distance_loop g x y acc = distance_loop g y x acc.
Proof. induction x as [|a x IH]; intros [|b y] acc L; try discriminate; cbn [distance_loop]; [reflexivity|]. rewrite Hg. apply IH. cbn in L. lia. Qed.
Lemma sub_self a : ffinite a = true -> fsub a a = f0.
Proof. unfold fsub. destruct a as [[]| | |s m e]; cbn; try discriminate; try reflexivity. intros _. rewrite Z.sub_diag. reflexivity. Qed.
Lemma loop_self g (Hg : g f0 = f0) : forall x, Forall (fun a => ffinite a = true) x -> distance_loop g x x f0 = Ok f0.
Proof. induction 1 as [|a x Ha F IH]; cbn [distance_loop]; [reflexivity|]. rewrite (sub_self a Ha), Hg. exact IH. Qed.

(** ** Non-negativity *)
Lemma fsqrt_B (x : b64) : fsqrt (B2SF x) = B2SF (Bsqrt mode_NE x).
Proof.
  destruct x as [sx|[]| |[] mx ex Bx]; try reflexivity.
  unfold fsqrt, SFsqrt. simpl. rewrite B2SF_SF2B.
  set (melz := SFsqrt_core_binary _ _ _ _). case melz as [[mz ez] lz]. apply binary_round_aux_eq.
Qed.
Lemma sqrt_pos_f a : pos a -> pos (fsqrt a).
Proof.
  intros P. pose proof P as P0. destruct (pos_cases a P) as [[s ->]|[(m & e & ->)| ->]]; [split; [reflexivity|destruct s; reflexivity]| |split; reflexivity].
  destruct P as [V _]. destruct (fvalid_ex _ V) as [x Ex]. 
  pose proof (Bsqrt_correct 53 1024 _ _ mode_NE x) as (H1 & H2 & _). rewrite Ex, fsqrt_B. apply pos_of_R; [apply fvalid_B2SF| |].
  - rewrite ffinite_B, H2. destruct x as [| | |sx mx ex Bx]; try discriminate Ex. cbn in Ex. injection Ex as <- _ _. reflexivity.
  - rewrite f2r_B, H1. rewrite <- (round_0 radix2 (SpecFloat.fexp 53 1024) (round_mode mode_NE)). apply round_le; [auto with typeclass_instances ..|]. apply sqrt_pos.
Qed.
Lemma loop_pos g (Hg : forall d, nn d -> pos (g d)) : forall x y acc, length x = length y -> Forall fin x -> Forall fin y -> pos acc -> exists v, distance_loop g x y acc = Ok v /\ pos v.
Proof.
  induction x as [|a x IH]; intros [|b y] acc L Fx Fy P; try discriminate; cbn [distance_loop]; [eauto|].
  apply Forall_cons in Fx as [Fa Fx]. apply Forall_cons in Fy as [Fb Fy]. apply IH; [cbn in L; lia|assumption ..|].
  apply add_pos; [exact P|]. apply Hg. apply sub_nn; [exact Fa|apply fin_nn, Fb].
Qed.
