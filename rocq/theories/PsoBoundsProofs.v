(** * Proofs about the initial swarm and the bounds of the search space *)
From Verif Require Export PsoBestProofs PopulationSpec.
From Verif Require Import F64R SusProofs PopulationProofs.
From Coq Require Import Reals Lra.
From Flocq Require Import Core IEEE754.BinarySingleNaN.
Local Existing Instances Hfexp HNE Hprec53 Hmax1024.
Open Scope nat_scope.

Lemma in01_finite u : fvalid u -> in01 u -> ffinite u = true /\ (0 <= f2r u <= 1)%R.
Proof.
  intros V (_ & H0 & H1). assert (F : ffinite u = true) by (destruct u as [|[]| |]; try discriminate; reflexivity).
  split; [exact F|]. apply fle_R in H0, H1; auto using fvalid_f0, fvalid_f1. rewrite f2r_f0 in H0. rewrite f2r_f1 in H1. lra.
Qed.

Lemma lerp_within lo hi u : finite_f64 lo -> finite_f64 hi -> fle lo hi = true -> ffinite (fsub hi lo) = true -> fvalid u -> in01 u ->
  fle (fadd (fsub hi lo) lo) hi = true ->
  let x := fadd (fmul u (fsub hi lo)) lo in finite_f64 x /\ fle lo x = true /\ fle x hi = true.
Proof.
  intros [Vl Fl] [Vh Fh] Hle Fw Vu Hu HB x. destruct (in01_finite u Vu Hu) as [Fu Ru]. apply fle_R in Hle; auto.
  set (W := fsub hi lo) in *. assert (Vw : fvalid W) by (apply fvalid_sub; auto).
  assert (Hw : f2r W = rnd (f2r hi - f2r lo)).
  { destruct (Rlt_le_dec (Rabs (rnd (f2r hi - f2r lo))) BOUND) as [H|H].
    - apply (fsub_R hi lo Vh Vl Fh Fl H).
    - exfalso. unfold W in Fw. clear HB W Vw x. revert Fw H. destruct (fvalid_ex hi Vh) as [a ->], (fvalid_ex lo Vl) as [b ->].
      rewrite fsub_B, ffinite_B, !f2r_B. intros Fw H. rewrite ffinite_B in Fh, Fl.
      pose proof (Bminus_correct 53 1024 _ _ mode_NE a b Fh Fl) as C. unfold rnd in H.
      rewrite Rlt_bool_false in C by exact H. destruct C as [C _].
      destruct (Bminus mode_NE a b) as [s|s| |s m e B]; cbn in Fw, C; try discriminate;
      destruct (Bsign a); discriminate. }
  assert (Hw0 : (0 <= f2r W)%R) by (rewrite Hw, <- rnd_0; apply rnd_le; lra).
  assert (B : (0 <= rnd (f2r u * f2r W) <= f2r W)%R).
  { split.
    - rewrite <- rnd_0. apply rnd_le. apply Rmult_le_pos; lra.
    - rewrite <- (rnd_id W Vw) at 2. apply rnd_le. rewrite <- (Rmult_1_l (f2r W)) at 2. apply Rmult_le_compat_r; lra. }
  destruct (fmul_R u W Vu Vw Fu Fw) as [Em Fm].
  { rewrite Rabs_pos_eq by lra. pose proof (f2r_bound _ Vw) as B2. rewrite Rabs_pos_eq in B2 by lra. lra. }
  assert (Vm : fvalid (fmul u W)) by (apply fvalid_mul; auto).
  assert (BS : (Rabs (rnd (f2r W + f2r lo)) < BOUND)%R -> (rnd (f2r W + f2r lo) <= f2r hi)%R).
  { intros H. destruct (fadd_R W lo Vw Vl Fw Fl H) as [Ea Fa]. apply fle_R in HB; auto using fvalid_add. lra. }
  assert (LS : (f2r lo <= rnd (f2r W + f2r lo))%R) by (rewrite <- (rnd_id lo Vl) at 1; apply rnd_le; lra).
  assert (HS : (rnd (f2r W + f2r lo) <= f2r hi)%R).
  { destruct (Rlt_le_dec (Rabs (rnd (f2r W + f2r lo))) BOUND) as [H|H]; [auto|]. exfalso. revert HB H. clear x Em Fm Vm BS.
    clearbody W. destruct (fvalid_ex W Vw) as [a ->], (fvalid_ex lo Vl) as [b ->]. rewrite fadd_B. rewrite ffinite_B in Fw, Fl. rewrite !f2r_B in Hw0. rewrite !f2r_B. intros HB H.
    pose proof (Bplus_correct 53 1024 _ _ mode_NE a b Fw Fl) as C. unfold rnd in H. rewrite Rlt_bool_false in C by exact H. destruct C as [C C2].
    pose proof (f2r_bound _ Vl) as BL. rewrite f2r_B in BL. apply Rabs_def2 in BL.
    assert (Sa : Bsign a = false).
    { destruct (Bsign a) eqn:Sa; [|reflexivity]. exfalso. assert (B2R a <= 0)%R.
      { destruct a as [s|s| |s m e Ba]; cbn in *; try lra. subst s. apply F2R_le_0. cbn. lia. }
      assert (X : (B2R a + B2R b = B2R b)%R) by lra. rewrite X in H. rewrite round_generic in H; auto with typeclass_instances; [|apply generic_format_B2R].
      assert (Y : (Rabs (B2R b) < BOUND)%R) by (apply Rabs_def1; lra). lra. }
    rewrite Sa in C. rewrite C in HB. cbn in HB. destruct hi as [|[]| |[] ? ?]; discriminate. }
  assert (Hb : (f2r lo <= rnd (f2r (fmul u W) + f2r lo) <= f2r hi)%R).
  { rewrite Em. split.
    - rewrite <- (rnd_id lo Vl) at 1. apply rnd_le. lra.
    - eapply Rle_trans; [|exact HS]. apply rnd_le. lra. }
  destruct (fadd_R (fmul u W) lo Vm Vl Fm Fl) as [Ea Fa].
  { pose proof (f2r_bound _ Vl) as B1. pose proof (f2r_bound _ Vh) as B2. apply Rabs_def2 in B1, B2. apply Rabs_def1; lra. }
  assert (Va : fvalid x) by (apply fvalid_add; auto). split; [split; [exact Va|exact Fa]|]. split; apply fle_R; auto; unfold x; rewrite Ea; lra.
Qed.

Lemma sample01_valid r : fvalid (fst (sample01 r)).
Proof. unfold sample01. destruct (_ && _); cbn [fst]; [apply fvalid_of_bits|apply fvalid_f0]. Qed.
Lemma draw_coordinates_within dims lo hi vlo vhi (P Q : f64 -> Prop) :
  (forall u, fvalid u -> in01 u -> P (fadd (fmul u (fsub hi lo)) lo)) -> (forall u, fvalid u -> in01 u -> Q (fadd (fmul u (fsub vhi vlo)) vlo)) ->
  forall r xs vs r', draw_coordinates dims lo hi vlo vhi r = (xs, vs, r') -> Forall P xs /\ Forall Q vs.
Proof.
  intros HP HQ. induction dims as [|d IH]; intros r xs vs r' H; cbn [draw_coordinates] in H; [injection H as <- <- <-; auto|].
  pose proof (sample01_valid r) as V1. pose proof (sample01_in r) as I1. destruct (sample01 r) as [u ra].
  pose proof (sample01_valid ra) as V2. pose proof (sample01_in ra) as I2. destruct (sample01 ra) as [v rb].
  destruct (draw_coordinates d lo hi vlo vhi rb) as [[xs1 vs1] rc] eqn:E. injection H as <- <- <-. destruct (IH _ _ _ _ E) as [A B]. split; constructor; auto.
Qed.
Lemma generate_particles_within f count dims lo hi (P Q : f64 -> Prop) :
  (forall u, fvalid u -> in01 u -> P (fadd (fmul u (fsub hi lo)) lo)) ->
  (forall u, fvalid u -> in01 u -> let W := fabs (fsub hi lo) in Q (fadd (fmul u (fsub W (fneg W))) (fneg W))) ->
  forall r ps r', generate_particles f count dims lo hi r = (ps, r') -> Forall (fun p => Forall P (position p) /\ Forall Q (velocity p)) ps.
Proof.
  intros HP HQ. induction count as [|n IH]; intros r ps r' H; cbn [generate_particles] in H; [injection H as <- <-; constructor|].
  unfold particle_generate in H. destruct (draw_coordinates dims lo hi _ _ r) as [[xs vs] ra] eqn:E. destruct (generate_particles f n dims lo hi ra) as [ps1 rb] eqn:E1.
  injection H as <- <-. constructor; [|eauto]. cbn [position velocity]. eapply draw_coordinates_within; eauto.
Qed.
Lemma initial_within f count dims lo hi r s r' : proper_range (lo, hi) -> fle (fadd (fsub hi lo) lo) hi = true ->
  swarm_generate f count dims lo hi r = Ok (s, r') ->
  Forall (fun p => Forall (fun x => fle lo x = true /\ fle x hi = true) (position p)) (particles s).
Proof.
  intros (Fl & Fh & Hle & Fw) HB H. cbn [fst snd] in *. unfold swarm_generate in H. destruct (generate_particles f count dims lo hi r) as [ps ra] eqn:E.
  apply obind_Ok in H as (p0 & Hp0 & H). injection H as <- <-. cbn [particles].
  eapply Forall_impl; [eapply (generate_particles_within f count dims lo hi (fun x => fle lo x = true /\ fle x hi = true) (fun _ => True)); [| |exact E]|].
  - intros u Vu Hu. apply (lerp_within lo hi u); auto.
  - auto.
  - intros p [H _]. exact H.
Qed.
