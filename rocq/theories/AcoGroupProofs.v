(** * Proofs about the group-wise pheromone update *)
From Verif Require Export AcoGradeProofs.
From Verif Require Import F64R SusProofs PopulationProofs.
From Coq Require Import Reals Lra.
From Flocq Require Import Core BinarySingleNaN.
Open Scope nat_scope.
Local Existing Instances Hfexp HNE Hprec53 Hmax1024.

(** ** Bounds *)
Lemma find_bounds_Ok sols lo hi : find_bounds sols = Ok (lo, hi) -> no_nan sols ->
  Forall (fun s => fle lo (sol_fitness s) = true /\ fle (sol_fitness s) hi = true) sols /\
  (exists s, s ∈ sols /\ sol_fitness s = lo) /\ (exists s, s ∈ sols /\ sol_fitness s = hi).
Proof.
  unfold find_bounds. intros H Hn. apply obind_Ok in H as (s0 & H0 & H). injection H as H. destruct sols as [|s1 sols1]; [discriminate|]. cbn in H0. injection H0 as ->.
  set (all := s0 :: sols1) in *. assert (Hin : s0 ∈ all) by left.
  assert (G : forall l b b', l ⊆ all -> (exists s, s ∈ all /\ sol_fitness s = b.1) -> (exists s, s ∈ all /\ sol_fitness s = b.2) ->
     foldl (fun b x => (if flt (sol_fitness x) (fst b) then sol_fitness x else fst b, if fgt (sol_fitness x) (snd b) then sol_fitness x else snd b)) b l = b' ->
     fle b'.1 b.1 = true /\ fle b.2 b'.2 = true /\ (exists s, s ∈ all /\ sol_fitness s = b'.1) /\ (exists s, s ∈ all /\ sol_fitness s = b'.2) /\
     Forall (fun s => fle b'.1 (sol_fitness s) = true /\ fle (sol_fitness s) b'.2 = true) l).
  { assert (NN : forall v, (exists s, s ∈ all /\ sol_fitness s = v) -> F64.is_nan v = false).
    { intros v (s & Hs & <-). unfold no_nan in Hn. rewrite Forall_forall in Hn. auto. }
    induction l as [|x l IH]; intros b b' Hsub H1 H2 Hf; cbn [foldl] in Hf.
    - subst b'. split_and!; auto using fle_refl.
    - assert (Hx : x ∈ all) by (apply Hsub; left). assert (Nx : F64.is_nan (sol_fitness x) = false) by eauto.
      pose proof (NN _ H1) as N1. pose proof (NN _ H2) as N2.
      destruct (IH (if flt (sol_fitness x) b.1 then sol_fitness x else b.1, if fgt (sol_fitness x) b.2 then sol_fitness x else b.2) b' ltac:(intros y Hy; apply Hsub; right; exact Hy)
                 ltac:(cbn [fst]; destruct (flt (sol_fitness x) b.1); eauto) ltac:(cbn [snd]; destruct (fgt (sol_fitness x) b.2); eauto) Hf) as (L1 & L2 & E1 & E2 & F).
      cbn [fst snd] in L1, L2.
      assert (A1 : fle (if flt (sol_fitness x) b.1 then sol_fitness x else b.1) b.1 = true /\ fle (if flt (sol_fitness x) b.1 then sol_fitness x else b.1) (sol_fitness x) = true).
      { destruct (flt (sol_fitness x) b.1) eqn:E; split; auto using fle_refl, flt_le, not_flt_fle. }
      assert (A2 : fle b.2 (if fgt (sol_fitness x) b.2 then sol_fitness x else b.2) = true /\ fle (sol_fitness x) (if fgt (sol_fitness x) b.2 then sol_fitness x else b.2) = true).
      { unfold fgt. destruct (flt b.2 (sol_fitness x)) eqn:E; split; auto using fle_refl, flt_le, not_flt_fle. }
      destruct A1 as [A1 A1'], A2 as [A2 A2']. split_and!; auto.
      + eapply fle_trans; eauto.
      + eapply fle_trans; eauto.
      + constructor; [|exact F]. split; eapply fle_trans; eauto. }
  assert (Hs0 : exists s, s ∈ all /\ sol_fitness s = sol_fitness s0) by eauto.
  destruct (G all (sol_fitness s0, sol_fitness s0) (lo, hi) ltac:(intros ? ?; assumption) Hs0 Hs0 H) as (_ & _ & E1 & E2 & F). cbn [fst snd] in *. auto.
Qed.

(** ** The group index is monotone *)
Lemma Rdiv_nonneg (x y : R) : (0 <= x)%R -> (0 < y)%R -> (0 <= x / y)%R.
Proof. intros Hx Hy. apply Rmult_le_pos; [exact Hx|]. apply Rlt_le, Rinv_0_lt_compat, Hy. Qed.
Lemma f_to_usize_max x : (f_to_usize x <= 2 ^ 64 - 1)%N.
Proof. destruct x as [|[]| |[] m e]; cbn [f_to_usize]; try lia. Qed.
Lemma f_to_usize_mono x y : fvalid x -> fvalid y -> ffinite x = true -> ffinite y = true -> (0 <= f2r x <= f2r y)%R -> (f_to_usize x <= f_to_usize y)%N.
Proof.
  intros Vx Vy Fx Fy H. pose proof (f_to_usize_floor x Vx Fx ltac:(lra)) as Ex. pose proof (f_to_usize_floor y Vy Fy ltac:(lra)) as Ey.
  assert (L : (Zfloor (f2r x) <= Zfloor (f2r y))%Z) by (apply Zfloor_le; lra). lia.
Qed.
Lemma fdiv_nonneg x y : fvalid x -> fvalid y -> ffinite x = true -> ffinite y = true -> (0 <= f2r x)%R -> (0 < f2r y)%R ->
  (ffinite (fdiv x y) = true /\ f2r (fdiv x y) = rnd (f2r x / f2r y)) \/ (fdiv x y = finf /\ (BOUND <= rnd (f2r x / f2r y))%R).
Proof.
  intros Vx Vy Fx Fy Hx Hy. assert (Hq : (0 <= f2r x / f2r y)%R) by (apply Rdiv_nonneg; lra).
  assert (Hr : (0 <= rnd (f2r x / f2r y))%R) by (rewrite <- rnd_0; apply rnd_le, Hq).
  destruct (Rlt_le_dec (Rabs (rnd (f2r x / f2r y))) BOUND) as [H|H].
  - left. destruct (fdiv_R x y Vx Vy Fx ltac:(lra) H). auto.
  - right. split; [|rewrite Rabs_pos_eq in H by exact Hr; exact H].
    destruct (fvalid_ex x Vx) as [a Ea], (fvalid_ex y Vy) as [b Eb]. subst x y. rewrite fdiv_B. rewrite !ffinite_B in *. rewrite !f2r_B in *.
    pose proof (Bdiv_correct 53 1024 Hprec53 Hmax1024 mode_NE a b ltac:(lra)) as C. unfold rnd in H. cbn [round_mode] in C.
    rewrite Rlt_bool_false in C by exact H. rewrite C. unfold binary_overflow. cbn.
    destruct b as [sb|sb| |sb mb eb Bb]; try discriminate; try (cbn [B2R] in Hy; lra).
    assert (sb = false) as ->.
    { destruct sb; [|reflexivity]. exfalso. cbn [B2R] in Hy. pose proof (F2R_lt_0 radix2 (Float radix2 (cond_Zopp true (Z.pos mb)) eb) ltac:(cbn; lia)). lra. }
    destruct a as [sa|sa| |sa ma ea Ba]; try discriminate; cbn [Bsign].
    assert (sa = false) as ->; [|reflexivity].
    destruct sa; [|reflexivity]. exfalso. cbn [B2R] in Hx. pose proof (F2R_lt_0 radix2 (Float radix2 (cond_Zopp true (Z.pos ma)) ea) ltac:(cbn; lia)). lra.
Qed.
Lemma fsub_nonneg x y : nonneg_finite x -> nonneg_finite y -> fle y x = true ->
  fvalid (fsub x y) /\ ffinite (fsub x y) = true /\ f2r (fsub x y) = rnd (f2r x - f2r y) /\ (0 <= f2r (fsub x y))%R.
Proof.
  intros (Vx & Fx & Px) (Vy & Fy & Py) L. apply fle_R in L; auto. apply fle_R in Px, Py; auto using fvalid_f0. rewrite f2r_f0 in Px, Py.
  assert (H0 : (0 <= rnd (f2r x - f2r y))%R) by (rewrite <- rnd_0; apply rnd_le; lra).
  assert (H1 : (rnd (f2r x - f2r y) <= f2r x)%R) by (rewrite <- (rnd_id x Vx) at 2; apply rnd_le; lra).
  destruct (fsub_R x y Vx Vy Fx Fy) as [E F].
  { rewrite Rabs_pos_eq by exact H0. pose proof (f2r_bound _ Vx) as B. apply Rabs_def2 in B. lra. }
  split_and!; auto using fvalid_sub. rewrite E. exact H0.
Qed.
Lemma fdiv_zero_usize d z : ffinite d = true -> f2r z = 0%R -> ffinite z = true -> fvalid z -> exists big : bool, f_to_usize (fdiv d z) = (if big then 2 ^ 64 - 1 else 0)%N /\
  (f2r d = 0%R -> big = false).
Proof.
  intros Fd Ez Fz Vz. destruct z as [sz|sz| |sz m e]; try discriminate.
  - destruct d as [sd|sd| |sd m e]; try discriminate.
    + exists false. split; reflexivity.
    + exists (negb (xorb sd sz)). split; [destruct sd, sz; reflexivity|]. intros E. exfalso. revert E. unfold f2r, SF2R. apply F2R_neq_0. destruct sd; discriminate.
  - exfalso. revert Ez. unfold f2r, SF2R. apply F2R_neq_0. destruct sz; discriminate.
Qed.
Lemma part_mono lo inc parts a b : nonneg_finite lo -> nonneg_finite inc -> nonneg_finite (sol_fitness a) -> nonneg_finite (sol_fitness b) ->
  fle lo (sol_fitness a) = true -> fle (sol_fitness a) (sol_fitness b) = true ->
  part_of lo inc parts a <= part_of lo inc parts b.
Proof.
  intros Hlo Hinc Ha Hb La Lab. assert (Lb : fle lo (sol_fitness b) = true) by (eapply fle_trans; eauto).
  destruct (fsub_nonneg _ _ Ha Hlo La) as (Va & Fa & Ea & Pa). destruct (fsub_nonneg _ _ Hb Hlo Lb) as (Vb & Fb & Eb & Pb).
  assert (Hd : (f2r (fsub (sol_fitness a) lo) <= f2r (fsub (sol_fitness b) lo))%R).
  { rewrite Ea, Eb. apply rnd_le. destruct Ha as (? & ? & _), Hb as (? & ? & _). apply fle_R in Lab; auto. lra. }
  assert (X : (f_to_usize (fdiv (fsub (sol_fitness a) lo) inc) <= f_to_usize (fdiv (fsub (sol_fitness b) lo) inc))%N); [|unfold part_of; lia].
  set (da := fsub (sol_fitness a) lo) in *. set (db := fsub (sol_fitness b) lo) in *.
  destruct Hinc as (Vi & Fi & Pi). apply fle_R in Pi; auto using fvalid_f0. rewrite f2r_f0 in Pi.
  destruct (Rle_lt_or_eq_dec _ _ Pi) as [Pi'|Zi].
  - destruct (fdiv_nonneg db inc Vb Vi Fb Fi Pb Pi') as [[Fq2 Eq2]|[Eq2 _]]; [|rewrite Eq2; pose proof (f_to_usize_max (fdiv da inc)); exact H].
    assert (Hle : (rnd (f2r da / f2r inc) <= rnd (f2r db / f2r inc))%R).
    { apply rnd_le. apply Rmult_le_compat_r; [|exact Hd]. apply Rlt_le, Rinv_0_lt_compat, Pi'. }
    destruct (fdiv_nonneg da inc Va Vi Fa Fi Pa Pi') as [[Fq1 Eq1]|[_ HB]].
    + apply f_to_usize_mono; auto using fvalid_div. rewrite Eq1, Eq2. split; [|exact Hle]. rewrite <- rnd_0. apply rnd_le. apply Rdiv_nonneg; lra.
    + exfalso. pose proof (f2r_bound _ (fvalid_div _ _ Vb Vi)) as B. rewrite Eq2 in B. apply Rabs_def2 in B. lra.
  - destruct (fdiv_zero_usize da inc Fa ltac:(lra) Fi Vi) as (b1 & E1 & Z1). 
    destruct (Req_dec (f2r da) 0) as [Ez|Nz]; [rewrite E1, Z1 by exact Ez; lia|].
    (* both differences are positive: the same infinity *)
    assert (P1 : (0 < f2r da)%R) by lra. assert (P2 : (0 < f2r db)%R) by lra.
    assert (Pos : forall d, ffinite d = true -> (0 < f2r d)%R -> exists m e, d = S754_finite false m e).
    { intros d Fd Pd. destruct d as [s|s| |s m e]; try discriminate; [unfold f2r in Pd; cbn in Pd; lra|]. destruct s; [|eauto].
      exfalso. unfold f2r, SF2R in Pd. pose proof (F2R_lt_0 radix2 (Float radix2 (cond_Zopp true (Z.pos m)) e) ltac:(cbn; lia)). lra. }
    destruct (Pos da Fa P1) as (m1 & e1 & ->). destruct (Pos db Fb P2) as (m2 & e2 & ->).
    destruct inc as [s|s| |s m e]; try discriminate; [destruct s; cbn; lia|]. exfalso. revert Zi. apply not_eq_sym. unfold f2r, SF2R. apply F2R_neq_0. destruct s; discriminate.
Qed.
Lemma part_worst lo inc parts s : ffinite lo = true -> fvalid lo -> ffinite inc = true -> sol_fitness s = lo -> part_of lo inc parts s = 0.
Proof.
  intros Fl Vl Fi E. unfold part_of. rewrite E.
  assert (Ez : exists z, fsub lo lo = S754_zero z).
  { destruct (fsub_R lo lo Vl Vl Fl Fl) as [E1 F1].
    - rewrite (Rminus_diag_eq _ _ eq_refl), rnd_0, Rabs_R0. apply bpow_gt_0.
    - rewrite (Rminus_diag_eq _ _ eq_refl), rnd_0 in E1. destruct (fsub lo lo) as [z|z| |z m e]; try discriminate; [eauto|]. exfalso. revert E1. unfold f2r, SF2R. apply F2R_neq_0. destruct z; discriminate. }
  destruct Ez as [z ->]. destruct inc as [si|si| |si m e]; try discriminate; destruct z; cbn; lia.
Qed.
Lemma increment_nonneg lo hi parts : nonneg_finite lo -> nonneg_finite hi -> fle lo hi = true -> 0 < parts -> (Z.of_nat parts <= 2 ^ 53)%Z ->
  nonneg_finite (fdiv (fsub hi lo) (f_of_nat parts)) /\ f2r (fdiv (fsub hi lo) (f_of_nat parts)) = rnd (f2r (fsub hi lo) / INR parts).
Proof.
  intros Hlo Hhi L H0 Hp. destruct (fsub_nonneg _ _ Hhi Hlo L) as (V & F & E & P). destruct (f_of_nat_exact parts Hp) as (Vn & Fn & En).
  assert (Hn : (1 <= INR parts)%R) by (change 1%R with (INR 1); apply le_INR; lia).
  assert (Hq : (0 <= f2r (fsub hi lo) / INR parts <= f2r (fsub hi lo))%R).
  { split; [apply Rdiv_nonneg; lra|]. apply Rmult_le_reg_r with (INR parts); [lra|]. unfold Rdiv. rewrite Rmult_assoc, Rinv_l by lra. nra. }
  assert (R0 : (0 <= rnd (f2r (fsub hi lo) / INR parts))%R) by (rewrite <- rnd_0; apply rnd_le, Hq).
  assert (R1 : (rnd (f2r (fsub hi lo) / INR parts) <= f2r (fsub hi lo))%R) by (rewrite <- (rnd_id _ V) at 2; apply rnd_le, Hq).
  destruct (fdiv_R (fsub hi lo) (f_of_nat parts) V Vn F) as [E1 F1]; [lra| |].
  { rewrite En, Rabs_pos_eq by exact R0. pose proof (f2r_bound _ V) as B. apply Rabs_def2 in B. lra. }
  rewrite En in E1. split; [|exact E1]. apply nonneg_of_R; auto using fvalid_div. lra.
Qed.

(** ** The groups *)
Lemma groups_spec (f : solution -> nat) : forall sols gs gs',
  ofold (fun (gs : list (list solution)) x => g ← index gs (f x); assign gs (f x) (g ++ [x])) gs sols = Ok gs' ->
  length gs' = length gs /\ Forall (fun x => f x < length gs) sols /\
  forall i g, gs !! i = Some g -> gs' !! i = Some (g ++ filter (fun x => f x = i) sols).
Proof.
  induction sols as [|x sols IH]; intros gs gs' H; cbn [ofold] in H.
  - injection H as <-. split_and!; auto. intros i g Hg. rewrite filter_nil, app_nil_r. exact Hg.
  - apply obind_Ok in H as (gs1 & H1 & H). apply obind_Ok in H1 as (g0 & Hg0 & H1). unfold assign in H1. case_decide as Hlt; [|discriminate]. injection H1 as <-.
    destruct (IH _ _ H) as (L & F & G). rewrite insert_length in L, F. split_and!; auto. intros i g Hg. rewrite filter_cons.
    destruct (decide (f x = i)) as [Ei|Ni].
    + subst i. assert (g0 = g) as -> by (apply index_Ok in Hg0; congruence). rewrite (G (f x) (g ++ [x])) by (rewrite list_lookup_insert; auto).
      rewrite <- app_assoc. reflexivity.
    + apply (G i g). rewrite list_lookup_insert_ne by congruence. exact Hg.
Qed.
Lemma filter_partition {A} (f : A -> nat) n (l : list A) : Forall (fun x => f x < n) l -> concat (map (fun i => filter (fun x => f x = i) l) (seq 0 n)) ≡ₚ l.
Proof.
  induction 1 as [|x l Hx Hl IH].
  - induction (seq 0 n) as [|i k IHk]; [reflexivity|exact IHk].
  - etransitivity; [|apply (perm_skip x), IH]. clear IH Hl.
    assert (Hs : x :: concat (map (fun i => filter (fun y => f y = i) l) (seq 0 n)) ≡ₚ concat (map (fun i => filter (fun y => f y = i) (x :: l)) (seq 0 n))); [|symmetry; exact Hs].
    assert (Hin : f x ∈ seq 0 n) by (apply elem_of_seq; lia). pose proof (NoDup_seq 0 n) as Hn.
    assert (Hout : forall k, f x ∉ k -> map (fun i => filter (fun y => f y = i) (x :: l)) k = map (fun i => filter (fun y => f y = i) l) k).
    { intros k Hk. apply map_ext_in. intros i Hi. rewrite filter_cons, decide_False; [reflexivity|]. intros <-. apply Hk, elem_of_list_In, Hi. }
    induction Hn as [|i k Hi Hn IH]; [inversion Hin|]. cbn [map concat]. apply elem_of_cons in Hin as [<-|Hin].
    + rewrite Hout by exact Hi. rewrite filter_cons, decide_True by reflexivity. reflexivity.
    + rewrite <- IH by exact Hin. rewrite filter_cons, decide_False by congruence. apply Permutation_middle.
Qed.
Lemma run_updates {S} (us : list (matrix -> list solution -> S -> outcome (matrix * S))) : forall ps gs s acc done s', length us <= length gs ->
  ofold (fun (st : list matrix * S) ug => let '(pu, (p, g)) := ug in '(p, s') ← pu p g (snd st); Ok (fst st ++ [p], s')) (acc, s) (zip us (zip ps gs)) = Ok (done, s') ->
  exists ps', done = acc ++ ps' /\ length ps' = min (length us) (length ps) /\ in_turn us ps gs s (ps' ++ drop (length ps') ps) s'.
Proof.
  induction us as [|u us IH]; intros ps gs s acc done s' Hl H.
  - cbn in H. injection H as <- <-. exists []. rewrite app_nil_r. split_and!; auto. constructor.
  - destruct ps as [|p ps].
    + cbn in H. injection H as <- <-. exists []. rewrite app_nil_r. split_and!; auto. constructor.
    + destruct gs as [|g gs]; [cbn in Hl; lia|]. cbn [zip zip_with ofold] in H. apply obind_Ok in H as ([acc1 s1] & H1 & H).
      apply obind_Ok in H1 as ([p1 s2] & Hu & H1). cbn [fst snd] in H1, Hu. injection H1 as <- <-.
      destruct (IH ps gs s2 _ _ _ ltac:(cbn [length] in Hl; lia) H) as (ps' & -> & L & T). exists (p1 :: ps'). rewrite <- app_assoc. split; [reflexivity|].
      split; [cbn [length]; lia|]. cbn [length drop app]. econstructor; eauto.
Qed.
Definition group_index (lo hi : f64) (parts : nat) (s : solution) : nat := part_of lo (fdiv (fsub hi lo) (f_of_nat parts)) parts s.
Lemma part_from_eval_spec {S} (us : list (matrix -> list solution -> S -> outcome (matrix * S))) ps sols s ps' s' :
  part_from_eval us ps sols s = Ok (ps', s') ->
  exists lo hi gs, find_bounds sols = Ok (lo, hi) /\ length gs = length us /\ concat gs ≡ₚ sols /\
    (forall i g, gs !! i = Some g -> g = filter (fun x => group_index lo hi (length ps) x = i) sols) /\ in_turn us ps gs s ps' s'.
Proof.
  unfold part_from_eval. intros H. apply obind_Ok in H as ([lo hi] & Hb & H). cbn zeta in H. apply obind_Ok in H as ([] & _ & H).
  apply obind_Ok in H as (gs & Hg & H). apply obind_Ok in H as ([done s1] & H1 & H). injection H as <- <-.
  destruct (groups_spec (fun x => part_of lo (fdiv (fsub hi lo) (f_of_nat (length ps))) (length ps) x) sols _ _ Hg) as (L & F & G). rewrite replicate_length in L, F.
  assert (Hgs : forall i g, gs !! i = Some g -> g = filter (fun x => group_index lo hi (length ps) x = i) sols).
  { intros i g Hi. pose proof (lookup_lt_Some _ _ _ Hi) as Hlt. rewrite L in Hlt. specialize (G i [] ltac:(apply lookup_replicate; auto)). rewrite Hi in G. injection G as ->. reflexivity. }
  exists lo, hi, gs. split_and!; auto.
  - rewrite <- (filter_partition (group_index lo hi (length ps)) (length us) sols) by exact F.
    replace gs with (map (fun i => filter (fun x => group_index lo hi (length ps) x = i) sols) (seq 0 (length us))); [reflexivity|].
    apply list_eq. intros i. rewrite list_lookup_fmap. destruct (decide (i < length us)) as [Hi|Hi].
    + rewrite lookup_seq_lt by exact Hi. cbn. destruct (gs !! i) as [g|] eqn:E; [rewrite (Hgs _ _ E); reflexivity|]. apply lookup_ge_None in E. lia.
    + rewrite lookup_seq_ge by lia. cbn. symmetry. apply lookup_ge_None. lia.
  - destruct (run_updates us ps gs s [] done s1 ltac:(lia) H1) as (qs & -> & _ & T). exact T.
Qed.
Lemma group_monotone sols lo hi parts a b : find_bounds sols = Ok (lo, hi) -> Forall (fun s => nonneg_finite (sol_fitness s)) sols ->
  0 < parts -> (Z.of_nat parts <= 2 ^ 53)%Z -> a ∈ sols -> b ∈ sols -> fle (sol_fitness a) (sol_fitness b) = true ->
  group_index lo hi parts a <= group_index lo hi parts b < parts.
Proof.
  intros Hb Hs H0 Hp Ha Hb' L. assert (Hn : no_nan sols) by (eapply Forall_impl; [exact Hs|]; intros x (_ & F & _); apply ffinite_not_nan, F).
  destruct (find_bounds_Ok sols lo hi Hb Hn) as (HF & (s1 & Hs1 & E1) & (s2 & Hs2 & E2)). rewrite Forall_forall in Hs, HF.
  pose proof (Hs s1 Hs1) as N1. pose proof (Hs s2 Hs2) as N2. rewrite E1 in N1. rewrite E2 in N2.
  split; [|unfold group_index, part_of; lia]. apply part_mono; auto.
  - apply increment_nonneg; auto. eapply fle_trans; apply HF; eauto.
  - apply HF, Ha.
Qed.
Lemma group_worst sols lo hi parts a : find_bounds sols = Ok (lo, hi) -> Forall (fun s => nonneg_finite (sol_fitness s)) sols ->
  0 < parts -> (Z.of_nat parts <= 2 ^ 53)%Z -> a ∈ sols -> (forall b, b ∈ sols -> fle (sol_fitness a) (sol_fitness b) = true) ->
  group_index lo hi parts a = 0.
Proof.
  intros Hb Hs H0 Hp Ha Hmin. assert (Hn : no_nan sols) by (eapply Forall_impl; [exact Hs|]; intros x (_ & F & _); apply ffinite_not_nan, F).
  pose proof Hb as Hb2. destruct (find_bounds_Ok sols lo hi Hb Hn) as (HF & (s1 & Hs1 & E1) & (s2 & Hs2 & E2)).
  assert (L : group_index lo hi parts a <= group_index lo hi parts s1) by (eapply group_monotone; eauto).
  rewrite Forall_forall in Hs, HF. pose proof (Hs s1 Hs1) as N1. pose proof (Hs s2 Hs2) as N2. rewrite E1 in N1. rewrite E2 in N2.
  enough (group_index lo hi parts s1 = 0) by lia. unfold group_index. apply part_worst; [apply N1|apply N1| |exact E1].
  apply increment_nonneg; auto. eapply fle_trans; apply HF; eauto.
Qed.
Lemma group_best sols lo hi parts a : find_bounds sols = Ok (lo, hi) -> Forall (fun s => nonneg_finite (sol_fitness s)) sols ->
  0 < parts -> (Z.of_nat parts <= 2 ^ 50)%Z -> a ∈ sols -> (forall b, b ∈ sols -> fle (sol_fitness b) (sol_fitness a) = true) ->
  (INR parts * bpow radix2 (-1022) <= f2r (fsub hi lo))%R -> group_index lo hi parts a = parts - 1.
Proof.
  intros Hb Hs H0 Hp Ha Hmax Hbig. assert (Hn : no_nan sols) by (eapply Forall_impl; [exact Hs|]; intros x (_ & F & _); apply ffinite_not_nan, F).
  destruct (find_bounds_Ok sols lo hi Hb Hn) as (HF & (s1 & Hs1 & E1) & (s2 & Hs2 & E2)).
  assert (L : group_index lo hi parts s2 <= group_index lo hi parts a < parts) by (eapply group_monotone; eauto; lia).
  rewrite Forall_forall in Hs, HF. pose proof (Hs s1 Hs1) as N1. pose proof (Hs s2 Hs2) as N2. rewrite E1 in N1. rewrite E2 in N2.
  assert (Llh : fle lo hi = true) by (rewrite <- E2; apply HF, Hs2).
  enough (parts - 1 <= group_index lo hi parts s2) by lia. unfold group_index, part_of. rewrite E2.
  destruct (fsub_nonneg _ _ N2 N1 Llh) as (Vd & Fd & _ & Pd). destruct (increment_nonneg lo hi parts N1 N2 Llh H0 ltac:(lia)) as [Hinc Einc].
  set (d := fsub hi lo) in *. set (inc := fdiv d (f_of_nat parts)) in *. destruct Hinc as (Vi & Fi & _).
  assert (Hn1 : (1 <= INR parts)%R) by (change 1%R with (INR 1); apply le_INR; lia).
  assert (Hq : (bpow radix2 (-1022) <= f2r d / INR parts)%R).
  { apply Rmult_le_reg_r with (INR parts); [lra|]. unfold Rdiv. rewrite Rmult_assoc, Rinv_l by lra. lra. }
  pose proof (rnd_rel _ Hq) as Hrel. rewrite <- Einc in Hrel.
  assert (Hinc0 : (0 < f2r inc)%R).
  { rewrite Einc. apply Rlt_le_trans with (rnd (bpow radix2 (-1022))); [|apply rnd_le, Hq]. unfold rnd. rewrite round_generic; auto with typeclass_instances.
    - apply bpow_gt_0.
    - apply generic_format_bpow. unfold SpecFloat.fexp, SpecFloat.emin. lia. }
  assert (HB : (0 < bpow radix2 (-53) <= / 2 ^ 53)%R).
  { split; [apply bpow_gt_0|]. change (bpow radix2 (-53)) with (/ IZR (2 ^ 53))%R. right. f_equal. change (2 ^ 53)%Z with (2 ^ Z.of_nat 53)%Z. rewrite <- pow_IZR. reflexivity. }
  assert (Hparts : (INR parts <= 2 ^ 50)%R).
  { rewrite INR_IZR_INZ. replace (2 ^ 50)%R with (IZR (2 ^ 50)) by (change (2 ^ 50)%Z with (2 ^ Z.of_nat 50)%Z; rewrite <- pow_IZR; reflexivity). apply IZR_le. exact Hp. }
  assert (Hge : (INR (parts - 1) <= f2r d / f2r inc)%R).
  { rewrite minus_INR by lia. cbn [INR]. apply Rmult_le_reg_r with (f2r inc); [exact Hinc0|]. unfold Rdiv. rewrite Rmult_assoc, Rinv_l, Rmult_1_r by lra.
    assert (Hd0 : (0 < f2r d)%R).
    { apply Rlt_le_trans with (INR parts * bpow radix2 (-1022))%R; [|exact Hbig]. apply Rmult_lt_0_compat; [lra|apply bpow_gt_0]. }
    apply Rle_trans with ((INR parts - 1) * (f2r d / INR parts * (1 + bpow radix2 (-53))))%R; [apply Rmult_le_compat_l; lra|].
    replace ((INR parts - 1) * (f2r d / INR parts * (1 + bpow radix2 (-53))))%R with (f2r d * ((1 - / INR parts) * (1 + bpow radix2 (-53))))%R by (field; lra).
    rewrite <- (Rmult_1_r (f2r d)) at 2. apply Rmult_le_compat_l; [lra|].
    assert (Hinv : (/ 2 ^ 50 <= / INR parts)%R) by (apply Rinv_le_contravar; lra).
    assert (H53 : (/ 2 ^ 53 <= / 2 ^ 50)%R) by (apply Rinv_le_contravar; lra).
    assert (0 < / INR parts)%R by (apply Rinv_0_lt_compat; lra). nra. }
  assert (X : (N.of_nat (parts - 1) <= f_to_usize (fdiv d inc))%N); [|lia].
  destruct (fdiv_nonneg d inc Vd Vi Fd Fi Pd Hinc0) as [[Fq Eq]|[-> _]]; [|cbn [f_to_usize finf]; lia].
  assert (Hq2 : (INR (parts - 1) <= f2r (fdiv d inc))%R).
  { rewrite Eq. destruct (f_of_nat_exact (parts - 1) ltac:(lia)) as (V & _ & E). rewrite <- E in *. rewrite <- (rnd_id _ V) at 1. apply rnd_le, Hge. }
  pose proof (f_to_usize_floor _ (fvalid_div _ _ Vd Vi) Fq ltac:(pose proof (pos_INR (parts - 1)); lra)) as Efl.
  assert (Hfl : (Z.of_nat (parts - 1) <= Zfloor (f2r (fdiv d inc)))%Z) by (apply Zfloor_lub; rewrite <- INR_IZR_INZ; exact Hq2).
  lia.
Qed.
