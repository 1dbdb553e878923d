(** * Proofs: the pheromone stays in its range, and what makes a run fail *)
From Verif Require Export AcoBoundSpec.
From Verif Require Import AcoModel AcoSpec AcoAntProofs AcoChoiceProofs AcoGradeProofs AcoPheromoneProofs AcoDepositProofs AcoTspProofs AcoRunProofs
  AcoTspGenProofs AcoCostProofs AcoWheelProofs ChanceProofs SusProofs F64R.
From Coq Require Import Reals Lra Lia.
From Flocq Require Import Core.Core IEEE754.BinarySingleNaN.
Local Existing Instances Hfexp HNE Hprec53 Hmax1024.
Open Scope R_scope.

Lemma rnd_up x : 0 <= x -> rnd x <= x * (1 + uu) + bpow radix2 (-1022).
Proof.
  intros P. pose proof (bpow_gt_0 radix2 (-1022)) as W. pose proof uu_pos. destruct (Rle_dec (bpow radix2 (-1022)) x) as [L|L].
  - pose proof (rnd_rel x P (or_intror L)). lra.
  - apply Rle_trans with (rnd (bpow radix2 (-1022))); [apply rnd_le; lra|]. unfold rnd. rewrite round_generic; auto with typeclass_instances; [nra|].
    change (SpecFloat.fexp 53 1024) with (FLT_exp (-1074) 53). apply generic_format_bpow. unfold FLT_exp. cbn. lia.
Qed.
Lemma keep_rate rate : nonneg_finite rate -> f2r rate <= 1 ->
  fvalid (fsub f1 rate) /\ ffinite (fsub f1 rate) = true /\ 0 <= f2r (fsub f1 rate) <= 1 /\ f2r (fsub f1 rate) <= (1 - f2r rate) * (1 + uu).
Proof.
  intros Nr Hr. pose proof (nonneg_R _ Nr) as P. destruct Nr as (Vr & Fr & _).
  assert (fvalid f1) as V1 by (vm_compute; reflexivity). assert (ffinite f1 = true) as F1 by reflexivity.
  pose proof (sub_rel f1 rate V1 Vr ltac:(rewrite f2r_f1; lra)) as S. rewrite f2r_f1 in S.
  assert (0 <= rnd (1 - f2r rate) <= 1) as B.
  { split; [rewrite <- rnd_0; apply rnd_le; lra|]. rewrite <- f2r_f1 at 2. rewrite <- (rnd_id f1 V1). apply rnd_le. rewrite f2r_f1. lra. }
  destruct (fsub_R f1 rate V1 Vr F1 Fr) as [E F]. { rewrite f2r_f1. rewrite Rabs_pos_eq by lra. apply Rle_lt_trans with (bpow radix2 1); [change (bpow radix2 1) with 2; lra|apply bpow_lt; lia]. }
  rewrite f2r_f1 in E. rewrite E. split; [apply fvalid_sub; auto|]. split; [exact F|]. split; lra.
Qed.

Section Bound.
Variables (B F : R) (A : nat).
Hypothesis HB : bpow radix2 (-900) <= B <= bpow radix2 900.
Hypothesis HF : 0 <= F.

Lemma evaporate x rate : in_range B x -> nonneg_finite rate -> f2r rate <= 1 ->
  in_range B (fmul x (fsub f1 rate)) /\ f2r (fmul x (fsub f1 rate)) <= B * (1 - f2r rate) * ((1 + uu) * (1 + uu)) + bpow radix2 (-1022).
Proof using HB.
  intros [Nx Hx] Nr Hr. destruct (keep_rate rate Nr Hr) as (Vk & Fk & K1 & K2). pose proof (nonneg_R _ Nx) as Px. pose proof (nonneg_R _ Nr) as Pr.
  destruct Nx as (Vx & Fx & Lx). destruct (fmul_shrinks x (fsub f1 rate) Vx Fx Lx Vk Fk K1) as (Vm & Fm & L0 & L1).
  apply fle_R in L1; auto. split; [split; [split; auto|lra]|].
  destruct (fmul_R x (fsub f1 rate) Vx Vk Fx Fk) as [E _].
  { assert (0 <= f2r x * f2r (fsub f1 rate)) as P by nra. rewrite Rabs_pos_eq by (rewrite <- rnd_0; apply rnd_le; exact P).
    apply Rle_lt_trans with (f2r x); [|pose proof (f2r_bound _ Vx) as W; rewrite Rabs_pos_eq in W by lra; exact W].
    rewrite <- (rnd_id x Vx) at 2. apply rnd_le. nra. }
  rewrite E. pose proof uu_pos. eapply Rle_trans; [apply rnd_up; nra|]. apply Rplus_le_compat_r. 
  assert (f2r x * f2r (fsub f1 rate) <= B * ((1 - f2r rate) * (1 + uu))) as X.
  { apply Rmult_le_compat; lra. }
  replace (B * (1 - f2r rate) * ((1 + uu) * (1 + uu))) with (B * ((1 - f2r rate) * (1 + uu)) * (1 + uu)) by ring. apply Rmult_le_compat_r; lra.
Qed.

Lemma deposits a b sols v v' : after_deposits a b sols v v' -> forall X, nonneg_finite v -> Forall (fun s => in_range F (sol_fitness s)) sols -> f2r v <= X ->
  (X + INR (length sols) * F) * (1 + uu) ^ length sols <= bpow radix2 1000 ->
  nonneg_finite v' /\ f2r v' <= (X + INR (length sols) * F) * (1 + uu) ^ length sols.
Proof using HF.
  induction 1 as [v|s sols v v' _ _ IH|s sols v v' _ _ IH]; intros X Nv Hs Hv Hbig.
  - cbn [length INR pow]. split; [exact Nv|lra].
  - inversion Hs as [|? ? [Nf Lf] Hs']; subst. cbn [length] in *. rewrite S_INR in *. cbn [pow] in *. set (k := length sols) in *. pose proof uu_pos as U. pose proof (cond_u1 k) as C. pose proof (pos_INR k) as K.
    pose proof (nonneg_R _ Nv) as Pv. pose proof (nonneg_R _ Nf) as Pf. set (P := (1 + uu) ^ k) in *.
    destruct Nv as (Vv & Fv & _), Nf as (Vf & Ff & _). pose proof (add_rel v (sol_fitness s) Vv Vf Pv Pf) as R0.
    assert ((X + F) * (1 + uu) <= (X + (INR k + 1) * F) * ((1 + uu) * P)) as S1.
    { replace ((X + (INR k + 1) * F) * ((1 + uu) * P)) with ((X + (INR k + 1) * F) * P * (1 + uu)) by ring. apply Rmult_le_compat_r; [lra|]. assert (0 <= INR k * F) by nra.
      apply Rle_trans with (X + (INR k + 1) * F); [lra|]. assert (0 <= X + (INR k + 1) * F) by lra. nra. }
    assert (rnd (f2r v + f2r (sol_fitness s)) <= (X + F) * (1 + uu)) as S2 by nra.
    assert (0 <= rnd (f2r v + f2r (sol_fitness s))) as S0 by (rewrite <- rnd_0; apply rnd_le; lra).
    destruct (fadd_R v (sol_fitness s) Vv Vf Fv Ff) as [E Fi].
    { rewrite Rabs_pos_eq by exact S0. apply Rle_lt_trans with (bpow radix2 1000); [lra|apply bpow_lt; lia]. }
    assert (((X + F) * (1 + uu) + INR k * F) * P <= (X + (INR k + 1) * F) * ((1 + uu) * P)) as S3.
    { replace ((X + (INR k + 1) * F) * ((1 + uu) * P)) with ((X + (INR k + 1) * F) * (1 + uu) * P) by ring. apply Rmult_le_compat_r; [lra|]. assert (0 <= INR k * F * uu) by (repeat apply Rmult_le_pos; lra). lra. }
    destruct (IH ((X + F) * (1 + uu))) as [N' L']; auto.
    + apply nonneg_of_R; [apply fvalid_add; auto|exact Fi|rewrite E; exact S0].
    + rewrite E. exact S2.
    + lra.
    + split; [exact N'|lra].
  - inversion Hs as [|? ? [Nf Lf] Hs']; subst. cbn [length] in *. rewrite S_INR in *. cbn [pow] in *. set (k := length sols) in *. pose proof uu_pos as U. pose proof (cond_u1 k) as C. pose proof (pos_INR k) as K.
    set (P := (1 + uu) ^ k) in *. pose proof (nonneg_R _ Nv) as Pv.
    assert ((X + INR k * F) * P <= (X + (INR k + 1) * F) * ((1 + uu) * P)) as S3.
    { replace ((X + (INR k + 1) * F) * ((1 + uu) * P)) with ((X + (INR k + 1) * F) * (1 + uu) * P) by ring. apply Rmult_le_compat_r; [lra|]. assert (0 <= INR k * F) by nra. assert (0 <= (X + (INR k + 1) * F) * uu) by (apply Rmult_le_pos; lra). lra. }
    destruct (IH X) as [N' L']; auto; [lra|]. split; [exact N'|lra].
Qed.

Lemma balance rate k : outweighs rate A F B -> (k <= S A)%nat ->
  (B * (1 - f2r rate) * ((1 + uu) * (1 + uu)) + bpow radix2 (-1022) + INR k * F) * (1 + uu) ^ k <= B.
Proof using HB HF.
  intros (Nr & Hr & H1 & H2) Hk. pose proof (nonneg_R _ Nr) as Pr. set (p := f2r rate) in *. pose proof uu_pos as U. pose proof (cond_u1 k) as C. pose proof (pos_INR A) as PA.
  assert (/ 2 ^ 53 = uu) as EU. { unfold uu. change (-53)%Z with (- (53))%Z. rewrite bpow_opp. f_equal. rewrite (pow_IZR 2 53). reflexivity. }
  assert (0 < 2 ^ 53) as P53 by (apply pow_lt; lra).
  assert (16 * (INR A + 4) * uu <= p) as H3. { rewrite <- EU. apply Rmult_le_reg_r with (2 ^ 53); [exact P53|]. rewrite Rmult_assoc, Rinv_l by lra. lra. }
  assert (INR k <= INR A + 1) as Lk by (rewrite <- S_INR; apply le_INR; exact Hk). pose proof (pos_INR k) as Pk.
  assert (INR (k + 2) * uu <= p / 16) as He. { rewrite plus_INR. change (INR 2) with 2. nra. }
  pose proof (one_plus_bound (k + 2) ltac:(lra)) as OB. rewrite pow_add in OB. 
  assert (INR k * F <= p * B / 2) as HD. { apply Rle_trans with ((INR A + 1) * F); [nra|lra]. }
  assert (bpow radix2 (-1022) <= p * B / 16) as Hsm.
  { assert (64 * uu <= p) by nra. apply Rle_trans with (4 * uu * bpow radix2 (-900)); [|pose proof (bpow_gt_0 radix2 (-900)); nra].
    change 4 with (bpow radix2 2). unfold uu. rewrite <- !bpow_plus. apply bpow_le. lia. }
  assert (0 < B) as PB by (pose proof (bpow_gt_0 radix2 (-900)); lra).
  set (Pk' := (1 + uu) ^ k) in *. set (Q := (1 + uu) ^ 2) in *. replace ((1 + uu) * (1 + uu)) with Q by (unfold Q; ring).
  set (e := INR (k + 2) * uu) in *. assert (1 <= Q) as Q1 by (unfold Q; cbn [pow]; nra).
  (* everything is at most (B (1-p) + p B / 16 + p B / 2) Q Pk' *)
  apply Rle_trans with ((B * (1 - p) + p * B / 16 + p * B / 2) * (Pk' * Q)).
  - replace ((B * (1 - p) + p * B / 16 + p * B / 2) * (Pk' * Q)) with ((B * (1 - p) * Q + (p * B / 16 + p * B / 2) * Q) * Pk') by ring.
    apply Rmult_le_compat_r; [lra|]. assert (0 <= p * B) by nra. assert ((p * B / 16 + p * B / 2) * 1 <= (p * B / 16 + p * B / 2) * Q) by (apply Rmult_le_compat_l; lra). lra.
  - assert (0 < Pk' * Q) as PQ by nra. set (Z := Pk' * Q) in *. assert (B * (1 - p) + p * B / 16 + p * B / 2 <= B * (1 - e)) as X by nra.
    apply Rle_trans with (B * (1 - e) * Z); [apply Rmult_le_compat_r; lra|]. nra.
Qed.

Lemma deposited rate a b sols x v' : outweighs rate A F B -> (length sols <= S A)%nat -> Forall (fun s => in_range F (sol_fitness s)) sols -> in_range B x ->
  after_deposits a b sols (fmul x (fsub f1 rate)) v' -> in_range B v'.
Proof using HB HF.
  intros Ho Hl Hs Hx Hd. pose proof (balance rate (length sols) Ho Hl) as Hbal. destruct Ho as (Nr & Hr & _). destruct (evaporate x rate Hx Nr Hr) as [[Nv _] Lv].
  destruct (deposits a b sols _ v' Hd _ Nv Hs Lv) as [N' L'].
  - eapply Rle_trans; [exact Hbal|]. eapply Rle_trans; [apply HB|]. apply bpow_le. lia.
  - split; [exact N'|lra].
Qed.

Lemma policy_range k best sols : in_range F (sol_fitness best) -> Forall (fun s => in_range F (sol_fitness s)) sols -> in_range F (sol_fitness (apply_policy k best sols)).
Proof.
  intros Hb Hs. rewrite Forall_forall in Hs. destruct k; cbn [apply_policy].
  - unfold iteration_best. destruct (find_best_sol sols) as [b| |] eqn:E; [|exact Hb|exact Hb]. apply Hs. apply find_best_in, E.
  - destruct (overall_best_cases best sols) as [-> |(b & E & _ & ->)]; [exact Hb|]. apply Hs. apply find_best_in, E.
Qed.

Lemma neighbours_dec p a b : neighbours p a b \/ ~ neighbours p a b.
Proof.
  assert (forall x y, follows p x y \/ ~ follows p x y) as D.
  { intros x y. destruct (decide (Exists (fun i => p !! i = Some x /\ p !! ((i + 1) mod length p)%nat = Some y) (seq 0 (length p)))) as [E|E].
    - left. apply Exists_exists in E as (i & _ & H). exists i. exact H.
    - right. intros (i & H1 & H2). apply E. apply Exists_exists. exists i. split; [|auto]. apply elem_of_seq. apply lookup_lt_Some in H1. lia. }
  unfold neighbours. destruct (D a b), (D b a); tauto.
Qed.
Lemma rule_range u n m sols best : (3 <= n)%nat -> sound_rule u A F B -> matrix_range B n m -> (length sols <= A)%nat ->
  Forall (fun s => tour n (sol_path s)) sols -> Forall (fun s => in_range F (sol_fitness s)) sols -> tour_or_none n best -> in_range F (sol_fitness best) ->
  exists m' best', apply_rule u m sols best = Ok (m', best') /\ matrix_range B n m' /\ tour_or_none n best' /\ in_range F (sol_fitness best').
Proof using HB HF.
  intros Hn Hu (Hr & Hc & Hm) Hl Ht Hs Hb Hbf. destruct (rule_ok u n m sols best Hr Hc Hb Ht) as (m' & best' & E & R & C & TB). exists m', best'. split; [exact E|].
  enough ((forall i j, (i < n)%nat -> (j < n)%nat -> in_range B (entry m' i j)) /\ in_range F (sol_fitness best')) as [X Y] by (split; [split; [exact R|split; [exact C|exact X]]|split; [exact TB|exact Y]]).
  destruct u as [rate|rate|policy rate lo hi|policy rate]; cbn [apply_rule sound_rule] in *.
  - apply obind_Ok in E as (m1 & E1 & E). injection E as -> ->. destruct (as_deposits rate m sols m' n Hn Ht E1) as (_ & _ & D). split; [|exact Hbf].
    intros i j Hi Hj. apply (deposited rate i j sols (entry m i j)); auto.
  - destruct (elitist_deposits rate m sols best m' best' n Hn Ht Hb E) as (Eb & _ & _ & D).
    assert (in_range F (sol_fitness best')) as Hb' by (rewrite Eb; exact (policy_range OverallBest best sols Hbf Hs)). split; [|exact Hb'].
    intros i j Hi Hj. apply (deposited rate i j (sols ++ [best']) (entry m i j)); auto.
    + rewrite app_length. cbn [length]. lia.
    + apply Forall_app. split; [exact Hs|]. constructor; [exact Hb'|constructor].
  - destruct Hu as (Nr & Hrate & Hlo & Hhi & Hlt). destruct (mmas_exact policy rate lo hi m sols best m' best' n Hn Ht Hb E) as [Eb V].
    destruct (mmas_spec _ rate lo hi m sols best m' best' Hlt E) as (_ & _ & _ & _ & Hoff).
    assert (in_range F (sol_fitness best')) as Hb' by (rewrite Eb; apply policy_range; auto). split; [|exact Hb']. intros i j Hi Hj.
    assert (forall a b, (a < n)%nat -> (b < n)%nat -> follows (sol_path best') a b -> in_range B (entry m' a b)) as Hon.
    { intros a b Ha Hb0 Hf. rewrite (proj1 (V a b Hf)). destruct (evaporate _ rate (Hm a b Ha Hb0) Nr Hrate) as [[Nv Lv] _]. set (v := fmul (entry m a b) (fsub f1 rate)) in *.
      unfold fclamp, fgt. destruct (flt lo (fadd v (sol_fitness best'))) eqn:E1; [|exact Hlo]. destruct (flt (fadd v (sol_fitness best')) hi) eqn:E2; [|exact Hhi].
      destruct Hlo as [(Vl & Fl & Pl) Bl], Hhi as [(Vh & Fh & Ph) Bh], Hb' as [(Vb & _ & _) _], Nv as (Vv & _ & _).
      assert (fvalid (fadd v (sol_fitness best'))) as Vx by (apply fvalid_add; auto). set (x := fadd v (sol_fitness best')) in *.
      assert (ffinite x = true) as Fx. { destruct x as [s|s| |s mm e]; try reflexivity; exfalso; [destruct s; [destruct lo as [?|[]| |[] ? ?]|destruct hi as [?|[]| |[] ? ?]]; discriminate|destruct hi as [?|[]| |[] ? ?]; discriminate]. }
      split; [split; [exact Vx|split; [exact Fx|exact (fle_trans _ _ _ Pl (flt_le _ _ E1))]]|]. apply flt_R in E2; auto. lra. }
    destruct (neighbours_dec (sol_path best') i j) as [[Hf|Hf]|Hno].
    + apply Hon; auto.
    + rewrite (proj2 (V j i Hf)). apply Hon; auto.
    + rewrite (Hoff i j Hno). apply evaporate; auto.
  - destruct (acs_deposits policy rate m sols best m' best' n Hn Ht Hb E) as (Eb & _ & _ & D).
    assert (in_range F (sol_fitness best')) as Hb' by (rewrite Eb; apply policy_range; auto). split; [|exact Hb'].
    intros i j Hi Hj. refine (deposited rate i j _ (entry m i j) _ Hu _ _ (Hm i j Hi Hj) (D i j)); [cbn; lia|].
    constructor; [|constructor]. cbn [sol_fitness]. destruct Hu as (Nr & Hr1 & _). destruct Hb' as [(Vb & Fb & Pb) Lb]. pose proof (nonneg_R _ Nr). destruct Nr as (Vr & Fr & _).
    destruct (fmul_shrinks (sol_fitness best') rate Vb Fb Pb Vr Fr ltac:(lra)) as (Vm & Fm & P0 & P1). apply fle_R in P1; auto. split; [split; auto|lra].
Qed.
End Bound.

(** ** The whole run *)
Lemma ok_inj {X} (a b : X) : Ok a = Ok b -> a = b.
Proof. congruence. Qed.
Section Run.
Variables (B F : R) (n A : nat) (beh : list ant -> matrix -> outcome (list (list nat) * list ant * matrix)) (w : matrix) (u : update_rule).
Hypothesis HB : bpow radix2 (-900) <= B <= bpow radix2 900.
Hypothesis HF : 0 <= F.
Hypothesis Hn : (3 <= n)%nat.
Hypothesis Hbeh : forall ants p, Forall (usable n) ants -> matrix_range B n p ->
  exists paths ants' p', beh ants p = Ok (paths, ants', p') /\ matrix_range B n p' /\ Forall (tour n) paths /\ Forall (usable n) ants' /\
    length ants' = length ants /\ (length paths <= length ants)%nat.
Hypothesis Hw : nrows w = n /\ ncols w = n.
Hypothesis Hfit : forall q c, tour n q -> path_cost w q = Ok c -> in_range F (fdiv f1 c).
Hypothesis Hu : sound_rule u A F B.

Definition running (p : matrix) (s : list ant * solution) : Prop :=
  matrix_range B n p /\ Forall (usable n) s.1 /\ (length s.1 <= A)%nat /\ tour_or_none n s.2 /\ in_range F (sol_fitness s.2).
Let program : aco matrix (list ant * solution) (nat * nat) := tsp beh w u ic_init ic_check.

Lemma iterate_range p s : running p s ->
  (exists evs p' s', aco_iterate program p s = Ok (evs, p', s') /\ running p' s') \/
  (aco_iterate program p s = Panic /\ exists ants' p', beh s.1 p = Ok ([], ants', p')).
Proof using All.
  intros (Hp & Hus & Hl & Ht & Hb). destruct s as [ants best]. cbn [fst snd] in *. destruct Hw as [Wr Wc].
  destruct (Hbeh ants p Hus Hp) as (paths & ants' & p1 & HA & Hp1 & HT & HU & HL' & HLp).
  unfold aco_iterate, program. cbn [tsp colony grader update fst snd]. rewrite HA. cbn [mbind outcome_bind].
  destruct (from_paths_ok n paths HT) as (us & -> & Eus). cbn [mbind outcome_bind].
  destruct (grading_ok w n us Wr Wc) as (sols & Hsols).
  { apply (Forall_map sol_path (fun q => Forall (fun v => (v < n)%nat) q)). rewrite Eus. eapply Forall_impl; [exact HT|]. intros q Hq. apply (tour_facts n q Hq). }
  rewrite Hsols. cbn [mbind outcome_bind]. pose proof Hsols as Hsols'. apply grading in Hsols as [HP _]. rewrite Eus in HP.
  destruct sols as [|s0 sols0]; [right; split; [reflexivity|]; exists ants', p1; cbn in HP; rewrite <- HP; reflexivity|]. left. set (sols := s0 :: sols0) in *.
  assert (HTS : Forall (fun x => tour n (sol_path x)) sols) by (apply (Forall_map sol_path (tour n)); rewrite HP; exact HT).
  assert (HFS : Forall (fun x => in_range F (sol_fitness x)) sols).
  { clearbody sols. clear -Hfit HTS Hsols'. revert sols HTS Hsols'. unfold path_length_inverse. induction us as [|x us IH]; intros sols HTS H; cbn [omapM] in H; [injection H as <-; constructor|].
    apply obind_Ok in H as (x1 & H1 & H). apply obind_Ok in H as (ss & H2 & H). apply ok_inj in H as <-. inversion_clear HTS as [|? ? T1 T2]. constructor; [|auto].
    unfold grade_solution in H1. apply obind_Ok in H1 as (c & Hc & H1). apply ok_inj in H1 as <-. cbn [sol_path sol_fitness] in *. exact (Hfit _ _ T1 Hc). }
  assert (length sols <= A)%nat as HLs. { rewrite <- (map_length sol_path), HP. lia. }
  destruct (find_best_ok sols) as [b ->]; [discriminate|]. cbn [mbind outcome_bind fst snd].
  destruct (rule_range B F A HB HF u n p1 sols best Hn Hu Hp1 HLs HTS HFS Ht Hb) as (m' & best' & -> & R & TB & FB). cbn [mbind outcome_bind fst snd].
  eexists _, _, _. split; [reflexivity|]. unfold running. cbn [fst snd]. split; [exact R|]. split; [exact HU|]. split; [lia|]. split; [exact TB|exact FB].
Qed.
Lemma loop_range k : forall fuel i p s, (i <= k)%nat -> (k - i < fuel)%nat -> running p s ->
  (exists evs l p' s', aco_loop program fuel p s (i, k) = Ok (evs, p', s') /\ evs ++ [AcoEnd] = protocol l /\ length l = (k - i)%nat /\ iterations program p s l p' s' /\
     Forall (fun x => matrix_range B n x.2) l) \/
  (aco_loop program fuel p s (i, k) = Panic /\ exists l p1 s1 ants' p', (length l < k - i)%nat /\ iterations program p s l p1 s1 /\ matrix_range B n p1 /\ Forall (fun x => matrix_range B n x.2) l /\
     beh s1.1 p1 = Ok ([], ants', p')).
Proof using All.
  induction fuel as [|fuel IH]; intros i p s Hi Hf Hs; [lia|]. cbn [aco_loop]. unfold program at 1 5. cbn [tsp tc_check ic_check fst snd].
  destruct (Nat.ltb_spec k (i + 1)) as [L|L].
  - left. exists [], [], p, s. split; [reflexivity|]. split; [reflexivity|]. split; [cbn; lia|]. split; constructor.
  - fold program. destruct (iterate_range p s Hs) as [(evs & p1 & s1 & E & Hs1)|(E & ants' & p' & E')].
    + rewrite E. cbn [mbind outcome_bind]. destruct (iterate_Ok _ _ _ _ _ _ E) as (sols & b & Hit & ->).
      destruct (IH (i + 1)%nat p1 s1 ltac:(lia) ltac:(lia) Hs1) as [(evs2 & l & p' & s' & E2 & El & Ll & Hl & Fl)|(E2 & l & p2 & s2 & ants' & p' & Ll & Hl & Mp & Fl & EA)]; rewrite E2; cbn [mbind outcome_bind].
      * left. eexists _, ((b, p1) :: l), p', s'. split; [reflexivity|]. split.
        { unfold protocol. cbn [map concat]. rewrite <- app_assoc. cbn [app]. do 4 f_equal. rewrite El. reflexivity. }
        split; [cbn [length]; lia|]. split; [econstructor; eauto|]. constructor; [apply Hs1|exact Fl].
      * right. split; [reflexivity|]. exists ((b, p1) :: l), p2, s2, ants', p'. split; [cbn [length]; lia|]. split; [econstructor; eauto|]. split; [exact Mp|].
        split; [constructor; [apply Hs1|exact Fl]|exact EA].
    + rewrite E. right. split; [reflexivity|]. exists [], p, s, ants', p'. split; [cbn; lia|]. split; [constructor|]. split; [apply Hs|]. split; [constructor|exact E'].
Qed.
Lemma run_range k fuel i p s : (k < fuel)%nat -> running p s ->
  (exists l p' s', aco_run program fuel p s (i, k) = Ok (protocol l, p', s') /\ length l = k /\ iterations program p s l p' s' /\ Forall (fun x => matrix_range B n x.2) l) \/
  (aco_run program fuel p s (i, k) = Panic /\ exists l p1 s1 ants' p', (length l < k)%nat /\ iterations program p s l p1 s1 /\ matrix_range B n p1 /\ Forall (fun x => matrix_range B n x.2) l /\
     beh s1.1 p1 = Ok ([], ants', p')).
Proof using All.
  intros Hf Hs. unfold aco_run. change (tc_init program (i, k)) with (0%nat, k).
  destruct (loop_range k fuel 0 p s ltac:(lia) ltac:(lia) Hs) as [(evs & l & p' & s' & E & El & Ll & Hl & Fl)|(E & l & p1 & s1 & a & p2 & Ll & R)]; rewrite E; cbn [mbind outcome_bind].
  - left. exists l, p', s'. rewrite El. split; [reflexivity|]. split; [lia|]. auto.
  - right. split; [reflexivity|]. exists l, p1, s1, a, p2. split; [lia|exact R].
Qed.
End Run.

Lemma ant_system_range B n op : (0 < n)%nat -> (Z.of_nat n <= 2 ^ 53)%Z -> (forall p, matrix_range B n p -> exists g, op p = Ok g /\ moderate g n) ->
  forall ants p, Forall (usable n) ants -> matrix_range B n p ->
  exists paths ants' p', ant_system op ants p = Ok (paths, ants', p') /\ matrix_range B n p' /\ Forall (tour n) paths /\ Forall (usable n) ants' /\
    length ants' = length ants /\ (length paths <= length ants)%nat.
Proof.
  intros H0 Hnmax Hop ants p Hus Hp. pose proof Hp as (Hr & Hc & _).
  destruct (Hop p Hp) as (g & Eg & Mg). destruct (ant_system_ok op n ants p g H0 Hnmax Hr Hus Eg Mg) as ([[paths ants'] p1] & HA).
  destruct (ant_system_spec op n _ _ _ _ _ H0 Hr Hus HA) as (-> & HT & HU & HL' & HLp & _). exists paths, ants', p. split; [exact HA|]. split; [exact Hp|].
  split; [exact HT|]. split; [exact HU|]. split; [exact HL'|]. rewrite HLp, fmap_length, take_length. lia.
Qed.

(** ** Fitness of tours over bounded distances *)
Lemma sum_finite M l : 0 <= M -> forall v X, nonneg_finite v -> Forall (in_range M) l -> f2r v <= X ->
  (X + INR (length l) * M) * (1 + uu) ^ length l <= bpow radix2 1000 -> ffinite (foldl fadd v l) = true.
Proof.
  intros HM. induction l as [|x l IH]; intros v X Nv Hs Hv Hbig; [apply Nv|].
  inversion Hs as [|? ? [Nf Lf] Hs']; subst. cbn [length foldl] in *. rewrite S_INR in *. cbn [pow] in *. set (k := length l) in *. pose proof uu_pos as U. pose proof (cond_u1 k) as C. pose proof (pos_INR k) as K.
  pose proof (nonneg_R _ Nv) as Pv. pose proof (nonneg_R _ Nf) as Pf. set (P := (1 + uu) ^ k) in *.
  destruct Nv as (Vv & Fv & _), Nf as (Vf & Ff & _). pose proof (add_rel v x Vv Vf Pv Pf) as R0.
  assert ((X + M) * (1 + uu) <= (X + (INR k + 1) * M) * ((1 + uu) * P)) as S1.
  { replace ((X + (INR k + 1) * M) * ((1 + uu) * P)) with ((X + (INR k + 1) * M) * P * (1 + uu)) by ring. apply Rmult_le_compat_r; [lra|]. assert (0 <= INR k * M) by nra.
    apply Rle_trans with (X + (INR k + 1) * M); [lra|]. assert (0 <= X + (INR k + 1) * M) by lra. nra. }
  assert (rnd (f2r v + f2r x) <= (X + M) * (1 + uu)) as S2 by nra.
  assert (0 <= rnd (f2r v + f2r x)) as S0 by (rewrite <- rnd_0; apply rnd_le; lra).
  destruct (fadd_R v x Vv Vf Fv Ff) as [E Fi].
  { rewrite Rabs_pos_eq by exact S0. apply Rle_lt_trans with (bpow radix2 1000); [lra|apply bpow_lt; lia]. }
  assert (((X + M) * (1 + uu) + INR k * M) * P <= (X + (INR k + 1) * M) * ((1 + uu) * P)) as S3.
  { replace ((X + (INR k + 1) * M) * ((1 + uu) * P)) with ((X + (INR k + 1) * M) * (1 + uu) * P) by ring. apply Rmult_le_compat_r; [lra|]. assert (0 <= INR k * M * uu) by (repeat apply Rmult_le_pos; lra). lra. }
  apply (IH (fadd v x) ((X + M) * (1 + uu))); auto.
  - apply nonneg_of_R; [apply fvalid_add; auto|exact Fi|rewrite E; exact S0].
  - rewrite E. exact S2.
  - lra.
Qed.
Lemma exact_sum_bounds L M l : Forall (fun x => L <= f2r x <= M) l -> INR (length l) * L <= exact_sum l <= INR (length l) * M.
Proof.
  induction 1 as [|x l Hx _ IH]; [unfold exact_sum; cbn; lra|]. unfold exact_sum in *. cbn [fold_right]. change (length (x :: l)) with (Datatypes.S (length l)). rewrite S_INR. lra.
Qed.
(** Distances from L to 2^900 between different places: the fitness of a tour is at most 4 / (n L). *)
Lemma fitness_range w n L q c : (2 <= n)%nat -> (Z.of_nat n <= 2 ^ 50)%Z -> bpow radix2 (-900) <= L <= bpow radix2 900 ->
  (forall i j, (i < n)%nat -> (j < n)%nat -> i <> j -> in_range (bpow radix2 900) (entry w i j) /\ L <= f2r (entry w i j)) ->
  tour n q -> path_cost w q = Ok c -> in_range (4 / (INR n * L)) (fdiv f1 c).
Proof.
  intros Hn Hmax HL Hw Ht Hc. apply cost_fold_spec in Hc as [_ ->]. set (l := map (fun e => entry w e.1 e.2) (windows q)).
  destruct (tour_facts n q Ht) as (Dq & Lq & Rq). assert (length l = n) as Ll by (unfold l; rewrite map_length, windows_length; exact Lq).
  assert (Forall (fun x => in_range (bpow radix2 900) x /\ L <= f2r x) l) as Hl.
  { apply Forall_map, Forall_forall. intros [a b] He. cbn [fst snd]. apply elem_of_list_lookup in He as [k Hk]. apply windows_lookup in Hk as (a' & b' & E & Ha & Hb). injection E as <- <-.
    rewrite Forall_forall in Rq. apply Hw; [apply Rq; eapply elem_of_list_lookup_2; eauto|apply Rq; eapply elem_of_list_lookup_2; eauto|]. intros <-.
    pose proof (NoDup_lookup _ _ _ _ Dq Ha Hb) as X. pose proof (lookup_lt_Some _ _ _ Ha) as Hlt. rewrite Lq in *. destruct (decide (k + 1 = n)%nat) as [E1|E1].
    - rewrite E1, Nat.mod_same in X by lia. lia.
    - rewrite Nat.mod_small in X by lia. lia. }
  pose proof uu_pos as U. pose proof (bpow_gt_0 radix2 900) as P9. pose proof (bpow_gt_0 radix2 (-900)) as P9'. pose proof (pos_INR n) as Pn.
  assert (INR n <= bpow radix2 50) as Hn50. { rewrite INR_IZR_INZ. change (bpow radix2 50) with (IZR (2 ^ 50)). apply IZR_le. exact Hmax. }
  assert (2 <= INR n) as Hn2 by (change 2 with (INR 2); apply le_INR; lia).
  assert (INR n * uu <= / 8) as Hnu. { apply Rle_trans with (bpow radix2 50 * uu); [apply Rmult_le_compat_r; lra|]. unfold uu. rewrite <- bpow_plus. change (bpow radix2 (50 + -53)) with (/ 8). lra. }
  assert ((1 + uu) ^ n <= 2) as Hup. { pose proof (one_plus_bound n ltac:(lra)) as OB. assert (0 < (1 + uu) ^ n) by (apply pow_lt; lra). nra. }
  assert (/ 2 <= (1 - uu) ^ n) as Hdn. { pose proof uu_small. pose proof (bernoulli n). lra. }
  assert (ffinite (float_sum l) = true) as Fc.
  { apply (sum_finite (bpow radix2 900) l ltac:(lra) f0 0 nonneg_f0); [eapply Forall_impl; [exact Hl|]; intros x [X _]; exact X|rewrite f2r_f0; lra|]. rewrite Ll.
    apply Rle_trans with (bpow radix2 50 * bpow radix2 900 * 2).
    - rewrite Rplus_0_l. apply Rmult_le_compat; [nra|apply pow_le; lra|apply Rmult_le_compat_r; lra|exact Hup].
    - change 2 with (bpow radix2 1). rewrite <- !bpow_plus. apply bpow_le. lia. }
  assert (Forall nonneg_finite l) as Nl by (eapply Forall_impl; [exact Hl|]; intros x [[X _] _]; exact X).
  pose proof (sum_accuracy l Nl Fc) as [A1 A2]. rewrite Ll in A1, A2.
  destruct (exact_sum_bounds L (bpow radix2 900) l) as [B1 B2]. { eapply Forall_impl; [exact Hl|]. intros x [[_ X] Y]. lra. } rewrite Ll in B1, B2.
  assert (0 < INR n * L) as PnL by nra. set (y := float_sum l) in *. assert (INR n * L / 2 <= f2r y) as Ly. { apply Rle_trans with (exact_sum l * (1 - uu) ^ n); [|exact A1]. nra. }
  assert (fvalid y) as Vy. { unfold y, float_sum. clear -Nl. assert (forall s, fvalid s -> fvalid (foldl fadd s l)) as G; [|apply G; exact fvalid_f0]. induction Nl as [|x l [Vx _] _ IH]; intros s Hs; cbn; [exact Hs|]. apply IH, fvalid_add; auto. }
  assert (fvalid f1) as V1 by (vm_compute; reflexivity).
  assert (0 < 1 / f2r y <= 2 / (INR n * L)) as Q. { split; [apply Rdiv_lt_0_compat; lra|]. unfold Rdiv. rewrite Rmult_1_l. replace (2 * / (INR n * L)) with (/ (INR n * L / 2)) by (field; lra). apply Rinv_le; lra. }
  assert (INR n * L <= bpow radix2 950) as UL. { replace 950%Z with (50 + 900)%Z by reflexivity. rewrite bpow_plus. apply Rmult_le_compat; lra. }
  assert (rnd (1 / f2r y) <= 4 / (INR n * L)) as Z.
  { eapply Rle_trans; [apply rnd_up; lra|]. pose proof uu_small. assert (bpow radix2 (-950) <= / (INR n * L)) as I1. { change (-950)%Z with (- (950))%Z. rewrite bpow_opp. apply Rinv_le; lra. }
    assert (bpow radix2 (-1022) <= bpow radix2 (-950)) by (apply bpow_le; lia). unfold Rdiv in *. set (z := / (INR n * L)) in *. nra. }
  assert (0 <= rnd (1 / f2r y)) as Z0 by (rewrite <- rnd_0; apply rnd_le; lra).
  destruct (fdiv_R f1 y V1 Vy eq_refl ltac:(lra)) as [E Fi].
  { rewrite f2r_f1. rewrite Rabs_pos_eq by exact Z0. eapply Rle_lt_trans; [exact Z|]. apply Rle_lt_trans with (bpow radix2 902); [|apply bpow_lt; lia].
    replace 902%Z with (2 + 900)%Z by reflexivity. rewrite bpow_plus. change (bpow radix2 2) with 4. unfold Rdiv. apply Rmult_le_compat_l; [lra|].
    replace (bpow radix2 900) with (/ bpow radix2 (-900)) by (rewrite <- bpow_opp; reflexivity). apply Rinv_le; [lra|nra]. }
  rewrite f2r_f1 in E. change (in_range (4 / (INR n * L)) (fdiv f1 y)). split; [apply nonneg_of_R; [apply fvalid_div; auto|exact Fi|rewrite E; exact Z0]|rewrite E; exact Z].
Qed.
