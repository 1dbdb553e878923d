(** * Proofs: the ant colony benchmarks *)
From Verif Require Export AcoBenchModel AcoBoundSpec AcoSpec.
From Verif Require Import AcoRunProofs AcoTspProofs AcoUtilProofs F64R SusProofs PropsAcoRun PropsAcoBound.
From Flocq Require Import Core.
From Coq Require Import Reals Lra Lia.
Open Scope R_scope.

(** What is needed of libm's power function: the square of a number of [0, 2^k] is a number of [0, 4^k]. *)
Definition squares (powf : f64 -> f64 -> f64) : Prop :=
  forall k x, (k <= 7)%nat -> in_range (2 ^ k) x -> in_range (4 ^ k) (powf x bench_two).

(** A check of the distances and the heuristic by computation *)
Definition good_heur (h : f64) : bool := valid_binary 53 1024 h && ffinite h && fle f0 h && fle h f1.
Definition good_dist (d : f64) : bool := valid_binary 53 1024 d && ffinite d && fle f1 d && fle d (f_of_nat 128).
Definition check_bench (n : nat) (cities : list (f64 * f64)) : bool :=
  match tsp_cost cities with
  | Ok w => (nrows w =? n)%nat && (ncols w =? n)%nat &&
      forallb (fun i => forallb (fun j => good_heur (heuristic_entry (entry w i j)) && ((i =? j)%nat || good_dist (entry w i j))) (seq 0 n)) (seq 0 n)
  | _ => false
  end.
Lemma check_5 : check_bench 5 bench_cities_5 = true. Proof. vm_compute. reflexivity. Qed.
Lemma check_15 : check_bench 15 bench_cities_15 = true. Proof. vm_compute. reflexivity. Qed.

Lemma check_spec n cities : check_bench n cities = true -> exists w h, tsp_cost cities = Ok w /\ create_heuristic w = Ok h /\ nrows w = n /\ ncols w = n /\ nrows h = n /\ ncols h = n /\
  forall i j, (i < n)%nat -> (j < n)%nat -> good_heur (entry h i j) = true /\ (i <> j -> good_dist (entry w i j) = true).
Proof.
  unfold check_bench. destruct (tsp_cost cities) as [w| |]; try discriminate. intros H. apply andb_prop in H as [[H1 H2]%andb_prop H3]. apply Nat.eqb_eq in H1, H2.
  destruct (heuristic_spec w) as (h & E & R & C & HE). exists w, h. split; [reflexivity|]. split; [exact E|]. split; [exact H1|]. split; [exact H2|]. split; [congruence|]. split; [congruence|].
  intros i j Hi Hj. rewrite forallb_forall in H3. specialize (H3 i ltac:(apply in_seq; lia)). rewrite forallb_forall in H3. specialize (H3 j ltac:(apply in_seq; lia)).
  apply andb_prop in H3 as [A B]. rewrite HE by (split; lia). split; [exact A|]. intros N. apply orb_prop in B as [B%Nat.eqb_eq|B]; [contradiction|exact B].
Qed.
Lemma f128_R : f2r (f_of_nat 128) = 128.
Proof.
  assert (f_of_nat 128 = S754_finite false 4503599627370496 (-45)) as -> by (vm_compute; reflexivity).
  unfold f2r, BinarySingleNaN.SF2R, F2R. cbn [Fnum Fexp cond_Zopp]. change (IZR (Z.pos 4503599627370496)) with (bpow radix2 52). rewrite <- bpow_plus. reflexivity.
Qed.
Lemma rate_R : nonneg_finite bench_rate /\ / 10 <= f2r bench_rate <= / 9.
Proof.
  split; [split; [vm_compute; reflexivity|split; reflexivity]|]. unfold f2r, bench_rate, BinarySingleNaN.SF2R, F2R. cbn [Fnum Fexp cond_Zopp].
  change (bpow radix2 (-56)) with (/ IZR 72057594037927936). lra.
Qed.
Lemma good_heur_R h : good_heur h = true -> in_range 1 h.
Proof.
  unfold good_heur. intros [[[A B]%andb_prop C]%andb_prop D]%andb_prop. split; [split; [exact A|split; assumption]|]. rewrite <- f2r_f1. apply fle_R; auto. vm_compute. reflexivity.
Qed.
Lemma good_dist_R d : good_dist d = true -> in_range (bpow radix2 900) d /\ 1 <= f2r d.
Proof.
  unfold good_dist. intros [[[A B]%andb_prop C]%andb_prop D]%andb_prop.
  assert (1 <= f2r d) as L. { rewrite <- f2r_f1. apply fle_R; auto. vm_compute. reflexivity. }
  split; [|exact L]. split.
  - split; [exact A|]. split; [exact B|]. apply fle_R; auto; [vm_compute; reflexivity|]. change (f2r f0) with 0. lra.
  - apply Rle_trans with (f2r (f_of_nat 128)); [apply fle_R; auto; vm_compute; reflexivity|]. rewrite f128_R. change 128 with (bpow radix2 7). apply bpow_le. lia.
Qed.
Lemma goodness_moderate powf n h : squares powf -> nrows h = n -> ncols h = n -> (forall i j, (i < n)%nat -> (j < n)%nat -> good_heur (entry h i j) = true) ->
  forall p, matrix_range 128 n p -> exists g, canonical_goodness powf bench_two bench_two h p = Ok g /\ moderate g n.
Proof.
  intros Sq Hr Hc Hh p (Pr & Pc & Hp). destruct (goodness_ok powf bench_two bench_two h p) as [g Hg]; try congruence. exists g. split; [exact Hg|].
  destruct (goodness_spec powf bench_two bench_two h p g) as (Gr & Gc & HG); try congruence. split; [congruence|]. split; [congruence|]. intros i j Hi Hj. rewrite HG by (split; lia).
  assert (in_range (4 ^ 7) (powf (entry p i j) bench_two)) as [(V1 & F1 & P1) L1]. { apply Sq; [lia|]. replace (2 ^ 7) with 128 by ring. apply Hp; assumption. }
  assert (in_range (4 ^ 0) (powf (entry h i j) bench_two)) as [(V2 & F2 & P2) L2]. { apply Sq; [lia|]. replace (2 ^ 0) with 1 by ring. apply good_heur_R, Hh; assumption. }
  destruct (fmul_shrinks _ _ V1 F1 P1 V2 F2) as (V & Fi & P & L). { split; [|replace (4 ^ 0) with 1 in L2 by ring; exact L2]. change 0 with (f2r f0). apply fle_R; auto. vm_compute; reflexivity. }
  split; [exact V|]. split; [exact P|]. assert (fvalid f_2_900) as V9 by (vm_compute; reflexivity). apply fle_R; auto. apply Rle_trans with (4 ^ 7).
  - apply Rle_trans with (2 := L1). apply fle_R; auto.
  - replace (f2r f_2_900) with (bpow radix2 900). { replace (4 ^ 7) with 16384 by ring. change 16384 with (bpow radix2 14). apply bpow_le. lia. }
    unfold f2r, f_2_900. change 900%Z with (52 + 848)%Z. rewrite bpow_plus. unfold BinarySingleNaN.SF2R, F2R. cbn [Fnum Fexp cond_Zopp]. reflexivity.
Qed.

Lemma bench_length op n w u (init : nat * nat -> nat * nat) check p s l p' s' : iterations (tsp (ant_system op) w u init check) p s l p' s' -> (0 < n)%nat ->
  nrows p = n -> symmetric p -> Forall (usable n) s.1 -> length s'.1 = length s.1.
Proof.
  intros H Hn. induction H as [p s|p s sols b p1 s1 l p' s' H1 H IH]; intros Hr Hs Hu; [reflexivity|].
  destruct (tsp_iteration op n w u init check p s sols b p1 s1 Hn Hr Hs Hu H1) as ((R & S' & U) & _). rewrite (IH R S' U).
  destruct H1 as (paths & q & s2 & us & s3 & H1 & _ & H3 & _ & _ & H4). cbn [tsp colony grader update] in *.
  apply obind_Ok in H1 as ([[ps as'] q'] & H1 & E). injection E as <- <- <-. destruct (ant_system_spec op n _ _ _ _ _ Hn Hr Hu H1) as (_ & _ & _ & L & _).
  apply obind_Ok in H3 as (ss & H3 & E). injection E as <- <-. apply obind_Ok in H4 as ([q2 b'] & H4 & E). injection E as <- <-. exact L.
Qed.
Lemma bench_run n cities powf seeds : check_bench n cities = true -> length cities = n -> (5 <= n)%nat -> (n <= 1000)%nat -> squares powf -> length seeds = 5%nat ->
  exists w h, tsp_cost cities = Ok w /\ create_heuristic w = Ok h /\
  ((exists l p' s', aco_bench cities powf seeds = Ok (protocol l, p', s') /\ length l = 20%nat /\
      Forall (fun '(b, q) => tour n (sol_path b) /\ sol_fitness b = fdiv f1 (float_sum (map (fun e => entry w e.1 e.2) (windows (sol_path b)))) /\
        matrix_range 128 n q /\ symmetric q) l) \/
   (aco_bench cities powf seeds = Panic /\
    exists l p1 s1 ants' p', (length l < 20)%nat /\
      iterations (tsp (ant_system (canonical_goodness powf bench_two bench_two h)) w (AntSystemPU bench_rate) ic_init ic_check)
        (mrepeat n n f1) (map (fun s => canonical_ant n s.1 s.2) seeds, sol_default) l p1 s1 /\
      ant_system (canonical_goodness powf bench_two bench_two h) s1.1 p1 = Ok ([], ants', p') /\ a_stuck <$> head ants' = Some true)).
Proof.
  intros Hc Hl H5 Hbig Sq Hs. destruct (check_spec n cities Hc) as (w & h & Ew & Eh & Wr & Wc & Hr & Hcl & HE). exists w, h. split; [exact Ew|]. split; [exact Eh|].
  unfold aco_bench, bench_dist. rewrite Ew. cbn [mbind outcome_bind]. rewrite Eh. cbn [mbind outcome_bind]. rewrite Hr, Hcl, Hl.
  set (ants := map (fun s => canonical_ant n s.1 s.2) seeds). assert (La : length ants = 5%nat) by (unfold ants; rewrite map_length; exact Hs).
  assert (Hus : Forall (usable n) ants). { unfold ants. apply Forall_map, Forall_true. intros x. split; [reflexivity|]. split; constructor. }
  assert (Fit : forall q c, tour n q -> path_cost w q = Ok c -> in_range (4 / 5) (fdiv f1 c)).
  { intros q c Hq Ec. assert (Hn5 : 5 <= INR n) by (change 5 with (IZR (Z.of_nat 5)); rewrite <- INR_IZR_INZ; apply le_INR; exact H5).
    destruct (C127_tour_fitness w n 1 q c) as [A B]; [lia|lia| |intros i j Hi Hj N; apply good_dist_R, HE; assumption|exact Hq|exact Ec|].
    - change 1 with (bpow radix2 0). split; apply bpow_le; lia.
    - split; [exact A|]. apply Rle_trans with (1 := B). unfold Rdiv. apply Rmult_le_compat_l; [lra|]. rewrite Rmult_1_r. apply Rinv_le; lra. }
  pose proof rate_R as (Nr & R1 & R2).
  assert (Hu : sound_rule (AntSystemPU bench_rate) (length ants) (4 / 5) 128).
  { cbn [sound_rule]. unfold outweighs. rewrite La. replace (INR 5) with 5 by (cbn; ring). split; [exact Nr|]. split; [lra|]. split; [lra|]. replace (2 ^ 53) with 9007199254740992 by ring. lra. }
  assert (HB : bpow radix2 (-900) <= 128 <= bpow radix2 900). { change 128 with (bpow radix2 7). split; apply bpow_le; lia. }
  assert (Hp : matrix_range 128 n (mrepeat n n f1)) by (apply (level_range n 128); lra).
  assert (Sp : symmetric (mrepeat n n f1)) by (split; reflexivity).
  assert (Hop := goodness_moderate powf n h Sq Hr Hcl (fun i j Hi Hj => proj1 (HE i j Hi Hj))).
  assert (Hb0 : in_range (4 / 5) (sol_fitness sol_default)). { split; [split; [vm_compute; reflexivity|split; reflexivity]|]. change (0 <= 4 / 5). lra. }
  destruct (C127_run 128 (4 / 5) n _ w (AntSystemPU bench_rate) 20 21 0 (mrepeat n n f1) ants sol_default HB ltac:(lra) ltac:(lia) ltac:(lia) Hop (conj Wr Wc) Fit Hu Hp Hus (or_introl eq_refl) Hb0 ltac:(lia))
    as [(l & p' & s' & Run & Len & It & Rng)|(Run & l & p1 & s1 & ants' & p' & Lt & It & Rp & _ & Emp)].
  - left. exists l, p', s'. split; [exact Run|]. split; [exact Len|].
    destruct (tsp_iterations _ n w _ _ _ (mrepeat n n f1) (ants, sol_default) l p' s' ltac:(lia) eq_refl Sp Hus It) as (HF & _).
    rewrite Forall_forall in *. intros [b q] Hin. specialize (HF _ Hin). specialize (Rng _ Hin). cbn [snd] in Rng. destruct HF as (T & Fb & _ & S). auto.
  - right. split; [exact Run|]. exists l, p1, s1, ants', p'. split; [exact Lt|]. split; [exact It|]. split; [exact Emp|].
    destruct (tsp_iterations _ n w _ _ _ (mrepeat n n f1) (ants, sol_default) l p1 s1 ltac:(lia) eq_refl Sp Hus It) as (_ & Pr & _ & HU).
    destruct (ant_system_spec _ n _ _ _ _ _ ltac:(lia) Pr HU Emp) as (_ & _ & _ & L5 & _ & _ & [D|(a & A & St & _)]).
    + exfalso. cbn in D. assert (G : length s1.1 = length ants); [|rewrite <- D, La in G; discriminate].
      clear -It Pr Hus Sp H5. change ants with (fst (ants, sol_default)). apply (bench_length _ n w (AntSystemPU bench_rate) _ _ _ _ _ _ _ It ltac:(lia) eq_refl Sp Hus).
    + cbn in A. destruct ants' as [|a' ?]; [discriminate|]. injection A as ->. cbn. f_equal. exact St.
Qed.
