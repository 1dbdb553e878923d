(** * C129: what mutation can reach *)
From Verif Require Import F64R MutationModel MutationSpec MutationProofs MutReachSpec MutReachProofs.
From Coq Require Import Reals Lra Lia.
Open Scope nat_scope.

(** [largest_draw] is 1 - 2^-52, and no draw is larger. *)
Theorem C129_largest_draw : f2r largest_draw = (1 - / 2 ^ 52)%R /\ forall r u r', uni_f64 r = (u, r') -> fle u largest_draw = true.
Proof.
  split; [|intros r u r' [= <- <-]; exact (draw_le r 0)]. unfold largest_draw. rewrite f2r_unit; [|discriminate|reflexivity].
  assert (E : (2 ^ 52)%R = IZR 4503599627370496) by (rewrite pow_IZR; reflexivity). rewrite E.
  change (IZR (Z.of_N (2 ^ 52 - 1))) with (IZR 4503599627370495). change (Raux.bpow Zaux.radix2 (- Z.of_N 52)) with (/ IZR 4503599627370496)%R. lra.
Qed.
Print Assumptions C129_largest_draw.
(** FlipBit can turn any bit string into any other of its length in one application, unless the rate is 0 or so close to 1 that every gene is flipped. *)
Theorem C129_flip_bit :
  forall rate, flt f0 rate = true ->
  (fle rate largest_draw = true -> forall ch target : list bool, length target = length ch -> can_make (flip_bit rate) ch target) /\
  (flt largest_draw rate = true -> forall ch target : list bool, can_make (flip_bit rate) ch target -> target = map negb ch).
Proof.
  intros rate H0. split.
  - intros H1 ch target Hl. destruct (flip_reach rate ch target zeros H0 H1 Hl) as (r & r' & E). exists r, zeros, r', zeros. exact E.
  - intros H1 ch target (r & t & r' & t' & E). destruct (flip_only rate ch r t H1) as [q E2]. rewrite E in E2. injection E2 as -> _ _. reflexivity.
Qed.
Print Assumptions C129_flip_bit.
(** Interchange can make any rearrangement in one application. *)
Theorem C129_interchange :
  forall (G : Type) rate (ch target : list G), flt f0 rate = true -> 0 < length ch -> target ≡ₚ ch -> can_make (interchange rate) ch target.
Proof. exact @interchange_reach. Qed.
Print Assumptions C129_interchange.
(** Reversing and Inversion can make any rearrangement in as many applications as there are genes. *)
Theorem C129_reversing :
  forall (G : Type) rate, flt f0 rate = true ->
  (fle rate largest_draw = true -> forall ch target : list G, target ≡ₚ ch -> can_make_in (reversing rate) (length ch) ch target) /\
  (flt largest_draw rate = true -> forall (x : G) rest target, can_make (reversing rate) (x :: rest) target -> target = rest ++ [x]).
Proof.
  intros G rate H0. split; [intros H1 ch target; exact (reversing_reach rate ch target H0 H1)|].
  intros H1 x rest target (r & t & r' & t' & E). destruct (reversing_only rate x rest r t H1) as [q E2]. rewrite E in E2. injection E2 as -> _ _. reflexivity.
Qed.
Print Assumptions C129_reversing.
Theorem C129_inversion :
  forall (G : Type) rate (ch target : list G), fle f0 rate = true -> target ≡ₚ ch -> can_make_in (inversion rate) (length ch) ch target.
Proof. exact @inversion_reach. Qed.
Print Assumptions C129_inversion.
(** One application is not enough for them: whatever the rate, three genes are not turned round by one Reversing, nor are two neighbouring pairs exchanged by one Inversion. *)
Theorem C129_one_is_not_enough :
  forall (G : Type) rate (a b c d : G), a <> b -> a <> c -> b <> c -> c <> d ->
  ~ can_make (reversing rate) [a; b; c] [c; b; a] /\ ~ can_make (inversion rate) [a; b; c; d] [b; a; d; c].
Proof.
  intros G rate a b c d Hab Hac Hbc Hcd. split.
  - intros (r & t & r' & t' & E). destruct (reversing_sweep rate a [b; c] r t) as [q E2]. rewrite E in E2. injection E2 as E2 _ _.
    cbn [sweep] in E2. destruct (flt (unit_draw r 0) rate), (flt (unit_draw r 1) rate); injection E2; intros; congruence.
  - intros (r & t & r' & t' & E). destruct (flt rate (gen_f64 r).1) eqn:Eq.
    + rewrite (inversion_quiet rate _ r t Eq) in E. injection E; intros; congruence.
    + pose proof (inversion_fires rate [a; b; c; d] r t Eq ltac:(cbn; lia)) as X. cbn [length] in X.
      destruct X as (from & to & q & Hb & E2). rewrite E in E2. injection E2 as E2 _ _.
      assert (from = 0 \/ from = 1 \/ from = 2 \/ from = 3) as Hf by lia. assert (to = 0 \/ to = 1 \/ to = 2 \/ to = 3) as Ht by lia.
      destruct Hf as [-> |[-> |[-> | ->]]], Ht as [-> |[-> |[-> | ->]]]; try lia; cbv in E2; injection E2; intros; congruence.
Qed.
Print Assumptions C129_one_is_not_enough.

(** The default rates satisfy the hypotheses; with one half the string 011 becomes 110, and 1, 2, 3 becomes 3, 2, 1 in three applications of Reversing. *)
Example C129_nonvacuous :
  flt f0 fhalf = true /\ fle fhalf largest_draw = true /\ can_make (flip_bit fhalf) [false; true; true] [true; true; false] /\
  can_make_in (reversing fhalf) 3 [1; 2; 3] [3; 2; 1] /\ can_make (interchange fhalf) [1; 2; 3; 4] [2; 1; 4; 3].
Proof.
  assert (H0 : flt f0 fhalf = true) by reflexivity. assert (H1 : fle fhalf largest_draw = true) by reflexivity.
  split; [exact H0|]. split; [exact H1|]. split; [exact (proj1 (C129_flip_bit fhalf H0) H1 [false; true; true] [true; true; false] eq_refl)|].
  split; [apply (proj1 (C129_reversing nat fhalf H0) H1 [1; 2; 3] [3; 2; 1]); exact (Permutation_rev [1; 2; 3]) || (symmetry; exact (Permutation_rev [1; 2; 3]))|].
  apply C129_interchange; [exact H0|cbn; lia|]. rewrite (Permutation_swap 1 2). do 2 constructor. apply Permutation_swap.
Qed.
