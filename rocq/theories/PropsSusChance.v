(** * Property theorems: how often stochastic universal sampling selects each member (C124) *)
From Verif Require Import SusChanceProofs.
From Verif Require Import ChanceSpec SelectionSpec SelectionModel F64R SusProofs.
From Coq Require Import Reals Lra Lia.
Open Scope nat_scope.

(** ** C124 *)
(** [length (List.filter (Nat.eqb s) sel)] is the number of copies of member [s] among the parents. *)
Theorem C124_sus_copies :
  forall (G : Type) (fuel count : nat) (pop : list (individual G)) (r : rng) (sel : list nat) (r' : rng) (s : nat) (p : individual G),
  sus fuel count pop r = Ok (sel, r') -> pop !! s = Some p ->
  Forall (fun q => nonneg_finite (fitness q)) pop -> (/ 2 ^ 900 <= exact_total (map fitness pop) <= 2 ^ 999)%R ->
  (Z.of_nat (length pop) <= 2 ^ 40)%Z -> (Z.of_nat count <= 2 ^ 40)%Z ->
  (Rabs (INR (length (List.filter (Nat.eqb s) sel)) - INR count * f2r (fitness p) / exact_total (map fitness pop))
     <= 1 + 24 * INR count * (INR (length pop) + INR count) / 2 ^ 53)%R.
Proof. exact @sus_copies. Qed.
Print Assumptions C124_sus_copies.

(** Fitness 1 and 3, four parents, first pointer 1/2: one copy of the first, three of the second. *)
Definition one_three : list (individual nat) := [Ind [0] f1; Ind [1] (f_of_nat 3)].
Example C124_nonvacuous :
  Forall (fun q => nonneg_finite (fitness q)) one_three /\ (/ 2 ^ 900 <= exact_total (map fitness one_three) <= 2 ^ 999)%R /\
  exists r', sus 14 4 one_three (rng_of [4602678819172646912]%N) = Ok ([0; 1; 1; 1], r').
Proof.
  split; [repeat constructor|]. split; [|eexists; vm_compute; reflexivity].
  assert (exact_total (map fitness one_three) = 4)%R as ->.
  { unfold exact_total. cbn [map one_three fold_right fitness]. rewrite f2r_f1. destruct (f_of_nat_exact 3 ltac:(lia)) as (_ & _ & ->). cbn; lra. }
  split.
  - apply Rle_trans with (/ 1)%R; [apply Rinv_le_contravar; [lra|apply pow_R1_Rle; lra]|]. lra.
  - apply Rle_trans with (2 ^ 2)%R; [lra|]. apply Rle_pow; [lra|lia].
Qed.
