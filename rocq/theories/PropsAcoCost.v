(** * Property theorems: accuracy of path costs (C41) *)
From Verif Require Import AcoCostProofs SusProofs AcoTspGenProofs.
From Coq Require Import Reals Lra Lia.
Open Scope nat_scope.

(** [exact_length w p]: the real sum of the weights along the closed path [p]; [sound_edges w p]: those weights are
    non-negative finite numbers; [half_ulp] = 2^-53. *)

(** Any weights: a finite computed cost is the exact length up to one rounding per edge, relatively. *)
Theorem C41_cost_accuracy :
  forall w p c, path_cost w p = Ok c -> sound_edges w p -> ffinite c = true ->
  (exact_length w p * (1 - half_ulp) ^ length p <= f2r c <= exact_length w p * (1 + half_ulp) ^ length p)%R.
Proof. rewrite <- uu_eq. exact cost_accuracy. Qed.
Print Assumptions C41_cost_accuracy.
(** The starting place, and for symmetric weights the direction, do not change the exact length; the computed costs differ by
    at most the accumulated rounding. *)
Theorem C41_starting_place :
  forall w p q, exact_length w (p ++ q) = exact_length w (q ++ p) /\
  forall c d, path_cost w (p ++ q) = Ok c -> path_cost w (q ++ p) = Ok d -> sound_edges w (p ++ q) -> ffinite c = true -> ffinite d = true ->
  let n := length (p ++ q) in
  (f2r c * (1 - half_ulp) ^ n <= f2r d * (1 + half_ulp) ^ n /\ f2r d * (1 - half_ulp) ^ n <= f2r c * (1 + half_ulp) ^ n)%R.
Proof. rewrite <- uu_eq. intros w p q. split; [apply exact_rotation|]. intros c d. apply rotation_near. Qed.
Print Assumptions C41_starting_place.
Theorem C41_direction :
  forall w p, (forall i j, entry w i j = entry w j i) -> exact_length w (reverse p) = exact_length w p /\
  forall c d, path_cost w p = Ok c -> path_cost w (reverse p) = Ok d -> sound_edges w p -> ffinite c = true -> ffinite d = true ->
  let n := length p in
  (f2r c * (1 - half_ulp) ^ n <= f2r d * (1 + half_ulp) ^ n /\ f2r d * (1 - half_ulp) ^ n <= f2r c * (1 + half_ulp) ^ n)%R.
Proof. rewrite <- uu_eq. intros w p Hs. split; [apply exact_reversal, Hs|]. intros c d H1 H2. apply reversal_near; assumption. Qed.
Print Assumptions C41_direction.
(** Of two tours of equally many vertices the one with the smaller computed cost is not longer, up to rounding. *)
Theorem C41_cheaper_is_shorter :
  forall w p q c d, path_cost w p = Ok c -> path_cost w q = Ok d -> sound_edges w p -> sound_edges w q -> ffinite d = true -> length p = length q -> fle c d = true ->
  (exact_length w p * (1 - half_ulp) ^ length p <= exact_length w q * (1 + half_ulp) ^ length p)%R.
Proof. rewrite <- uu_eq. exact cheaper_near. Qed.
Print Assumptions C41_cheaper_is_shorter.
(** Three places, weights 1/2, 3/2 and the least subnormal number: not whole numbers. *)
Definition uneven : matrix := Mat 3 3 (fun i j =>
  if decide (i + j = 1) then S754_finite false 4503599627370496 (-53) else if decide (i + j = 2) then S754_finite false 6755399441055744 (-52) else S754_finite false 1 (-1074)).
Example C41_accuracy_nonvacuous : sound_edges uneven [0; 1; 2] /\ exists c, path_cost uneven [0; 1; 2] = Ok c /\ ffinite c = true /\ flt f1 c = true /\
  path_cost uneven ([2] ++ [0; 1]) = Ok c /\ (forall i j, entry uneven i j = entry uneven j i).
Proof.
  split.
  - intros k i j _ _. unfold uneven. cbn [entry]. repeat (destruct (decide _)); repeat split; reflexivity.
  - exists (S754_finite false 4503599627370496 (-51)). split; [vm_compute; reflexivity|]. split; [reflexivity|]. split; [vm_compute; reflexivity|]. split; [vm_compute; reflexivity|].
    intros i j. unfold uneven. cbn [entry]. rewrite (Nat.add_comm i j). reflexivity.
Qed.
