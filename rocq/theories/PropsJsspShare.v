(** * Property theorem: the share of genes a child of the JSSP crossover takes from its own parent (C86) *)
From Verif Require Import F64R JsspModel JsspSpec.
From Flocq Require Import Core.
From Coq Require Import Reals Lra Lia.
Open Scope R_scope.

(** A gene is kept exactly when its draw, a multiple of 2^-52 in [0, 1), is at most six tenths. *)
Theorem C86_share (r : rng) (i : nat) : keeps r i = true <-> IZR (Z.of_N (r i mod 2 ^ 52)) / 2 ^ 52 <= 6 / 10.
Proof.
  unfold keeps. set (k := (r i mod 2 ^ 52)%N). assert (K : (k < 2 ^ 52)%N) by (apply N.mod_lt; discriminate). clearbody k.
  assert (D : f_0_6 = S754_finite false 5404319552844595 (-53)) by (vm_compute; reflexivity). rewrite D.
  rewrite fle_R; [|apply fvalid_unit; [discriminate|exact K]|reflexivity|apply ffinite_unit|reflexivity].
  rewrite f2r_unit; [|discriminate|exact K].
  assert (f2r (S754_finite false 5404319552844595 (-53)) = IZR 5404319552844595 * / IZR 9007199254740992) as -> by reflexivity.
  assert (bpow radix2 (- Z.of_N 52) = / IZR 4503599627370496) as -> by reflexivity.
  replace (2 ^ 52) with (IZR 4503599627370496) by (rewrite pow_IZR; reflexivity).
  set (z := Z.of_N k). split; intros H.
  - assert (IZR (2 * z) <= IZR 5404319552844595) as HZ%le_IZR by (rewrite mult_IZR; lra).
    assert (z <= 2702159776422297)%Z as Z1 by lia. apply IZR_le in Z1. lra.
  - assert (IZR (10 * z) <= IZR (6 * 4503599627370496)) as HZ%le_IZR by (rewrite !mult_IZR; lra).
    assert (z <= 2702159776422297)%Z as Z1 by lia. apply IZR_le in Z1. lra.
Qed.
(* both outcomes occur: the draw 0 keeps the gene, the largest draw does not *)
Example C86_share_both : keeps (fun _ => 0%N) 0 = true /\ keeps (fun _ => (2 ^ 52 - 1)%N) 0 = false.
Proof. split; vm_compute; reflexivity. Qed.
Print Assumptions C86_share.
