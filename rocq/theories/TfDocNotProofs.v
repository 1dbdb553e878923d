(** * Ways in which a documented minimum can be wrong *)
From Coq Require Import Lra Lia Psatz.
From Verif Require Export TfDimProofs TfDim2Proofs TfDocProofs TfDoc2Proofs TfDoc3Proofs TfDoc4Proofs TfDoc5Proofs.
Open Scope R_scope.

Section No.
Context (f : list (option R) -> outcome (option R)) (d : nat) (xs : list R) (m tol : R).
Lemma no_undefined : undefined_at f xs -> ~ minimum_within f d xs m tol.
Proof. unfold undefined_at. intros H (_ & (v & Hv & _) & _). unfold value in Hv. congruence. Qed.
Lemma no_unbounded : unbounded_below f d -> ~ minimum_within f d xs m tol.
Proof. intros H (_ & _ & L). destruct (H (m - tol)) as (x & v & Hx & Hv & Hlt). specialize (L x v Hx Hv). lra. Qed.
Lemma no_value v : value f xs v -> tol < Rabs (v - m) -> ~ minimum_within f d xs m tol.
Proof. unfold value. intros Hv H (_ & (w & Hw & Hle) & _). assert (E : Some w = Some v) by (apply Ok_inj; unfold value in Hw; congruence). injection E as ->. lra. Qed.
Lemma no_below x w : length x = d -> value f x w -> w < m - tol -> ~ minimum_within f d xs m tol.
Proof. intros Hx Hw H (_ & _ & L). specialize (L x w Hx Hw). lra. Qed.
Lemma no_above b : (exists v, value f xs v /\ b < v) -> m + tol <= b -> ~ minimum_within f d xs m tol.
Proof. intros (v & Hv & Hlt) H. apply (no_value v); [exact Hv|]. pose proof (Rle_abs (v - m)). lra. Qed.
Lemma no_above_le b : (exists v, value f xs v /\ b <= v) -> m + tol < b -> ~ minimum_within f d xs m tol.
Proof. intros (v & Hv & Hlt) H. apply (no_value v); [exact Hv|]. pose proof (Rle_abs (v - m)). lra. Qed.
Lemma no_bound b : (forall x v, length x = d -> value f x v -> b <= v) -> m + tol < b -> ~ minimum_within f d xs m tol.
Proof. intros Hb H (Hx & (v & Hv & Hle) & _). specialize (Hb xs v Hx Hv). pose proof (Rle_abs (v - m)). lra. Qed.
Lemma no_bound_lt b : (forall x v, length x = d -> value f x v -> b < v) -> m + tol <= b -> ~ minimum_within f d xs m tol.
Proof. intros Hb H (Hx & (v & Hv & Hle) & _). specialize (Hb xs v Hx Hv). pose proof (Rle_abs (v - m)). lra. Qed.
End No.
Lemma min_bound f dims xs m : global_minimum f dims xs m -> forall x v, dims (length x) -> value f x v -> m <= v.
Proof.
  intros (_ & _ & L) x v Hx Hv. destruct (L x Hx) as (w & Hw & Hle). unfold value in *.
  assert (E : Some w = Some v) by (apply Ok_inj; congruence). injection E as ->. exact Hle.
Qed.
