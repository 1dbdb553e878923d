(** * Property theorems: the distance functions of the firefly algorithm (C89) *)
From Verif Require Import FfModel FfSpec F64R TfF64Proofs FfDistanceProofs.
Open Scope nat_scope.

(** In the theorems: [sq] is powi(_, 2), the product of the number with itself. *)
Definition squares (sq : f64 -> f64) : Prop := forall d, sq d = fmul d d.
(** A finite 64-bit number *)
Definition finite_number (a : f64) : Prop := fvalid a /\ ffinite a = true.

(** Added from the first dimension to the last, starting at 0; dimension i contributes the square, or the absolute value, of the i-th difference. *)
Theorem C89_distance_values :
  forall sq (x y : list f64), squares sq -> length x = length y ->
  exists terms terms', length terms = length x /\ length terms' = length x /\
    (forall i a b, x !! i = Some a -> y !! i = Some b -> terms !! i = Some (fmul (fsub a b) (fsub a b)) /\ terms' !! i = Some (fabs (fsub a b))) /\
    cartesian_distance sq x y = Ok (fsqrt (foldl fadd f0 terms)) /\ taxi_distance x y = Ok (foldl fadd f0 terms').
Proof.
  intros sq x y Hsq L. exists (zip_with (fun a b => fmul (fsub a b) (fsub a b)) x y), (zip_with (fun a b => fabs (fsub a b)) x y).
  split; [apply zip_with_length_l_eq, L|]. split; [apply zip_with_length_l_eq, L|].
  split. { intros i a b Ha Hb. rewrite !lookup_zip_with, Ha, Hb. auto. }
  unfold cartesian_distance, taxi_distance. rewrite !loop_values by exact L. cbn [mbind outcome_bind]. split; [|reflexivity].
  f_equal. f_equal. f_equal. clear L. revert y. induction x as [|a x IH]; intros [|b y]; cbn [zip_with]; [reflexivity ..|]. rewrite Hsq, IH. reflexivity.
Qed.
Print Assumptions C89_distance_values.
(** The distance from x to y is the distance from y to x, to the last bit, even with infinities and NaN among the coordinates *)
Theorem C89_symmetric :
  forall sq (x y : list f64), squares sq -> length x = length y ->
  cartesian_distance sq x y = cartesian_distance sq y x /\ taxi_distance x y = taxi_distance y x.
Proof.
  intros sq x y Hsq L. split.
  - unfold cartesian_distance. rewrite (loop_comm sq) by (exact L || (intros; rewrite !Hsq; apply square_comm)). reflexivity.
  - apply loop_comm; [apply sub_comm_abs|exact L].
Qed.
Print Assumptions C89_symmetric.
Theorem C89_self_zero :
  forall sq (x : list f64), squares sq -> Forall finite_number x ->
  cartesian_distance sq x x = Ok f0 /\ taxi_distance x x = Ok f0.
Proof.
  intros sq x Hsq F. assert (F' : Forall (fun a => ffinite a = true) x) by (eapply Forall_impl; [exact F|]; intros a [_ H]; exact H).
  split.
  - unfold cartesian_distance. rewrite (loop_self sq (Hsq f0) x F'). reflexivity.
  - apply loop_self; [reflexivity|exact F'].
Qed.
Print Assumptions C89_self_zero.
(** Never NaN and never negative, even when a difference, a square or the sum overflows *)
Theorem C89_nonnegative :
  forall sq (x y : list f64), squares sq -> length x = length y -> Forall finite_number x -> Forall finite_number y ->
  exists d d', cartesian_distance sq x y = Ok d /\ taxi_distance x y = Ok d' /\ fle f0 d = true /\ fle f0 d' = true.
Proof.
  intros sq x y Hsq L Fx Fy. assert (P0 : pos f0) by (split; reflexivity).
  destruct (loop_pos sq (fun d Hd => eq_ind_r pos (sq_pos d Hd) (Hsq d)) x y f0 L Fx Fy P0) as (v & E & Pv).
  destruct (loop_pos fabs abs_pos x y f0 L Fx Fy P0) as (w & E' & Pw).
  exists (fsqrt v), w. unfold cartesian_distance, taxi_distance. rewrite E, E'. cbn [mbind outcome_bind].
  split; [reflexivity|]. split; [reflexivity|]. split; [apply (sqrt_pos_f v Pv)|apply Pw].
Qed.
Print Assumptions C89_nonnegative.
(** The distances between (1, 2) and (4, -2): 5 and 7 *)
Example C89_nonvacuous :
  let x := [f_of_nat 1; f_of_nat 2] in let y := [f_of_nat 4; fneg (f_of_nat 2)] in
  squares (fun d => fmul d d) /\ length x = length y /\ Forall finite_number x /\ Forall finite_number y /\
  cartesian_distance (fun d => fmul d d) x y = Ok (f_of_nat 5) /\ taxi_distance x y = Ok (f_of_nat 7).
Proof.
  cbn zeta. split; [intros d; reflexivity|]. split; [reflexivity|].
  split; [repeat constructor|]. split; [repeat constructor|]. split; vm_compute; reflexivity.
Qed.
