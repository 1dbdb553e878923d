(** * Property theorems: the chances of an ant's next place (C123) *)
From Verif Require Import AcoWheelProofs AcoModel F64R.
From Coq Require Import Reals Lra Lia.
Open Scope nat_scope.

(** The unvisited places are laid out in some order, each over a stretch as long as its goodness, and a number is
    drawn from the whole length: the ant goes to the place whose stretch it falls into, up to the rounding of as
    many subtractions as there are places. *)
Theorem C123_stretches :
  forall g a l v a', ant_step g a = Ok (l, v, a') -> a_stuck a = false ->
  (forall rate, a_rate a = Some rate -> flt (gen_f64 (a_rng a)).1 rate = false) ->
  (forall u, u ∈ a_unvisited a -> nonneg_finite (entry g l u)) ->
  exists order d, order ≡ₚ a_unvisited a /\
    gen_range_f64 f0 (foldl fadd f0 (map (entry g l) order)) (match a_rate a with None => a_rng a | Some _ => rng_tail (a_rng a) end) = Ok (d, a_rng a') /\
    (0 <= f2r d)%R /\
    let before j := exact_total (map (entry g l) (take j order)) in
    let off j := (INR j * / 2 ^ 53 * f2r d)%R in
    ((exists j, order !! j = Some v /\ (before j - off j <= f2r d <= before j + f2r (entry g l v) + off j)%R) \/
     (v = l /\ (before (length order) - off (length order) <= f2r d)%R)) /\
    (forall j w, order !! j = Some w -> (before j + off (length order) < f2r d < before j + f2r (entry g l w) - off (length order))%R -> v = w).
Proof. exact step_stretch. Qed.
Print Assumptions C123_stretches.

(** Places 1 and 2 of goodness 1 and 3, visited by the wheel in the order 2, 1: 2.0 leads to place 2, 3.5 to place 1. *)
Definition row13 : matrix := Mat 3 3 (fun i j => if j =? 2 then f_of_nat 3 else f1).
Example C123_nonvacuous :
  let ant d := Ant [1; 2] [0] 3 false None (rng_of [d]%N) (rng_of []) in
  (forall u, u ∈ [1; 2] -> nonneg_finite (entry row13 0 u)) /\
  f_of_bits 4611686018427387904 = f_of_nat 2 /\
  (exists a', ant_step row13 (ant 4611686018427387904%N) = Ok (0, 2, a')) /\
  (exists a', ant_step row13 (ant 4615063718147915776%N) = Ok (0, 1, a')).
Proof.
  intros ant. split; [|split; [vm_compute; reflexivity|split; eexists; vm_compute; reflexivity]].
  intros u Hu. apply elem_of_cons in Hu as [->|Hu]; [repeat constructor|]. apply elem_of_list_singleton in Hu as ->. repeat constructor.
Qed.
