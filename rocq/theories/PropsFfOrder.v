(** * Property theorems: what the firefly algorithm takes from the objective (C112) *)
From Verif Require Import FfModel FfOrderSpec FfOrderProofs.
Open Scope nat_scope.

(** ** C112 *)
(** Two objectives whose values and whose reciprocals are ordered alike, and alike in sign: the same fireflies at the same
    places, in every generation, whatever the distance function, the configuration and the random draws. *)
Theorem C112_only_the_order_of_brightness_matters :
  forall f g, same_lights f g -> forall dist powf sq c pop r, same_flight f g (ff_run f dist powf sq c pop r) (ff_run g dist powf sq c pop r).
Proof. exact run_lock. Qed.
Print Assumptions C112_only_the_order_of_brightness_matters.

(** But the order of the values alone does not do: subtracting 3/2 from an objective with the values 1 and 2 leaves the
    order of all points as it was, and the fireflies end elsewhere. *)
Definition left_half (a b : Z) (x : list f64) : f64 := fdiv (match x with v :: _ => if flt v f0 then f_of_Z a else f_of_Z b | [] => f_of_Z a end) (f_of_nat 2).
Definition tiny_cfg : ff_cfg := FfCfg 1 (fneg (f_of_nat 5)) (f_of_nat 5) 1 2 f1 f1 f_0_01 f_0_97 2 gen_f64.
Definition square' (x : f64) : f64 := fmul x x.
Definition tiny_run (f : list f64 -> f64) : outcome (list ff_event * list (list f64)) :=
  ff_run f (cartesian_distance square') (fun _ _ => f1) square' tiny_cfg [[f_of_Z (-2)]; [f_of_nat 2]] (rng_of [4602678819172646912; 4602678819172646912; 4602678819172646912; 4602678819172646912]%N).
Example C112_shifting_the_objective_changes_the_run :
  (forall a b, flt (left_half 2 4 a) (left_half 2 4 b) = flt (left_half (-1) 1 a) (left_half (-1) 1 b)) /\
  (forall a, left_half (-1) 1 a = fsub (left_half 2 4 a) (fdiv (f_of_nat 3) (f_of_nat 2))) /\
  exists e1 p1 e2 p2, tiny_run (left_half 2 4) = Ok (e1, p1) /\ tiny_run (left_half (-1) 1) = Ok (e2, p2) /\ p1 <> p2.
Proof.
  assert (Hc : forall a b x, left_half a b x = fdiv (f_of_Z a) (f_of_nat 2) \/ left_half a b x = fdiv (f_of_Z b) (f_of_nat 2)) by (intros a b [|v x]; unfold left_half; [left; reflexivity|destruct (flt v f0); auto]).
  split; [|split].
  - intros [|u a] [|v b]; unfold left_half; [reflexivity|destruct (flt v f0); reflexivity|destruct (flt u f0); reflexivity|destruct (flt u f0), (flt v f0); reflexivity].
  - intros [|u a]; unfold left_half; [reflexivity|destruct (flt u f0); reflexivity].
  - eexists _, _, _, _. split; [vm_compute; reflexivity|]. split; [vm_compute; reflexivity|]. discriminate.
Qed.
Example C112_nonvacuous :
  same_lights (left_half 2 4) (left_half 1 16) /\
  exists e1 p1, tiny_run (left_half 2 4) = Ok (e1, p1) /\ length e1 = 5 /\ p1 <> [[f_of_Z (-2)]; [f_of_nat 2]].
Proof.
  split.
  - unfold same_lights, shine. split_and!.
    + intros [|u a] [|v b]; unfold left_half; [reflexivity|destruct (flt v f0); reflexivity|destruct (flt u f0); reflexivity|destruct (flt u f0), (flt v f0); reflexivity].
    + intros [|u a] [|v b]; unfold left_half; [reflexivity|destruct (flt v f0); reflexivity|destruct (flt u f0); reflexivity|destruct (flt u f0), (flt v f0); reflexivity].
    + intros [|u a]; unfold left_half; [reflexivity|destruct (flt u f0); reflexivity].
    + intros [|u a]; unfold left_half; [reflexivity|destruct (flt u f0); reflexivity].
    + intros [|u a]; unfold left_half; [reflexivity|destruct (flt u f0); reflexivity].
  - eexists _, _. split; [vm_compute; reflexivity|]. split; [reflexivity|]. discriminate.
Qed.
