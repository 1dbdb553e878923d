(** * Property theorems: what the local updates of an ant colony add up to (C116) *)
From Verif Require Import AcoModel AcoSpec AcoLocalSpec AcoUtilProofs AcoLocalProofs.
Open Scope nat_scope.

(** ** C116 *)
(** Building of paths by AntColonySystemAB on [n] places, with any goodness and any local update: in each of n - 1 rounds the local update is given the
    paths so far of the ants still walking, all of the same length; the paths of the last round are returned. *)
Theorem C116_rounds :
  forall op local n ants p paths ants' p', nrows p = n -> Forall (usable n) ants -> ant_colony_system op local ants p = Ok (paths, ants', p') ->
  exists rounds, length rounds = n - 1 /\ ofold local p rounds = Ok p' /\ List.last rounds [] = paths /\
  (forall k ps, rounds !! k = Some ps -> Forall (fun q => length q = k + 2) ps /\ length ps <= length ants) /\
  (forall k ps ps', rounds !! k = Some ps -> rounds !! (k + 1) = Some ps' -> grown ps ps').
Proof. exact acs_local. Qed.
Print Assumptions C116_rounds.
(** When every ant got to the end these are the beginnings of the returned paths. *)
Theorem C116_beginnings :
  forall op local n ants p paths ants' p', nrows p = n -> Forall (usable n) ants -> ant_colony_system op local ants p = Ok (paths, ants', p') ->
  length paths = length ants -> ofold (fun m k => local m (map (take k) paths)) p (seq 2 (n - 1)) = Ok p'.
Proof. exact acs_local_all. Qed.
Print Assumptions C116_beginnings.
(** And Decay has multiplied each directed edge by the rate once for every time an ant walked it (DecayTo likewise); nothing else has changed. *)
Theorem C116_decay :
  forall op n ants p paths ants' p' rate, nrows p = n -> Forall (usable n) ants -> ant_colony_system op (decay rate) ants p = Ok (paths, ants', p') ->
  length paths = length ants -> forall a b, entry p' a b = Nat.iter (walks a b paths) (fun x => fmul x rate) (entry p a b).
Proof. intros op n ants p paths ants' p' rate. apply acs_edges. intros m ps m' H. exact (proj2 (proj2 (decay_spec _ _ _ _ H))). Qed.
Print Assumptions C116_decay.
Theorem C116_decay_to :
  forall op n ants p paths ants' p' rate stable, nrows p = n -> Forall (usable n) ants -> ant_colony_system op (decay_to rate stable) ants p = Ok (paths, ants', p') ->
  length paths = length ants ->
  forall a b, entry p' a b = Nat.iter (walks a b paths) (fun x => fadd (fmul x rate) (fmul stable (fsub f1 rate))) (entry p a b).
Proof. intros op n ants p paths ants' p' rate stable. apply acs_edges. intros m ps m' H. exact (proj2 (proj2 (decay_to_spec _ _ _ _ _ H))). Qed.
Print Assumptions C116_decay_to.
(** In particular an edge no ant walks is left alone, such as one which only closes tours. *)
Theorem C116_unwalked_edges_keep :
  forall op n ants p paths ants' p' rate, nrows p = n -> Forall (usable n) ants -> ant_colony_system op (decay rate) ants p = Ok (paths, ants', p') ->
  length paths = length ants -> forall a b, Forall (fun q => forall i, q !! i = Some a -> q !! (i + 1) <> Some b) paths -> entry p' a b = entry p a b.
Proof.
  intros op n ants p paths ants' p' rate Hr Hu H L a b HF. rewrite (C116_decay _ _ _ _ _ _ _ _ Hr Hu H L), (walks_none _ _ _ HF). reflexivity.
Qed.
Print Assumptions C116_unwalked_edges_keep.

(** Three ants on four places: all get to the end, and two of them walk from 2 to 1. *)
Definition ants3 : list ant :=
  [canonical_ant 4 (rng_of [1; 4503599627370496; 3]%N) (rng_of [1; 1]%N); canonical_ant 4 (rng_of [2]%N) (rng_of []); canonical_ant 4 (rng_of [2]%N) (rng_of [])].
Example C116_nonvacuous :
  Forall (usable 4) ants3 /\
  match ant_colony_system (fun p => Ok p) (decay fhalf) ants3 (mrepeat 4 4 f1) with
  | Ok (paths, _, p') => paths = [[1; 3; 0; 2]; [2; 1; 0; 3]; [2; 1; 0; 3]] /\ walks 2 1 paths = 2 /\ entry p' 2 1 = fmul fhalf fhalf /\ entry p' 1 2 = f1
  | _ => False
  end.
Proof. split; [repeat constructor|]. vm_compute. split_and!; reflexivity. Qed.
