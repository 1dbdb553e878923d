(** * Property theorems: deposits on arbitrary paths, and when an update panics (C134) *)
From Verif Require Import AcoPheromoneProofs F64 AcoModel AcoSpec AcoTrailSpec AcoTrailProofs.
Open Scope nat_scope.

(** For any paths whatever, of any length and with repetitions: if every move of every solution's path is inside the
    matrix, the update is made, and the entry (a, b) is first scaled by 1 - rate, then the fitness of each solution, in order,
    is added to it once for every time its closed path goes from a to b or from b to a.  Otherwise it panics. *)
Theorem C134_ant_system :
  forall rate m sols,
  possible_or_panic (Forall (fits m) sols) (as_update rate m sols)
    (fun m' => nrows m' = nrows m /\ ncols m' = ncols m /\ forall a b, entry m' a b = trodden a b sols (fmul (entry m a b) (fsub f1 rate))).
Proof. exact as_cases. Qed.
Print Assumptions C134_ant_system.
(** The elitist update adds the best solution's trail once more, after the others; that one must fit as well, even where all
    the others do. *)
Theorem C134_elitist :
  forall rate m sols best,
  possible_or_panic (Forall (fits m) (sols ++ [overall_best best sols])) (elitist_update rate m sols best)
    (fun '(m', best') => best' = overall_best best sols /\ nrows m' = nrows m /\ ncols m' = ncols m /\
       forall a b, entry m' a b = trodden a b (sols ++ [overall_best best sols]) (fmul (entry m a b) (fsub f1 rate))).
Proof. exact elitist_cases. Qed.
Print Assumptions C134_elitist.
(** The colony system: only the best solution deposits, and only it has to fit. *)
Theorem C134_ant_colony_system :
  forall policy rate m sols best,
  possible_or_panic (fits m (policy best sols)) (acs_update policy rate m sols best)
    (fun '(m', best') => best' = policy best sols /\ nrows m' = nrows m /\ ncols m' = ncols m /\
       forall a b, entry m' a b = trodden a b [Sol (sol_path best') (fmul (sol_fitness best') rate)] (fmul (entry m a b) (fsub f1 rate))).
Proof. exact acs_cases. Qed.
Print Assumptions C134_ant_colony_system.
(** MAX-MIN: the same condition; on a symmetric matrix every use of an edge adds the best fitness and limits the sum. *)
Theorem C134_max_min_possible :
  forall policy rate lo hi m sols best,
  possible_or_panic (fits m (policy best sols)) (mmas_update policy rate lo hi m sols best) (fun r => r.2 = policy best sols).
Proof. exact mmas_cases. Qed.
Print Assumptions C134_max_min_possible.
Theorem C134_max_min_value :
  forall policy rate lo hi m sols best m' best', symmetric m -> mmas_update policy rate lo hi m sols best = Ok (m', best') ->
  nrows m' = nrows m /\ ncols m' = ncols m /\
  forall a b, in_matrix m a b -> limited_adds lo hi (sol_fitness best') (uses (sol_path best') a b) (fmul (entry m a b) (fsub f1 rate)) (entry m' a b).
Proof. exact mmas_adds. Qed.
Print Assumptions C134_max_min_value.
(** On a square matrix a path fits exactly when it names no place outside of it; the empty path of the initial best solution
    always fits. *)
Theorem C134_square :
  forall m s n, nrows m = n -> ncols m = n -> (fits m s <-> Forall (fun v => v < n) (sol_path s)).
Proof. exact fits_square. Qed.
Print Assumptions C134_square.
(** Tours of two places use their only edge twice, so it gets the fitness twice; the tour of one place adds it twice to the
    diagonal. *)
Theorem C134_two_places :
  forall p, tour 2 p -> moves p 0 1 = 1 /\ moves p 1 0 = 1 /\ forall f v, trodden 0 1 [Sol p f] v = fadd (fadd v f) f.
Proof.
  intros p H. assert (C : p = [0; 1] \/ p = [1; 0]).
  { destruct p as [|x [|y [|z p]]]; try (apply Permutation_length in H; discriminate H). unfold tour in H. cbn in H.
    assert (Hx : x ∈ [0; 1]) by (rewrite <- H; left). assert (Hy : y ∈ [0; 1]) by (rewrite <- H; right; left).
    assert (ND : NoDup [x; y]) by (rewrite H; apply (bool_decide_unpack _); vm_compute; exact I).
    apply NoDup_cons in ND as [ND _]. rewrite elem_of_list_singleton in ND.
    rewrite !elem_of_cons, elem_of_nil in Hx, Hy. destruct Hx as [->|[->|[]]], Hy as [->|[->|[]]]; auto; exfalso; apply ND; reflexivity. }
  destruct C as [->| ->]; (split; [reflexivity|split; [reflexivity|intros f v; reflexivity]]).
Qed.
Print Assumptions C134_two_places.
Theorem C134_one_place :
  forall f v, trodden 0 0 [Sol [0] f] v = fadd (fadd v f) f.
Proof. reflexivity. Qed.
Print Assumptions C134_one_place.
(** On a tour of three or more places every edge is used at most once. *)
Theorem C134_longer_tours :
  forall n p a b, 3 <= n -> tour n p -> (neighbours p a b -> moves p a b + moves p b a = 1) /\ (~ neighbours p a b -> moves p a b + moves p b a = 0).
Proof.
  intros n p a b Hn H. destruct (tour_facts _ _ H) as (ND & L & _). rewrite <- hits_moves. split; intros Hb.
  - apply neighbours_one; [exact ND|lia|exact Hb].
  - apply not_neighbours_zero, Hb.
Qed.
Print Assumptions C134_longer_tours.
(** A path going to and fro, a place outside the matrix, and a best solution that does not fit any more. *)
Example C134_nonvacuous :
  (let s := Sol [0; 1; 0; 1] f1 in fits (mrepeat 2 2 f1) s /\
   exists m', as_update f0 (mrepeat 2 2 f1) [s] = Ok m' /\ entry m' 0 1 = f_of_nat 5 /\ entry m' 0 0 = f1) /\
  as_update f0 (mrepeat 2 2 f1) [Sol [0; 2] f1] = Panic /\
  elitist_update f0 (mrepeat 2 2 f1) [Sol [0; 1] f1] (Sol [2] (f_of_nat 3)) = Panic /\
  (exists m' b, mmas_update overall_best f0 f0 (f_of_nat 3) (mrepeat 2 2 f1) [Sol [0; 1] f1] sol_default = Ok (m', b) /\ entry m' 0 1 = f_of_nat 3).
Proof.
  cbv zeta. split; [split|split; [|split]].
  - apply (fits_square _ _ 2); [reflexivity|reflexivity|]. cbn. repeat (apply Forall_cons; split); try lia. constructor.
  - eexists. split; [vm_compute; reflexivity|]. split; vm_compute; reflexivity.
  - vm_compute. reflexivity.
  - vm_compute. reflexivity.
  - eexists _, _. split; [vm_compute; reflexivity|]. vm_compute. reflexivity.
Qed.
