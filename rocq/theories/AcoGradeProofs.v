(** * Proofs about grading and best policies *)
From Verif Require Export AcoPheromoneProofs.
From Verif Require Import F64R SusProofs.
From Coq Require Import Reals Lra.
From Flocq Require Import Core BinarySingleNaN.
Open Scope nat_scope.
Local Existing Instances Hfexp HNE Hprec53 Hmax1024.

(** ** The best solution of an iteration *)
Definition no_nan (sols : list solution) : Prop := Forall (fun s => F64.is_nan (sol_fitness s) = false) sols.
Definition better (a b : solution) : solution := if fgt (sol_fitness a) (sol_fitness b) then a else b.
Lemma foldl_better_in sols : forall s, foldl better s sols = s \/ foldl better s sols ∈ sols.
Proof.
  induction sols as [|x sols IH]; intros s; cbn [foldl]; [auto|]. destruct (IH (better s x)) as [E|E]; [|right; right; exact E].
  rewrite E. unfold better. destruct (fgt _ _); [auto|right; left].
Qed.
Lemma find_best_in sols b : find_best_sol sols = Ok b -> b ∈ sols.
Proof.
  destruct sols as [|s sols]; [discriminate|]. intros [= <-]. change (fun a b => _) with better. destruct (foldl_better_in sols s) as [->|E]; [left|right; exact E].
Qed.
Lemma find_best_ok sols : sols <> [] -> exists b, find_best_sol sols = Ok b.
Proof. destruct sols; [congruence|]. cbn. eauto. Qed.
Lemma foldl_better_max sols : forall s, F64.is_nan (sol_fitness s) = false -> no_nan sols ->
  fle (sol_fitness s) (sol_fitness (foldl better s sols)) = true /\ Forall (fun x => fle (sol_fitness x) (sol_fitness (foldl better s sols)) = true) sols.
Proof.
  induction sols as [|x sols IH]; intros s Hs Hn; cbn [foldl]; [split; [apply fle_refl, Hs|constructor]|].
  inversion_clear Hn as [|? ? Hx Hn']. 
  assert (Hb : F64.is_nan (sol_fitness (better s x)) = false /\ fle (sol_fitness s) (sol_fitness (better s x)) = true /\ fle (sol_fitness x) (sol_fitness (better s x)) = true).
  { unfold better, fgt. destruct (flt (sol_fitness x) (sol_fitness s)) eqn:E.
    - split_and!; [auto|apply fle_refl; auto|apply flt_le, E].
    - split_and!; [auto|apply not_flt_fle; auto|apply fle_refl; auto]. }
  destruct Hb as (N & L1 & L2). destruct (IH _ N Hn') as [H1 H2]. split; [eapply fle_trans; eauto|]. constructor; [eapply fle_trans; eauto|exact H2].
Qed.
Lemma find_best_max sols b : no_nan sols -> find_best_sol sols = Ok b -> Forall (fun x => fle (sol_fitness x) (sol_fitness b) = true) sols.
Proof.
  intros Hn. destruct sols as [|s sols]; [discriminate|]. intros [= <-]. change (fun a b => _) with better. inversion_clear Hn as [|? ? Hs Hn'].
  destruct (foldl_better_max sols s Hs Hn') as [H1 H2]. constructor; auto.
Qed.
Lemma find_best_none sols : (forall b, find_best_sol sols <> Ok b) -> sols = [].
Proof. destruct sols; [auto|]. intros H. exfalso. eapply H. reflexivity. Qed.
Lemma overall_best_cases best sols : overall_best best sols = best \/
  exists b, find_best_sol sols = Ok b /\ flt (sol_fitness best) (sol_fitness b) = true /\ overall_best best sols = b.
Proof.
  unfold overall_best. destruct (find_best_sol sols) as [b| |]; auto. unfold fgt. destruct (flt _ _) eqn:E; [right; eauto|auto].
Qed.

Lemma overall_monotone best sols : F64.is_nan (sol_fitness best) = false -> fle (sol_fitness best) (sol_fitness (overall_best best sols)) = true /\
  F64.is_nan (sol_fitness (overall_best best sols)) = false.
Proof.
  intros Hn. destruct (overall_best_cases best sols) as [->|(b & _ & L & ->)]; [split; [apply fle_refl|]; exact Hn|].
  split; [apply flt_le, L|eapply flt_nan_r, L].
Qed.
Lemma overall_history hist : forall best, F64.is_nan (sol_fitness best) = false ->
  let b := foldl overall_best best hist in
  (b = best \/ b ∈ concat hist) /\ fle (sol_fitness best) (sol_fitness b) = true /\ F64.is_nan (sol_fitness b) = false.
Proof.
  induction hist as [|sols hist IH]; intros best Hn; cbn [foldl concat].
  - split_and!; auto. apply fle_refl, Hn.
  - destruct (overall_monotone best sols Hn) as [L N]. destruct (IH _ N) as (H1 & H2 & H3). split_and!.
    + destruct H1 as [->|H1]; [|right; apply elem_of_app; auto].
      destruct (overall_best_cases best sols) as [->|(b & Hb & _ & ->)]; [auto|]. right. apply elem_of_app. left. apply find_best_in, Hb.
    + eapply fle_trans; eauto.
    + exact H3.
Qed.
Lemma overall_history_max hist : forall best, F64.is_nan (sol_fitness best) = false -> Forall no_nan hist ->
  Forall (fun s => fle (sol_fitness s) (sol_fitness (foldl overall_best best hist)) = true) (concat hist).
Proof.
  induction hist as [|sols hist IH]; intros best Hn Hh; cbn [foldl concat]; [constructor|]. inversion_clear Hh as [|? ? Hs Hh'].
  destruct (overall_monotone best sols Hn) as [_ N]. apply Forall_app. split; [|apply IH; auto].
  destruct (overall_history hist _ N) as (_ & L & _).
  destruct (find_best_sol sols) as [b| |] eqn:Eb; [|destruct sols; [constructor|discriminate]|destruct sols; [constructor|discriminate]].
  pose proof (find_best_max sols b Hs Eb) as Hm. eapply Forall_impl; [exact Hm|]. intros s Hsb. cbn beta in Hsb. eapply fle_trans; [exact Hsb|]. eapply fle_trans; [|exact L].
  unfold overall_best. rewrite Eb. unfold fgt. destruct (flt _ _) eqn:E; [apply fle_refl|apply not_flt_fle; [exact Hn| |exact E]].
  - eapply flt_nan_r, E.
  - apply find_best_in in Eb. unfold no_nan in Hs. rewrite Forall_forall in Hs. auto.
Qed.
Lemma iteration_history hist best :
  foldl iteration_best best hist = match find_best_sol (default [] (last (filter (fun s => s <> []) hist))) with Ok b => b | _ => best end.
Proof.
  revert best. induction hist as [|sols hist IH] using rev_ind; intros best; [reflexivity|]. rewrite foldl_app. cbn [foldl]. rewrite filter_app, filter_cons.
  destruct sols as [|s sols].
  - rewrite decide_False by tauto. cbn [filter]. rewrite filter_nil, app_nil_r. rewrite <- IH. reflexivity.
  - rewrite decide_True by discriminate. rewrite filter_nil, last_snoc. change (default [] (Some (s :: sols))) with (s :: sols). unfold iteration_best at 1. destruct (find_best_ok (s :: sols)) as [b ->]; [discriminate|reflexivity].
Qed.

(** ** Consecutive pairs *)
Fixpoint pairs (l : list nat) : list (nat * nat) :=
  match l with a :: (b :: _) as t => (a, b) :: pairs t | _ => [] end.
Lemma windows_pairs x xs : windows (x :: xs) = pairs (x :: xs ++ [x]).
Proof.
  change (windows (x :: xs)) with (zip (x :: xs) (xs ++ [x])). generalize x at 2 4 as z. revert x. induction xs as [|y xs IH]; intros x z; [reflexivity|]. cbn [app zip zip_with pairs]. f_equal. apply IH.
Qed.
Lemma pairs_app l y k : pairs (l ++ y :: k) = pairs (l ++ [y]) ++ pairs (y :: k).
Proof.
  induction l as [|a l IH]; [reflexivity|]. destruct l as [|b l]; [reflexivity|]. cbn [app pairs] in *. cbn [app]. f_equal. exact IH.
Qed.
Definition flip_edge (e : nat * nat) : nat * nat := (e.2, e.1).
Lemma pairs_reverse l : pairs (reverse l) = reverse (map flip_edge (pairs l)).
Proof.
  induction l as [|a l IH]; [reflexivity|]. destruct l as [|b l]; [reflexivity|].
  change (pairs (a :: b :: l)) with ((a, b) :: pairs (b :: l)). cbn [map]. rewrite (reverse_cons _ (flip_edge (a, b))), <- IH, !reverse_cons, <- app_assoc. cbn [app].
  rewrite (pairs_app (reverse l) b [a]). reflexivity.
Qed.
Lemma windows_rotate (p q : list nat) : windows (p ++ q) ≡ₚ windows (q ++ p).
Proof.
  destruct p as [|x p]; [rewrite app_nil_r; reflexivity|]. destruct q as [|y q]; [rewrite app_nil_r; reflexivity|].
  cbn [app]. rewrite !windows_pairs, <- !app_assoc. cbn [app].
  change (x :: p ++ y :: q ++ [x]) with ((x :: p) ++ y :: q ++ [x]). change (y :: q ++ x :: p ++ [y]) with ((y :: q) ++ x :: p ++ [y]).
  rewrite (pairs_app (x :: p)), (pairs_app (y :: q)). apply Permutation_app_comm.
Qed.
Lemma windows_reverse (p : list nat) : windows (reverse p) ≡ₚ map flip_edge (windows p).
Proof.
  destruct p as [|x p]; [reflexivity|]. rewrite reverse_cons, windows_rotate. cbn [app]. rewrite !windows_pairs.
  replace (x :: reverse p ++ [x]) with (reverse (x :: p ++ [x])) by (rewrite reverse_cons, reverse_app; reflexivity).
  rewrite pairs_reverse. apply reverse_Permutation.
Qed.

(** ** Exact costs *)
Lemma f2r_inj x y : fvalid x -> fvalid y -> ffinite x = true -> ffinite y = true -> f2r x = f2r y -> f2r x <> 0%R -> x = y.
Proof.
  intros [a ->]%fvalid_ex [b ->]%fvalid_ex. rewrite !ffinite_B, !f2r_B. intros Fa Fb E Nz. f_equal. apply B2R_inj; [| |exact E].
  - destruct a; try discriminate; [|reflexivity]. exfalso. apply Nz. reflexivity.
  - rewrite E in Nz. destruct b; try discriminate; [|reflexivity]. exfalso. apply Nz. reflexivity.
Qed.
Lemma f_of_nat_add j k : (Z.of_nat (j + k) <= 2 ^ 53)%Z -> fadd (f_of_nat j) (f_of_nat k) = f_of_nat (j + k).
Proof.
  intros H. destruct (decide (j + k = 0)) as [E|N].
  - replace j with 0 by lia. replace k with 0 by lia. reflexivity.
  - destruct (f_of_nat_exact j ltac:(lia)) as (V1 & F1 & E1). destruct (f_of_nat_exact k ltac:(lia)) as (V2 & F2 & E2). destruct (f_of_nat_exact (j + k) H) as (V3 & F3 & E3).
    assert (EE : rnd (f2r (f_of_nat j) + f2r (f_of_nat k)) = INR (j + k)) by (rewrite E1, E2, <- plus_INR, <- E3; apply rnd_id, V3).
    destruct (fadd_R _ _ V1 V2 F1 F2) as [E4 F4]; [rewrite EE, <- E3; apply f2r_bound, V3|].
    apply f2r_inj; auto using fvalid_add; [congruence|]. rewrite E4, EE. apply not_0_INR. exact N.
Qed.
Definition edge_total (k : nat -> nat -> nat) (es : list (nat * nat)) : nat := sum_list_with (fun e => k e.1 e.2) es.
Lemma edge_total_perm k es es' : es ≡ₚ es' -> edge_total k es = edge_total k es'.
Proof. unfold edge_total. induction 1; cbn in *; lia. Qed.
Lemma edge_total_flip k es : (forall i j, k i j = k j i) -> edge_total k (map flip_edge es) = edge_total k es.
Proof. unfold edge_total. intros H. induction es as [|[a b] es IH]; cbn in *; [reflexivity|]. rewrite IH, (H b a). reflexivity. Qed.

Lemma cost_fold_exact w (k : nat -> nat -> nat) : (forall i j, in_matrix w i j -> entry w i j = f_of_nat (k i j)) ->
  forall es t, Forall (fun e => in_matrix w e.1 e.2) es -> (Z.of_nat (t + edge_total k es) <= 2 ^ 53)%Z ->
  ofold (fun s '(i, j) => w ← mget w i j; Ok (fadd s w)) (f_of_nat t) es = Ok (f_of_nat (t + edge_total k es)).
Proof.
  intros Hw. induction es as [|[i j] es IH]; intros t Hi Hb; cbn [ofold].
  - change (edge_total k []) with 0. rewrite Nat.add_0_r. reflexivity.
  - inversion_clear Hi as [|? ? H1 Hs]. cbn [fst snd] in H1. change (edge_total k ((i, j) :: es)) with (k i j + edge_total k es) in *.
    rewrite (proj2 (mget_Ok w i j _) (conj H1 eq_refl)). cbn [mbind outcome_bind]. rewrite Hw by exact H1. rewrite f_of_nat_add by lia.
    rewrite IH by (auto; lia). rewrite Nat.add_assoc. reflexivity.
Qed.
Lemma path_cost_exact w (k : nat -> nat -> nat) path :
  (forall i j, in_matrix w i j -> entry w i j = f_of_nat (k i j)) -> Forall (fun e => in_matrix w e.1 e.2) (windows path) ->
  (Z.of_nat (edge_total k (windows path)) <= 2 ^ 53)%Z -> path_cost w path = Ok (f_of_nat (edge_total k (windows path))).
Proof. intros Hw Hi Hb. apply (cost_fold_exact w k Hw (windows path) 0 Hi Hb). Qed.
Lemma cost_rotation w (k : nat -> nat -> nat) p q :
  (forall i j, in_matrix w i j -> entry w i j = f_of_nat (k i j)) -> Forall (fun e => in_matrix w e.1 e.2) (windows (p ++ q)) ->
  (Z.of_nat (edge_total k (windows (p ++ q))) <= 2 ^ 53)%Z -> path_cost w (q ++ p) = path_cost w (p ++ q).
Proof.
  intros Hw Hi Hb. pose proof (windows_rotate p q) as HP. rewrite !(path_cost_exact w k); auto; rewrite <- ?(edge_total_perm k _ _ HP); auto.
  rewrite <- HP. exact Hi.
Qed.
Lemma cost_reversal w (k : nat -> nat -> nat) p :
  (forall i j, in_matrix w i j -> entry w i j = f_of_nat (k i j)) -> (forall i j, k i j = k j i) -> nrows w = ncols w ->
  Forall (fun e => in_matrix w e.1 e.2) (windows p) ->
  (Z.of_nat (edge_total k (windows p)) <= 2 ^ 53)%Z -> path_cost w (reverse p) = path_cost w p.
Proof.
  intros Hw Hk Hsq Hi Hb. pose proof (windows_reverse p) as HP.
  assert (ET : edge_total k (windows (reverse p)) = edge_total k (windows p)) by (rewrite (edge_total_perm k _ _ HP); apply edge_total_flip, Hk).
  rewrite !(path_cost_exact w k); auto; rewrite ?ET; auto.
  rewrite HP. apply Forall_map. eapply Forall_impl; [exact Hi|]. intros [a b] [H1 H2]. unfold in_matrix in *. cbn in *. lia.
Qed.
(** In general: the cost is the left-to-right float sum of the weights of the closed path. *)
Definition float_sum (l : list f64) : f64 := foldl fadd f0 l.
Lemma cost_fold_spec w es : forall s c, ofold (fun s '(i, j) => w ← mget w i j; Ok (fadd s w)) s es = Ok c ->
  Forall (fun e => in_matrix w e.1 e.2) es /\ c = foldl fadd s (map (fun e => entry w e.1 e.2) es).
Proof.
  induction es as [|[i j] es IH]; intros s c H; cbn [ofold] in H; [injection H as <-; auto|]. apply obind_Ok in H as (s1 & H1 & H).
  apply obind_Ok in H1 as (x & Hx & H1). injection H1 as <-. apply mget_Ok in Hx as [Hi ->]. destruct (IH _ _ H) as [H2 ->]. split; [constructor; auto|reflexivity].
Qed.
Lemma cost_fold_ok w es : forall s, Forall (fun e => in_matrix w e.1 e.2) es -> exists c, ofold (fun s '(i, j) => w ← mget w i j; Ok (fadd s w)) s es = Ok c.
Proof.
  induction es as [|[i j] es IH]; intros s H; cbn [ofold]; [eauto|]. inversion_clear H as [|? ? H1 Hs]. rewrite (proj2 (mget_Ok w i j _) (conj H1 eq_refl)).
  cbn [mbind outcome_bind]. auto.
Qed.
Lemma grading w sols sols' : path_length_inverse w sols = Ok sols' ->
  map sol_path sols' = map sol_path sols /\
  Forall (fun s => sol_fitness s = fdiv f1 (float_sum (map (fun e => entry w e.1 e.2) (windows (sol_path s))))) sols'.
Proof.
  revert sols'. induction sols as [|s sols IH]; intros sols' H; cbn [path_length_inverse omapM] in H; [injection H as <-; auto|].
  unfold path_length_inverse in H. cbn [omapM] in H. apply obind_Ok in H as (s1 & H1 & H). apply obind_Ok in H as (ss & H2 & H). injection H as <-.
  unfold grade_solution in H1. apply obind_Ok in H1 as (c & Hc & H1). injection H1 as <-. destruct (IH _ H2) as [HP HF]. cbn [map sol_path]. rewrite HP. split; [reflexivity|].
  constructor; [|exact HF]. cbn [sol_fitness sol_path]. apply cost_fold_spec in Hc as [_ ->]. reflexivity.
Qed.
Lemma grading_ok w n sols : nrows w = n -> ncols w = n -> Forall (fun s => Forall (fun v => v < n) (sol_path s)) sols -> exists sols', path_length_inverse w sols = Ok sols'.
Proof.
  intros Hr Hc. unfold path_length_inverse. induction 1 as [|s sols Hs _ [ss IH]]; cbn [omapM]; [eauto|].
  assert (Hcost : exists c, path_cost w (sol_path s) = Ok c).
  { apply cost_fold_ok. apply windows_range in Hs. eapply Forall_impl; [exact Hs|]. intros e [? ?]. split; lia. }
  destruct Hcost as [c Hcost]. assert (Hg : grade_solution w s = Ok (Sol (sol_path s) (fdiv f1 c))) by (unfold grade_solution; rewrite Hcost; reflexivity).
  rewrite Hg. cbn [mbind outcome_bind]. rewrite IH. cbn. eauto.
Qed.
