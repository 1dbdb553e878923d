(** * Proofs about generations and runs of the particle swarm *)
From Verif Require Export PsoProofs.
Require Verif.SusProofs.
Open Scope nat_scope.

Lemma sample01_in r : in01 (fst (sample01 r)).
Proof.
  unfold sample01. cbn [fst]. destruct (fle f0 (f_of_bits (r 0)) && fle (f_of_bits (r 0)) f1) eqn:E; [|split; [reflexivity|split; reflexivity]].
  apply andb_prop in E. split; [exact (SusProofs.fvalid_of_bits _)|exact E].
Qed.
Lemma new_velocity_spec w c1 c2 : forall v x p g r, length x = length v -> length p = length v -> length g = length v ->
  accelerated w c1 c2 v x p g (fst (new_velocity w c1 c2 v x p g r)) /\ length (fst (new_velocity w c1 c2 v x p g r)) = length v.
Proof.
  induction v as [|vi v IH]; intros [|xi x] [|pi p] [|gi g] r H1 H2 H3; try discriminate; [split; [constructor|reflexivity]|].
  cbn [new_velocity]. pose proof (sample01_in r) as Hr1. destruct (sample01 r) as [r1 ra] eqn:E1. pose proof (sample01_in ra) as Hr2. destruct (sample01 ra) as [r2 rb] eqn:E2.
  cbn [fst] in Hr1, Hr2. cbn [length] in *. destruct (IH x p g rb) as [A B]; [lia..|].
  destruct (new_velocity w c1 c2 v x p g rb) as [us rc]. cbn [fst] in *. cbn [length]. split; [constructor; auto|lia].
Qed.
Lemma accelerated_length w c1 c2 v x p g v' : accelerated w c1 c2 v x p g v' -> length v' = length v /\ length x = length v /\ length p = length v /\ length g = length v.
Proof. induction 1 as [|vi v xi x pi p gi g r1 r2 v' H1 H2 _ IH]; [auto|]. cbn [length]. lia. Qed.

Section Run.
Context (f : list f64 -> f64) (w c1 c2 : f64).
Lemma moves_of g d p r : of_dimension d p -> length g = d -> moves f w c1 c2 g p (update_position f (fst (update_velocity g w c1 c2 p r))).
Proof.
  intros (Hx & Hv & Hp) Hg. unfold update_velocity. destruct (new_velocity_spec w c1 c2 (velocity p) (position p) (pbest p) g r) as [A B]; [congruence..|].
  destruct (new_velocity w c1 c2 (velocity p) (position p) (pbest p) g r) as [v' r']. cbn [fst] in *. unfold update_position. cbn [position velocity pbest pbest_value].
  unfold moves. destruct (flt _ _) eqn:E; cbn [position velocity pbest value pbest_value]; rewrite E; auto.
Qed.
Lemma moves_dimension g d p p' : of_dimension d p -> moves f w c1 c2 g p p' -> of_dimension d p'.
Proof.
  intros (Hx & Hv & Hp) (A & B & _ & C). destruct (accelerated_length _ _ _ _ _ _ _ _ A) as (L & _).
  assert (LX : length (position p') = d) by (rewrite B, zip_with_length, L; lia).
  unfold of_dimension. split; [exact LX|]. split; [lia|]. destruct (flt _ _); destruct C as [-> _]; assumption.
Qed.

(** update_best *)
Definition take_best (b : list f64 * f64) (p : particle) : list f64 * f64 := if flt (f (pbest p)) (f (fst b)) then (pbest p, pbest_value p) else b.
Lemma take_best_eq b p : take_best b p = if flt (f (pbest p)) (f (fst b)) then (pbest p, pbest_value p) else b.
Proof. reflexivity. Qed.
Lemma update_best_eq s : update_best f s = Swarm (particles s) (fst (foldl take_best (gbest s, gbest_value s) (particles s))) (snd (foldl take_best (gbest s, gbest_value s) (particles s))).
Proof.
  unfold update_best. assert (G : forall l s, foldl (fun s p => if flt (f (pbest p)) (f (gbest s)) then Swarm (particles s) (pbest p) (pbest_value p) else s) s l =
    Swarm (particles s) (fst (foldl take_best (gbest s, gbest_value s) l)) (snd (foldl take_best (gbest s, gbest_value s) l))).
  { induction l as [|p l IH]; intros s0; cbn [foldl]; [destruct s0; reflexivity|]. rewrite IH, take_best_eq. cbn [fst]. destruct (flt _ _); reflexivity. }
  apply G.
Qed.
Lemma take_best_spec l : forall b, let b' := foldl take_best b l in
  (b' = b \/ exists p, p ∈ l /\ b' = (pbest p, pbest_value p) /\ flt (f (pbest p)) (f (fst b)) = true) /\
  (is_nan (f (fst b)) = false -> is_nan (f (fst b')) = false /\ fle (f (fst b')) (f (fst b)) = true /\
     forall p, p ∈ l -> is_nan (f (pbest p)) = false -> fle (f (fst b')) (f (pbest p)) = true).
Proof.
  induction l as [|p l IH]; intros b; cbn [foldl].
  - split; [auto|]. intros N. split; [exact N|]. split; [apply fle_refl, N|]. intros p H. inversion H.
  - rewrite take_best_eq. destruct (flt (f (pbest p)) (f (fst b))) eqn:E.
    + destruct (IH (pbest p, pbest_value p)) as [I1 I2]. cbn [fst] in *.
      assert (N : is_nan (f (pbest p)) = false /\ fle (f (pbest p)) (f (fst b)) = true) by (split; [eapply flt_nan_l; eauto|apply flt_le, E]).
      destruct N as [N L]. destruct (I2 N) as (J1 & J2 & J3). split.
      * right. destruct I1 as [->|(q & Hq & -> & Hlt)]; [exists p; split; [left|auto]|]. exists q. split; [right; exact Hq|]. split; [reflexivity|].
        eapply flt_trans; eauto.
      * intros _. split; [exact J1|]. split; [eapply fle_trans; eauto|]. intros q Hq Nq. apply elem_of_cons in Hq as [->|Hq]; auto.
    + destruct (IH b) as [I1 I2]. split.
      * destruct I1 as [->|(q & Hq & X)]; [auto|]. right. exists q. split; [right; exact Hq|exact X].
      * intros N. destruct (I2 N) as (J1 & J2 & J3). split; [exact J1|]. split; [exact J2|]. intros q Hq Nq. apply elem_of_cons in Hq as [->|Hq]; [|auto].
        eapply fle_trans; [exact J2|]. apply not_flt_fle; auto.
Qed.

Context (met : nat -> swarm -> bool) (sched : nat -> list (nat * nat) * list nat).
Lemma generation_spec d i s ws : schedule_ok (length (particles s)) (length ws) (sched i).1 -> order_ok (length (particles s)) (sched i).2 ->
  Forall (of_dimension d) (particles s) -> length (gbest s) = d ->
  exists s' ws', generation f w c1 c2 sched i s ws = Ok (s', ws') /\ length ws' = length ws /\ next_swarm f w c1 c2 s s' /\
    length (particles s') = length (particles s) /\ Forall (of_dimension d) (particles s') /\ length (gbest s') = d.
Proof.
  intros HS HO HD HG. unfold generation, update_velocities.
  destruct (vel_fold_all (update_velocity (gbest s) w c1 c2) (sched i).1 (particles s) ws HS) as (ps1 & ws' & E1 & LW & F1).
  match goal with |- context [ofold ?g (particles s, ws) _] => change (ofold g (particles s, ws) (sched i).1) with (ofold (vel_step (update_velocity (gbest s) w c1 c2)) (particles s, ws) (sched i).1) end.
  rewrite E1. cbn [mbind outcome_bind]. unfold update_positions. cbn [particles gbest gbest_value].
  pose proof (Forall2_length _ _ _ F1) as L1.
  match goal with |- context [ofold ?g ps1 _] => change (ofold g ps1 (sched i).2) with (ofold (pos_step (update_position f)) ps1 (sched i).2) end.
  rewrite (pos_fold_all (update_position f) (sched i).2 ps1) by (rewrite <- L1; exact HO). cbn [mbind outcome_bind].
  eexists _, ws'. split; [reflexivity|]. split; [exact LW|]. rewrite update_best_eq. cbn [particles gbest gbest_value].
  assert (FM : Forall2 (moves f w c1 c2 (gbest s)) (particles s) (map (update_position f) ps1)).
  { clear - F1 HD HG. induction F1 as [|p p1 ps ps1 (r & ->) _ IH]; [constructor|]. apply Forall_cons in HD as [Hp HD]. cbn [map]. constructor; [eapply moves_of; eauto|apply IH, HD]. }
  assert (FD : Forall (of_dimension d) (map (update_position f) ps1)).
  { clear - FM HD. revert HD. induction FM as [|p p' ps ps' Hm _ IH]; intros HD; [constructor|]. apply Forall_cons in HD as [Hp HD]. constructor; [eapply moves_dimension; eauto|apply IH, HD]. }
  pose proof (take_best_spec (map (update_position f) ps1) (gbest s, gbest_value s)) as [T1 T2]. cbn [fst] in T2.
  split; [|split; [rewrite map_length; symmetry; exact L1|split; [exact FD|]]].
  - split; [exact FM|]. cbn [particles gbest gbest_value]. split.
    + destruct T1 as [T1|(p & Hp & T1 & Hlt)]; rewrite T1; [left; auto|]. right. exists p. cbn [fst snd] in *. auto.
    + intros N. exact (proj2 (proj2 (T2 N))).
  - destruct T1 as [T1|(p & Hp & T1 & Hlt)]; rewrite T1; cbn [fst]; [exact HG|]. rewrite Forall_forall in FD. apply (FD p Hp).
Qed.

Lemma loop_spec n d nw : schedules_ok n nw sched -> forall fuel i s ws evs s' m, length ws = nw -> length (particles s) = n ->
  Forall (of_dimension d) (particles s) -> length (gbest s) = d ->
  pso_loop f w c1 c2 met sched fuel i s ws = Ok (evs, s', m) ->
  exists l, evs = imap (fun j x => PsoNewGeneration x (j + 1 + i)) l /\ s' = List.last l s /\ m = i + length l /\ evolution f w c1 c2 s l /\
    Forall (fun x => length (particles x) = n /\ Forall (of_dimension d) (particles x) /\ length (gbest x) = d) l /\
    met (i + length l) (List.last l s) = true /\ (forall j x, (s :: l) !! j = Some x -> j < length l -> met (i + j) x = false).
Proof.
  intros HS. induction fuel as [|fuel IH]; intros i s ws evs s' m HW Hn HD HG H; [discriminate|]. cbn [pso_loop] in H.
  destruct (met i s) eqn:EM.
  - injection H as <- <- <-. exists []. split; [reflexivity|]. split; [reflexivity|]. split; [cbn; lia|]. split; [constructor|]. split; [constructor|].
    cbn [length List.last]. split; [rewrite Nat.add_0_r; exact EM|]. intros j x _ Hj. lia.
  - destruct (generation_spec d (i + 1) s ws) as (s1 & ws1 & E1 & LW & NX & LP & D1 & G1); [rewrite HW, Hn; apply HS|rewrite Hn; apply HS|auto|auto|].
    rewrite E1 in H. cbn [mbind outcome_bind] in H. apply obind_Ok in H as ([[evs1 s2] m1] & H1 & H). injection H as <- <- <-.
    destruct (IH _ _ _ _ _ _ (eq_trans LW HW) (eq_trans LP Hn) D1 G1 H1) as (l & -> & -> & -> & EV & FA & M1 & M2).
    exists (s1 :: l). split; [|split; [|split; [|split; [|split; [|split]]]]].
    + cbn [imap]. f_equal; [f_equal; lia|]. apply imap_ext. intros j x _. cbn. f_equal. lia.
    + destruct l; [reflexivity|]. cbn [List.last]. clear. revert s0. induction l as [|y l IH]; intros s0; [reflexivity|]. cbn [List.last] in *. apply IH.
    + cbn [length]. lia.
    + econstructor; eauto.
    + constructor; [split; [congruence|auto]|exact FA].
    + cbn [length]. replace (i + S (length l)) with (i + 1 + length l) by lia. rewrite <- M1. f_equal. destruct l; [reflexivity|]. cbn [List.last]. clear. revert s0. induction l as [|y l IH]; intros s0; [reflexivity|]. cbn [List.last] in *. apply IH.
    + intros j x Hj Hlt. destruct j as [|j]; cbn in Hj; [injection Hj as <-; rewrite Nat.add_0_r; exact EM|]. replace (i + S j) with (i + 1 + j) by lia. apply M2; [exact Hj|cbn [length] in Hlt; lia].
Qed.
Lemma run_spec n d nw : schedules_ok n nw sched -> forall fuel s ws evs s', length ws = nw -> length (particles s) = n ->
  Forall (of_dimension d) (particles s) -> length (gbest s) = d -> pso_run f w c1 c2 met sched fuel s ws = Ok (evs, s') ->
  exists l, evs = pso_protocol s l /\ s' = List.last l s /\ evolution f w c1 c2 s l /\
    Forall (fun x => length (particles x) = n /\ Forall (of_dimension d) (particles x) /\ length (gbest x) = d) l /\
    met (length l) (List.last l s) = true /\ (forall j x, (s :: l) !! j = Some x -> j < length l -> met j x = false).
Proof.
  intros HS fuel s ws evs s' HW Hn HD HG H. apply obind_Ok in H as ([[evs1 s1] m] & H1 & H). injection H as <- <-.
  destruct (loop_spec n d nw HS _ _ _ _ _ _ _ HW Hn HD HG H1) as (l & -> & -> & -> & EV & FA & M1 & M2). exists l. split; [|auto].
  unfold pso_protocol. cbn [Nat.add]. f_equal. f_equal. apply imap_ext. intros j x _. f_equal. lia.
Qed.
(** No failure: with enough fuel the loop ends when the condition says so. *)
Lemma loop_total n d nw : schedules_ok n nw sched -> forall k fuel i s ws, length ws = nw -> length (particles s) = n ->
  Forall (of_dimension d) (particles s) -> length (gbest s) = d -> (forall x, met (i + k) x = true) -> k < fuel ->
  exists evs s' m, pso_loop f w c1 c2 met sched fuel i s ws = Ok (evs, s', m).
Proof.
  intros HS. induction k as [|k IH]; intros fuel i s ws HW Hn HD HG HM Hf; destruct fuel as [|fuel]; try lia; cbn [pso_loop].
  - rewrite Nat.add_0_r in HM. rewrite HM. eauto.
  - destruct (met i s); [eauto|]. destruct (generation_spec d (i + 1) s ws) as (s1 & ws1 & E1 & LW & NX & LP & D1 & G1); [rewrite HW, Hn; apply HS|rewrite Hn; apply HS|auto|auto|].
    rewrite E1. cbn [mbind outcome_bind]. destruct (IH fuel (i + 1) s1 ws1) as (evs & s' & m & ->); [congruence|congruence|auto|auto|intros x; replace (i + 1 + k) with (i + S k) by lia; apply HM|lia|].
    cbn [mbind outcome_bind]. eauto.
Qed.
End Run.
