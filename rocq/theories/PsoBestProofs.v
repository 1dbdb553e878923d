(** * Proofs about personal and global bests over whole histories *)
From Verif Require Export PsoRunProofs.
Open Scope nat_scope.

Lemma last_snoc {A} (l : list A) x d : List.last (l ++ [x]) d = x.
Proof. induction l as [|y l IH]; [reflexivity|]. cbn [app]. destruct (l ++ [x]) eqn:E; [destruct l; discriminate|]. exact IH. Qed.
Lemma last_cons_default {A} (l : list A) x d : List.last (x :: l) d = List.last l x.
Proof. revert x d. induction l as [|y l IH]; intros x d; [reflexivity|]. change (List.last (x :: y :: l) d) with (List.last (y :: l) d). rewrite !IH. reflexivity. Qed.

Section Best.
Context (f : list f64 -> f64) (w c1 c2 : f64).
Lemma evolution_snoc s l s' : evolution f w c1 c2 s (l ++ [s']) <-> evolution f w c1 c2 s l /\ next_swarm f w c1 c2 (List.last l s) s'.
Proof.
  revert s. induction l as [|x l IH]; intros s; cbn [app].
  - split; intros H; [inversion_clear H as [|? ? ? H1 H2]; split; [constructor|exact H1]|]. destruct H as [_ H]. econstructor; [exact H|constructor].
  - split; intros H.
    + inversion_clear H as [|? ? ? H1 H2]. apply IH in H2 as [H2 H3]. split; [econstructor; eauto|]. rewrite last_cons_default. exact H3.
    + destruct H as [H1 H2]. inversion_clear H1 as [|? ? ? H3 H4]. econstructor; [exact H3|]. apply IH. split; [exact H4|]. rewrite last_cons_default in H2. exact H2.
Qed.
Lemma evolution_app s l k : evolution f w c1 c2 s (l ++ k) -> evolution f w c1 c2 s l /\ evolution f w c1 c2 (List.last l s) k.
Proof.
  revert s. induction l as [|x l IH]; intros s H; cbn [app] in *; [split; [constructor|exact H]|].
  inversion_clear H as [|? ? ? H1 H2]. apply IH in H2 as [H2 H3]. rewrite last_cons_default. split; [econstructor; eauto|exact H3].
Qed.

(** A freshly generated swarm. *)
Definition fresh (s : swarm) : Prop :=
  Forall (fun p => value p = f (position p) /\ pbest p = position p /\ pbest_value p = f (position p)) (particles s) /\
  gbest_value s = f (gbest s) /\ (exists i p, particles s !! i = Some p /\ gbest s = position p) /\
  (forall p0, particles s !! 0 = Some p0 -> is_nan (f (position p0)) = false ->
     is_nan (gbest_value s) = false /\ forall p, p ∈ particles s -> is_nan (f (position p)) = false -> fle (gbest_value s) (f (position p)) = true) /\
  (forall p0, particles s !! 0 = Some p0 -> is_nan (f (position p0)) = true -> gbest s = position p0).

Lemma visited_mono h k i x : visited h i x -> visited (h ++ k) i x.
Proof. intros (s & p & Hs & H). exists s, p. split; [apply elem_of_app; left; exact Hs|exact H]. Qed.
Lemma visited_last h s i p : particles s !! i = Some p -> visited (h ++ [s]) i (position p).
Proof. intros H. exists s, p. split; [apply elem_of_app; right; left|auto]. Qed.

Definition personal (first : swarm) (hist : list swarm) (i : nat) (p : particle) : Prop :=
  value p = f (position p) /\ pbest_value p = f (pbest p) /\ visited hist i (pbest p) /\
  (exists p0, particles first !! i = Some p0 /\
     (is_nan (f (position p0)) = false -> is_nan (pbest_value p) = false /\ forall x, visited hist i x -> is_nan (f x) = false -> fle (pbest_value p) (f x) = true) /\
     (is_nan (f (position p0)) = true -> pbest p = position p0)).
Lemma personal_step first hist s s' : next_swarm f w c1 c2 s s' -> (forall i p, particles s !! i = Some p -> personal first hist i p) ->
  forall i p', particles s' !! i = Some p' -> personal first (hist ++ [s']) i p'.
Proof.
  intros (F2 & _) H i p' Hp'. destruct (Forall2_lookup_r _ _ _ _ _ F2 Hp') as (p & Hp & Hm). destruct (H i p Hp) as (V & B & VB & p0 & Hp0 & N1 & N2).
  destruct Hm as (_ & _ & V' & C). split; [exact V'|]. destruct (flt (value p') (pbest_value p)) eqn:E; destruct C as [C1 C2].
  - split; [congruence|]. split; [rewrite C1; apply visited_last, Hp'|]. exists p0. split; [exact Hp0|]. split.
    + intros N. destruct (N1 N) as [N3 L]. split; [rewrite C2; eapply flt_nan_l; eauto|]. intros x (t & q & Ht & Hq & Eq) Nx.
      apply elem_of_app in Ht as [Ht|Ht].
      * rewrite C2. eapply fle_trans; [apply flt_le, E|]. apply L; [exists t, q; auto|exact Nx].
      * apply elem_of_list_singleton in Ht as ->. rewrite Hp' in Hq. apply (inj Some) in Hq as <-. rewrite C2, V', Eq. apply fle_refl, Nx.
    + intros N. exfalso. apply flt_nan_r in E. rewrite B, (N2 N), N in E. discriminate.
  - split; [congruence|]. split; [rewrite C1; apply visited_mono, VB|]. exists p0. split; [exact Hp0|]. split.
    + intros N. destruct (N1 N) as [N3 L]. rewrite C2. split; [exact N3|]. intros x (t & q & Ht & Hq & Eq) Nx.
      apply elem_of_app in Ht as [Ht|Ht]; [apply L; [exists t, q; auto|exact Nx]|].
      apply elem_of_list_singleton in Ht as ->. rewrite Hp' in Hq. apply (inj Some) in Hq as <-. apply not_flt_fle; auto; rewrite V', Eq in E; exact E.
    + intros N. rewrite C1. auto.
Qed.
Lemma personal_history first : fresh first -> forall l, evolution f w c1 c2 first l ->
  forall i p, particles (List.last l first) !! i = Some p -> personal first (first :: l) i p.
Proof.
  intros (HF & _). induction l as [|s' l IH] using rev_ind; intros HE i p Hp.
  - cbn [List.last] in Hp. destruct (proj1 (Forall_forall _ _) HF p (elem_of_list_lookup_2 _ _ _ Hp)) as (V & B & BV). split; [exact V|]. split; [congruence|]. split; [exists first, p; split; [left|auto]|].
    exists p. split; [exact Hp|]. split; [|auto]. intros N. split; [congruence|]. intros x (t & q & Ht & Hq & Eq) Nx. apply elem_of_list_singleton in Ht as ->. rewrite Hp in Hq. apply (inj Some) in Hq as <-.
    rewrite BV, Eq. apply fle_refl, Nx.
  - apply evolution_snoc in HE as [HE HN]. rewrite last_snoc in Hp. change (first :: l ++ [s']) with ((first :: l) ++ [s']). eapply personal_step; eauto.
Qed.
Lemma count_constant first l : evolution f w c1 c2 first l -> length (particles (List.last l first)) = length (particles first).
Proof.
  intros H. induction H as [s|s s' l (F2 & _) _ IH]; [reflexivity|]. rewrite last_cons_default, IH. symmetry. eapply Forall2_length; eauto.
Qed.

Lemma global_step hist first s s' : next_swarm f w c1 c2 s s' -> (forall i p, particles s' !! i = Some p -> personal first hist i p) ->
  gbest_value s = f (gbest s) -> gbest_value s' = f (gbest s') /\
  (gbest s' = gbest s \/ exists i, visited hist i (gbest s')) /\
  (is_nan (gbest_value s) = false -> is_nan (gbest_value s') = false /\ fle (gbest_value s') (gbest_value s) = true /\
      forall p, p ∈ particles s' -> is_nan (pbest_value p) = false -> fle (gbest_value s') (pbest_value p) = true) /\
  (is_nan (gbest_value s) = true -> gbest s' = gbest s).
Proof.
  intros (_ & C & M) HP HV. assert (HV' : gbest_value s' = f (gbest s')).
  { destruct C as [[-> ->]|(p' & Hin & -> & -> & _)]; [exact HV|]. apply elem_of_list_lookup in Hin as [i Hi]. apply (HP i p' Hi). }
  split; [exact HV'|]. split.
  { destruct C as [[-> _]|(p' & Hin & -> & _ & _)]; [auto|]. right. apply elem_of_list_lookup in Hin as [i Hi]. exists i. apply (HP i p' Hi). }
  split.
  - intros N. split; [|split].
    + destruct C as [[_ ->]|(p' & Hin & E1 & E2 & Hlt)]; [exact N|]. rewrite HV', E1. eapply flt_nan_l; eauto.
    + destruct C as [[_ ->]|(p' & Hin & E1 & E2 & Hlt)]; [apply fle_refl, N|]. rewrite HV', HV, E1. apply flt_le, Hlt.
    + intros p Hin Np. apply elem_of_list_lookup in Hin as [i Hi]. destruct (HP i p Hi) as (_ & B & _). rewrite HV', B. apply M; [rewrite <- HV; exact N|eapply elem_of_list_lookup_2; eauto|rewrite <- B; exact Np].
  - intros N. destruct C as [[-> _]|(p' & Hin & E1 & E2 & Hlt)]; [reflexivity|]. exfalso. apply flt_nan_r in Hlt. rewrite <- HV, N in Hlt. discriminate.
Qed.
Lemma global_history first : fresh first -> forall l, evolution f w c1 c2 first l ->
  let s := List.last l first in
  gbest_value s = f (gbest s) /\ (exists i, visited (first :: l) i (gbest s)) /\
  (forall p0, particles first !! 0 = Some p0 -> is_nan (f (position p0)) = false -> is_nan (gbest_value s) = false /\
     forall p, p ∈ particles s -> is_nan (pbest_value p) = false -> fle (gbest_value s) (pbest_value p) = true) /\
  (forall p0, particles first !! 0 = Some p0 -> is_nan (f (position p0)) = true -> gbest s = position p0).
Proof.
  intros HF. induction l as [|s' l IH] using rev_ind; intros HE.
  - cbn [List.last]. destruct HF as (HP & HV & (i & p & Hp & HG) & H1 & H2). split; [exact HV|]. split; [exists i; rewrite HG; exists first, p; split; [left|auto]|]. split; [|exact H2].
    intros p0 Hp0 N. destruct (H1 p0 Hp0 N) as [N1 L]. split; [exact N1|]. intros q Hq Nq. destruct (proj1 (Forall_forall _ _) HP q Hq) as (_ & _ & BV). rewrite BV in *. auto.
  - pose proof (personal_history first HF _ HE) as PH. apply evolution_snoc in HE as [HE HN]. rewrite last_snoc in *. destruct (IH HE) as (V & (i & HVis) & N1 & N2).
    destruct (global_step (first :: l ++ [s']) first _ s' HN PH V) as (V' & C & M & X). split; [exact V'|]. split; [|split].
    + destruct C as [->|C]; [|exact C]. exists i. change (first :: l ++ [s']) with ((first :: l) ++ [s']). apply visited_mono, HVis.
    + intros p0 Hp0 N. destruct (N1 p0 Hp0 N) as [N3 _]. destruct (M N3) as (M1 & _ & M3). auto.
    + intros p0 Hp0 N. rewrite (X ltac:(rewrite V, (N2 p0 Hp0 N); exact N)). eauto.
Qed.
Lemma global_monotone first : fresh first -> forall l k, evolution f w c1 c2 first (l ++ k) -> is_nan (gbest_value (List.last l first)) = false ->
  fle (gbest_value (List.last (l ++ k) first)) (gbest_value (List.last l first)) = true.
Proof.
  intros HF l k. induction k as [|s' k IH] using rev_ind; intros HE N.
  - rewrite app_nil_r. apply fle_refl, N.
  - rewrite app_assoc in *. pose proof (personal_history first HF _ HE) as PH. pose proof HE as HE0. apply evolution_snoc in HE as [HE HN]. rewrite last_snoc in *.
    specialize (IH HE N). destruct (global_history first HF _ HE) as (V & _).
    destruct (global_step (first :: (l ++ k) ++ [s']) first _ s' HN PH V) as (V' & _ & M & _).
    eapply fle_trans; [|exact IH]. apply M. unfold fle, SpecFloat.SFleb in IH. destruct (gbest_value (List.last (l ++ k) first)); try reflexivity. discriminate.
Qed.

(** ** Generation *)
Lemma draw_coordinates_length dims lo hi vlo vhi r xs vs r' : draw_coordinates dims lo hi vlo vhi r = (xs, vs, r') -> length xs = dims /\ length vs = dims.
Proof.
  revert r xs vs r'. induction dims as [|d IH]; intros r xs vs r' H; cbn [draw_coordinates] in H; [injection H as <- <- <-; auto|].
  destruct (sample01 r) as [u ra]. destruct (sample01 ra) as [v rb]. destruct (draw_coordinates d lo hi vlo vhi rb) as [[xs1 vs1] rc] eqn:E. injection H as <- <- <-. apply IH in E. cbn [length]. lia.
Qed.
Lemma generate_particles_spec count dims lo hi : forall r ps r', generate_particles f count dims lo hi r = (ps, r') -> length ps = count /\
  Forall (fun p => of_dimension dims p /\ value p = f (position p) /\ pbest p = position p /\ pbest_value p = f (position p)) ps.
Proof.
  induction count as [|n IH]; intros r ps r' H; cbn [generate_particles] in H; [injection H as <- <-; auto|].
  unfold particle_generate in H. destruct (draw_coordinates dims lo hi _ _ r) as [[xs vs] ra] eqn:E. destruct (generate_particles f n dims lo hi ra) as [ps1 rb] eqn:E1. injection H as <- <-.
  destruct (IH _ _ _ E1) as [L F]. apply draw_coordinates_length in E as [Lx Lv]. split; [cbn; lia|]. constructor; [|exact F]. cbn [position velocity pbest value pbest_value]. repeat split; auto.
Qed.
Lemma best_start ps : forall b, let b' := foldl (fun b p => if flt (f (position p)) (f b) then position p else b) b ps in
  (b' = b \/ exists p, p ∈ ps /\ b' = position p) /\
  (is_nan (f b) = false -> is_nan (f b') = false /\ fle (f b') (f b) = true /\ forall p, p ∈ ps -> is_nan (f (position p)) = false -> fle (f b') (f (position p)) = true) /\
  (is_nan (f b) = true -> b' = b).
Proof.
  induction ps as [|p ps IH]; intros b; cbn [foldl].
  - split; [auto|]. split; [|auto]. intros N. split; [exact N|]. split; [apply fle_refl, N|]. intros p H. inversion H.
  - destruct (flt (f (position p)) (f b)) eqn:E.
    + destruct (IH (position p)) as (I1 & I2 & I3). assert (N : is_nan (f (position p)) = false) by (eapply flt_nan_l; eauto). destruct (I2 N) as (J1 & J2 & J3). split; [|split].
      * right. destruct I1 as [->|(q & Hq & ->)]; [exists p; split; [left|reflexivity]|exists q; split; [right; exact Hq|reflexivity]].
      * intros _. split; [exact J1|]. split; [eapply fle_trans; [exact J2|apply flt_le, E]|]. intros q Hq Nq. apply elem_of_cons in Hq as [->|Hq]; auto.
      * intros X. apply flt_nan_r in E. congruence.
    + destruct (IH b) as (I1 & I2 & I3). split; [|split; [|exact I3]].
      * destruct I1 as [->|(q & Hq & ->)]; [auto|right; exists q; split; [right; exact Hq|reflexivity]].
      * intros N. destruct (I2 N) as (J1 & J2 & J3). split; [exact J1|]. split; [exact J2|]. intros q Hq Nq. apply elem_of_cons in Hq as [->|Hq]; [|auto]. eapply fle_trans; [exact J2|]. apply not_flt_fle; auto.
Qed.
Lemma swarm_generate_spec count dims lo hi r s r' : swarm_generate f count dims lo hi r = Ok (s, r') ->
  fresh s /\ length (particles s) = count /\ Forall (of_dimension dims) (particles s) /\ length (gbest s) = dims.
Proof.
  intros H. unfold swarm_generate in H. destruct (generate_particles f count dims lo hi r) as [ps ra] eqn:E. apply generate_particles_spec in E as [L F].
  apply obind_Ok in H as (p0 & Hp0 & H). injection H as <- <-. apply index_Ok in Hp0.
  destruct (proj1 (Forall_forall _ _) F p0 (elem_of_list_lookup_2 _ _ _ Hp0)) as (D0 & _ & B0 & _).
  destruct (best_start ps (pbest p0)) as (I1 & I2 & I3). rewrite B0 in *.
  assert (HD : Forall (of_dimension dims) ps) by (eapply Forall_impl; [exact F|]; intros p Hp; apply Hp).
  assert (HB : exists i p, ps !! i = Some p /\ foldl (fun b p => if flt (f (position p)) (f b) then position p else b) (position p0) ps = position p).
  { destruct I1 as [->|(p & Hp & ->)]; [exists 0, p0; auto|]. apply elem_of_list_lookup in Hp as [i Hi]. exists i, p. auto. }
  split; [|split; [exact L|split; [exact HD|]]].
  - split; [eapply Forall_impl; [exact F|]; intros p Hp; apply Hp|]. cbn [particles gbest gbest_value]. split; [reflexivity|]. split; [exact HB|]. split.
    + intros p0' Hp0' N. rewrite Hp0 in Hp0'. apply (inj Some) in Hp0' as <-. destruct (I2 N) as (J1 & _ & J3). auto.
    + intros p0' Hp0' N. rewrite Hp0 in Hp0'. apply (inj Some) in Hp0' as <-. auto.
  - cbn [gbest]. destruct HB as (i & p & Hp & ->). apply (proj1 (Forall_forall _ _) HD p). eapply elem_of_list_lookup_2; eauto.
Qed.
Lemma swarm_generate_ok count dims lo hi r : 0 < count -> exists s r', swarm_generate f count dims lo hi r = Ok (s, r').
Proof.
  intros H. unfold swarm_generate. destruct (generate_particles f count dims lo hi r) as [ps ra] eqn:E. apply generate_particles_spec in E as [L F].
  destruct (lookup_lt_is_Some_2 ps 0 ltac:(lia)) as [p0 Hp0]. rewrite (proj2 (index_Ok _ _ _) Hp0). cbn [mbind outcome_bind]. eauto.
Qed.
End Best.
