From Verif Require Import PsoModel PsoOrderSpec GaOrderProofs.
Open Scope nat_scope.

Section Lock.
Context (f1 f2 : list f64 -> f64) (Hf : same_preferences f1 f2).
Definition vp (p q : particle) : Prop := q = revalue f2 p /\ value p = f1 (position p) /\ pbest_value p = f1 (pbest p).
Definition vs (s t : swarm) : Prop := Forall2 vp (particles s) (particles t) /\ gbest s = gbest t /\ gbest_value s = f1 (gbest s) /\ gbest_value t = f2 (gbest s).
Lemma vs_revalue s t : vs s t -> t = revalue_swarm f2 s.
Proof using Type.
  destruct t as [ps g v]. intros (H & Hg & _ & Hv). cbn in *. unfold revalue_swarm. rewrite Hg in *. subst v. f_equal.
  induction H as [|p q l1 l2 [-> _] _ IH]; cbn; [reflexivity|]. rewrite IH. reflexivity.
Qed.
Lemma generate_particles_lock count dims lo hi : forall r,
  exists ps r', generate_particles f1 count dims lo hi r = (ps, r') /\ exists qs, generate_particles f2 count dims lo hi r = (qs, r') /\ Forall2 vp ps qs.
Proof using Type.
  induction count as [|count IH]; intros r; cbn [generate_particles]; [eexists _, _; split; [reflexivity|]; eexists; split; [reflexivity|constructor]|].
  unfold particle_generate. destruct (draw_coordinates dims lo hi _ _ r) as [[xs us] r1]. destruct (IH r1) as (ps & r' & -> & qs & -> & HF).
  eexists _, _. split; [reflexivity|]. eexists. split; [reflexivity|]. constructor; [|exact HF]. split; [reflexivity|split; reflexivity].
Qed.
Lemma best_lock ps qs : Forall2 vp ps qs -> forall b,
  foldl (fun b p => if flt (f1 (position p)) (f1 b) then position p else b) b ps = foldl (fun b p => if flt (f2 (position p)) (f2 b) then position p else b) b qs.
Proof using Hf. induction 1 as [|p q ps qs [-> _] _ IH]; intros b; cbn [foldl]; [reflexivity|]. rewrite Hf. cbn [position revalue]. apply IH. Qed.
Lemma swarm_generate_lock count dims lo hi r : Orel (fun a b => vs a.1 b.1 /\ a.2 = b.2) (swarm_generate f1 count dims lo hi r) (swarm_generate f2 count dims lo hi r).
Proof using Hf.
  unfold swarm_generate. destruct (generate_particles_lock count dims lo hi r) as (ps & r' & -> & qs & -> & HF).
  eapply Orel_bind; [apply Orel_index; exact HF|]. intros p q _ [-> _]. cbn [pbest revalue]. rewrite (best_lock ps qs HF). split; [|reflexivity]. split; [exact HF|]. split_and!; reflexivity.
Qed.
Lemma assign_lock {A B} (R : A -> B -> Prop) l1 l2 i x y : Forall2 R l1 l2 -> R x y -> Orel (Forall2 R) (assign l1 i x) (assign l2 i y).
Proof using Type. intros H Hxy. unfold assign. rewrite (Forall2_length _ _ _ H). destruct (decide _); cbn; [apply Forall2_insert; auto|exact I]. Qed.
Lemma ofold_lock {A S T} (R : S -> T -> Prop) (g : S -> A -> outcome S) (h : T -> A -> outcome T) l :
  (forall s t a, R s t -> Orel R (g s a) (h t a)) -> forall s t, R s t -> Orel R (ofold g s l) (ofold h t l).
Proof using Type. intros H. induction l as [|a l IH]; intros s t Hst; cbn [ofold]; [exact Hst|]. eapply Orel_bind; [apply H; exact Hst|]. intros s' t' _ H'. apply IH. exact H'. Qed.
Lemma update_velocities_lock w c1 c2 sc s t ws : vs s t -> Orel (fun a b => vs a.1 b.1 /\ a.2 = b.2) (update_velocities w c1 c2 sc s ws) (update_velocities w c1 c2 sc t ws).
Proof using Type.
  intros (HF & Hg & Hv1 & Hv2). unfold update_velocities.
  eapply Orel_bind; [apply (ofold_lock (fun a b : list particle * list rng => Forall2 vp a.1 b.1 /\ a.2 = b.2)); [|split; [exact HF|reflexivity]]|].
  - intros [ps wa] [qs wb] [k i] [H E]. cbn in H, E |- *. subst wb. eapply Orel_bind; [apply Orel_refl; intros; reflexivity|]. intros r ? _ <-.
    eapply Orel_bind; [apply Orel_index; exact H|]. intros p q _ (-> & E1 & E2). unfold update_velocity. cbn [velocity position pbest value pbest_value revalue]. rewrite <- Hg.
    destruct (new_velocity w c1 c2 (velocity p) (position p) (pbest p) (gbest s) r) as [v r'].
    eapply Orel_bind; [apply (assign_lock vp); [exact H|]|]; [split; [reflexivity|split; [exact E1|exact E2]]|]. intros ps' qs' _ H'.
    eapply Orel_bind; [apply Orel_refl; intros; reflexivity|]. intros ws' ? _ <-. split; [exact H'|reflexivity].
  - intros [ps wa] [qs wb] _ [H E]. cbn in H, E. subst wb. split; [|reflexivity]. split; [exact H|]. split_and!; assumption.
Qed.
Lemma update_position_lock p q : vp p q -> vp (update_position f1 p) (update_position f2 q).
Proof using Hf.
  intros (-> & E1 & E2). unfold update_position. cbn [velocity position pbest value pbest_value revalue]. rewrite E2, Hf.
  destruct (flt _ _); split; try reflexivity; split; try reflexivity; cbn [pbest_value pbest]; exact E2.
Qed.
Lemma update_positions_lock order s t : vs s t -> Orel vs (update_positions f1 order s) (update_positions f2 order t).
Proof using Hf.
  intros (HF & Hg & Hv1 & Hv2). unfold update_positions. eapply Orel_bind; [apply (ofold_lock (Forall2 vp)); [|exact HF]|].
  - intros ps qs i H. eapply Orel_bind; [apply Orel_index; exact H|]. intros p q _ Hpq. apply assign_lock; [exact H|]. apply update_position_lock. exact Hpq.
  - intros ps qs _ H. split; [exact H|]. split_and!; assumption.
Qed.
Lemma update_best_lock s t : vs s t -> vs (update_best f1 s) (update_best f2 t).
Proof using Hf.
  intros H. unfold update_best. destruct H as (HF & H). assert (HS : vs s t) by (split; assumption). revert HF. generalize (particles s) as ps, (particles t) as qs. intros ps qs HF. clear H.
  revert s t HS. induction HF as [|p q ps qs (-> & E1 & E2) _ IH]; intros s t HS; cbn [foldl]; [exact HS|]. apply IH. destruct HS as (HF & Hg & Hv1 & Hv2).
  cbn [pbest revalue pbest_value]. rewrite Hf, <- Hg. destruct (flt _ _); split; auto.
Qed.
Lemma pso_loop_lock w c1 c2 met sched : (forall i s t, met i s = met i t) -> forall fuel i s t ws, vs s t ->
  Orel (fun a b => b.1.1 = map (revalue_event f2) a.1.1 /\ vs a.1.2 b.1.2 /\ a.2 = b.2) (pso_loop f1 w c1 c2 met sched fuel i s ws) (pso_loop f2 w c1 c2 met sched fuel i t ws).
Proof using Hf.
  intros Hmet. induction fuel as [|fuel IH]; intros i s t ws H; cbn [pso_loop]; [exact I|]. rewrite (Hmet i s t). destruct (met i t); [cbn; auto|].
  eapply (Orel_bind (fun a b => vs a.1 b.1 /\ a.2 = b.2)).
  - unfold generation. eapply Orel_bind; [apply update_velocities_lock; exact H|]. intros [s1 wa] [t1 wb] _ [H1 E]. cbn in H1, E. subst wb.
    eapply Orel_bind; [apply update_positions_lock; exact H1|]. intros s2 t2 _ H2. split; [apply update_best_lock; exact H2|reflexivity].
  - intros [s1 wa] [t1 wb] _ [H1 E]. cbn in H1, E. subst wb. eapply Orel_bind; [apply IH; exact H1|]. intros [[e1 s2] n1] [[e2 t2] n2] _ (He & H2 & En). cbn in He, H2, En. subst e2 n2.
    cbn. rewrite (vs_revalue _ _ H1). auto.
Qed.
Lemma pso_run_lock w c1 c2 met sched fuel s t ws : (forall i s t, met i s = met i t) -> vs s t ->
  pso_run f2 w c1 c2 met sched fuel t ws = revalue_run f2 (pso_run f1 w c1 c2 met sched fuel s ws).
Proof using Hf.
  intros Hmet H. unfold pso_run. pose proof (pso_loop_lock w c1 c2 met sched Hmet fuel 0 s t ws H) as HL.
  destruct (pso_loop f1 w c1 c2 met sched fuel 0 s ws) as [[[e1 s1] n1]| |], (pso_loop f2 w c1 c2 met sched fuel 0 t ws) as [[[e2 s2] n2]| |]; cbn in HL; try contradiction; try reflexivity.
  destruct HL as (-> & H1 & ->). cbn. rewrite (vs_revalue _ _ H), (vs_revalue _ _ H1), map_app. reflexivity.
Qed.
End Lock.
Lemma pso_met_swarm clock t i s s' : pso_met clock t i s = pso_met clock t i s'.
Proof. destruct t; reflexivity. Qed.
Lemma build_and_run_lock rosenbrock setters f1 f2 clock sched workers fuel r : same_preferences f1 f2 ->
  build_and_run rosenbrock setters f2 clock sched workers fuel r = revalue_run f2 (build_and_run rosenbrock setters f1 clock sched workers fuel r).
Proof.
  intros Hf. unfold build_and_run, pso_build. rewrite !foldl_app. cbn [foldl]. destruct (foldl pso_set (pso_default rosenbrock) setters) as [d lo hi n w c1 c2 g t p].
  cbn [pso_set pso_function particle_count dimensions lower_bound upper_bound].
  pose proof (swarm_generate_lock f1 f2 Hf n d lo hi r) as HL.
  destruct (swarm_generate f1 n d lo hi r) as [[s1 r1]| |], (swarm_generate f2 n d lo hi r) as [[s2 r2]| |]; cbn in HL; try contradiction; try reflexivity.
  destruct HL as [HL ->]. cbn [mbind outcome_bind]. unfold pso_solve. cbn [pso_function inertia_weight cognitive_coefficient social_coefficient termination].
  apply (pso_run_lock f1 f2 Hf); [intros; apply pso_met_swarm|exact HL].
Qed.
