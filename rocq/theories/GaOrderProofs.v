From Verif Require Import GaProofs GaAssembleModel GaAssembleSpec GaAssembleProofs GaAssembleRunProofs GaOrderSpec PopulationSpec PopulationProofs.
Open Scope nat_scope.

(** ** Two computations in lockstep *)
Definition Orel {A B} (R : A -> B -> Prop) (o1 : outcome A) (o2 : outcome B) : Prop :=
  match o1, o2 with
  | Ok a, Ok b => R a b
  | Panic, Panic => True
  | Diverge, Diverge => True
  | _, _ => False
  end.
Lemma Orel_bind {A B A' B'} (R : A -> B -> Prop) (R' : A' -> B' -> Prop) o1 o2 f g :
  Orel R o1 o2 -> (forall a b, o1 = Ok a -> R a b -> Orel R' (f a) (g b)) -> Orel R' (o1 ≫= f) (o2 ≫= g).
Proof. destruct o1, o2; cbn; try tauto. auto. Qed.
Lemma Orel_refl {A} (R : A -> A -> Prop) (o : outcome A) : (forall a, o = Ok a -> R a a) -> Orel R o o.
Proof. destruct o; cbn; auto. Qed.
Lemma Orel_eq {A} (o1 o2 : outcome A) : o1 = o2 -> Orel eq o1 o2.
Proof. intros ->. destruct o2; cbn; auto. Qed.
Lemma Orel_eq_inv {A} (o1 o2 : outcome A) : Orel eq o1 o2 -> o1 = o2.
Proof. destruct o1, o2; cbn; try tauto; congruence. Qed.
Lemma Orel_impl {A B} (R R' : A -> B -> Prop) o1 o2 : Orel R o1 o2 -> (forall a b, o1 = Ok a -> R a b -> R' a b) -> Orel R' o1 o2.
Proof. destruct o1, o2; cbn; auto. Qed.
Definition Prel {A B C} (R : A -> B -> Prop) (p : A * C) (q : B * C) : Prop := R p.1 q.1 /\ p.2 = q.2.
Lemma Orel_index {A B} (R : A -> B -> Prop) l1 l2 i : Forall2 R l1 l2 -> Orel R (index l1 i) (index l2 i).
Proof.
  intros HF. unfold index. destruct (l1 !! i) as [x|] eqn:E1.
  - destruct (Forall2_lookup_l _ _ _ _ _ HF E1) as (y & E2 & HR). rewrite E2. exact HR.
  - apply lookup_ge_None in E1. rewrite (Forall2_length _ _ _ HF) in E1. rewrite (lookup_ge_None_2 _ _ E1). exact I.
Qed.
Lemma Orel_omapM_index {A B} (R : A -> B -> Prop) l1 l2 is : Forall2 R l1 l2 -> Orel (Forall2 R) (omapM (index l1) is) (omapM (index l2) is).
Proof.
  intros HF. induction is as [|i is IH]; cbn [omapM]; [constructor|]. eapply Orel_bind; [apply Orel_index; exact HF|]. intros x y _ Hxy.
  eapply Orel_bind; [exact IH|]. intros xs ys _ Hs. cbn. constructor; auto.
Qed.
Lemma Orel_swap {A B} (R : A -> B -> Prop) l1 l2 i j : Forall2 R l1 l2 -> Orel (Forall2 R) (swap i j l1) (swap i j l2).
Proof.
  intros HF. unfold swap. pose proof (Orel_index R l1 l2 i HF) as Hi. pose proof (Orel_index R l1 l2 j HF) as Hj. unfold index in *.
  destruct (l1 !! i), (l2 !! i); cbn in Hi; try tauto; try (exact I). destruct (l1 !! j), (l2 !! j); cbn in Hj; try tauto; try (exact I).
  cbn. apply Forall2_insert; [apply Forall2_insert|]; auto.
Qed.

Section Lockstep.
Context {G St : Type} (c1 c2 : config G St) (K : list G -> Prop).
Notation f1 := (op_fitness c1).
Notation f2 := (op_fitness c2).
Notation pop := (list (individual G)).
(** Same chromosome; same chromosome and both evaluated. *)
Definition same (x y : individual G) : Prop := chromosome x = chromosome y /\ K (chromosome x).
Definition evd (x y : individual G) : Prop := chromosome x = chromosome y /\ K (chromosome x) /\ fitness x = f1 (chromosome x) /\ fitness y = f2 (chromosome y).
Hypothesis Hsize : population_size c2 = population_size c1.
Hypothesis Hlimit : generation_limit c2 = generation_limit c1.
Hypothesis Hdur : max_duration c2 = max_duration c1.
Hypothesis Hreq : op_requires_children_fitness c2 = op_requires_children_fitness c1.
Hypothesis Hf : forall a b, K a -> K b -> fcmp (f1 a) (f1 b) = fcmp (f2 a) (f2 b).
Hypothesis Hgen : forall s, Orel (Prel (Forall2 same)) (op_generate c1 (population_size c1) s) (op_generate c2 (population_size c1) s).
Hypothesis Hsel : forall m q1 q2 s, Forall2 evd q1 q2 -> op_select c1 m q1 s = op_select c2 m q2 s.
Hypothesis Hxo : forall m q1 q2 s, Forall2 evd q1 q2 -> Orel (Prel (Forall2 same)) (op_crossover c1 m q1 s) (op_crossover c2 m q2 s).
Hypothesis Hmut : forall m x y s, same x y -> Orel (Prel same) (op_mutate c1 m x s) (op_mutate c2 m y s).
Hypothesis Hrep : forall m q1 q2 h1 h2 s, Forall2 evd q1 q2 ->
  (if op_requires_children_fitness c1 then Forall2 evd h1 h2 else Forall2 same h1 h2) ->
  Orel (Prel (Forall2 same)) (op_replace c1 m q1 h1 s) (op_replace c2 m q2 h2 s).

Lemma same_eval q1 q2 : Forall2 same q1 q2 -> Forall2 evd (eval_pop c1 q1) (eval_pop c2 q2).
Proof using Type.
  intros H. unfold eval_pop. apply Forall2_fmap. eapply Forall2_impl; [exact H|]. intros x y [Hc Hk]. unfold evd, eval_ind. cbn. rewrite Hc in *. auto.
Qed.
Lemma evd_same q1 q2 : Forall2 evd q1 q2 -> Forall2 same q1 q2.
Proof using Type. intros H. eapply Forall2_impl; [exact H|]. intros x y (Hc & Hk & _). split; auto. Qed.
Lemma lock_cmp x y x' y' : evd x y -> evd x' y' -> fcmp (fitness x) (fitness x') = fcmp (fitness y) (fitness y').
Proof using Hf. intros (E1 & K1 & F1 & F2) (E2 & K2 & F3 & F4). rewrite F1, F2, F3, F4, <- E1, <- E2. apply Hf; auto. Qed.
Lemma lock_flt x y x' y' : evd x y -> evd x' y' -> flt (fitness x) (fitness x') = flt (fitness y) (fitness y').
Proof using Hf. intros H1 H2. pose proof (lock_cmp x y x' y' H1 H2) as H. unfold flt, SFltb, fcmp in *. rewrite H. reflexivity. Qed.
Lemma lock_fge x y x' y' : evd x y -> evd x' y' -> fge (fitness x) (fitness x') = fge (fitness y) (fitness y').
Proof using Hf. intros H1 H2. pose proof (lock_cmp x' y' x y H2 H1) as H. unfold fge, fle, SFleb, fcmp in *. rewrite H. reflexivity. Qed.
Lemma lock_key_cmp x y x' y' : evd x y -> evd x' y' -> key_cmp (fitness x) (fitness x') = key_cmp (fitness y) (fitness y').
Proof using Hf. intros H1 H2. unfold key_cmp. rewrite (lock_cmp _ _ _ _ H1 H2). reflexivity. Qed.
Lemma lock_min_from q1 q2 : Forall2 evd q1 q2 -> forall x y, evd x y -> Orel evd (iter_min_from fitness x q1) (iter_min_from fitness y q2).
Proof using Hf.
  induction 1 as [|a b q1 q2 Hab _ IH]; intros x y Hxy; cbn [iter_min_from]; [exact Hxy|].
  eapply Orel_bind; [apply Orel_eq; apply lock_key_cmp; eauto|]. intros c c' _ <-. apply IH. destruct c; auto.
Qed.
Lemma lock_best q1 q2 : Forall2 evd q1 q2 -> Orel evd (find_best q1) (find_best q2).
Proof using Hf.
  intros H. unfold find_best, iter_min. destruct H as [|x y q1 q2 Hxy H]; [exact I|].
  pose proof (lock_min_from _ _ H _ _ Hxy) as Hm. destruct (iter_min_from fitness x q1), (iter_min_from fitness y q2); cbn in *; auto.
Qed.
Lemma lock_mutate m h1 h2 : Forall2 same h1 h2 -> forall s, Orel (Prel (Forall2 same)) (mutate_all c1 m h1 s) (mutate_all c2 m h2 s).
Proof using Hmut.
  induction 1 as [|x y h1 h2 Hxy _ IH]; intros s; cbn [mutate_all]; [split; [constructor|reflexivity]|].
  eapply Orel_bind; [apply Hmut; exact Hxy|]. intros [x' sx] [y' sy] _ [Hx Hs]. cbn in Hx, Hs. subst sy.
  eapply Orel_bind; [apply IH|]. intros [a sa] [b sb] _ [Ha Hs]. cbn in Ha, Hs. subst sb. split; [constructor; auto|reflexivity].
Qed.
Definition evdE (e1 e2 : event G) : Prop :=
  match e1, e2 with
  | OnStart m, OnStart m' | OnIterationStart m, OnIterationStart m' | OnIterationEnd m, OnIterationEnd m' => m = m'
  | OnInitialPopulation m q, OnInitialPopulation m' q' | OnNewGeneration m q, OnNewGeneration m' q' => m = m' /\ Forall2 evd q q'
  | OnNewBest m b, OnNewBest m' b' | OnBestFit m b, OnBestFit m' b' => m = m' /\ evd b b'
  | OnEnd m q b, OnEnd m' q' b' => m = m' /\ Forall2 evd q q' /\ evd b b'
  | _, _ => False
  end.
Definition evdS (r1 r2 : list (event G) * (metrics * pop * individual G * St)) : Prop :=
  let '(e1, (m1, q1, b1, s1)) := r1 in let '(e2, (m2, q2, b2, s2)) := r2 in
  Forall2 evdE e1 e2 /\ m1 = m2 /\ Forall2 evd q1 q2 /\ evd b1 b2 /\ s1 = s2.
Lemma lock_generation ck g m q1 q2 b1 b2 s : Forall2 evd q1 q2 -> evd b1 b2 ->
  Orel evdS (generation c1 ck g m q1 b1 s) (generation c2 ck g m q2 b2 s).
Proof using Hsize Hreq Hf Hsel Hxo Hmut Hrep.
  intros Hq Hb. unfold generation. apply evd_same in Hq. apply same_eval in Hq.
  eapply Orel_bind; [apply Orel_eq; apply Hsel; exact Hq|]. intros [sel sa] ? _ <-.
  eapply Orel_bind; [apply Orel_omapM_index; exact Hq|]. intros p1 p2 _ Hp.
  eapply Orel_bind; [apply Hxo; exact Hp|]. intros [h1 sb] [h2 sb'] _ [Hh Hs]. cbn in Hh, Hs. subst sb'.
  eapply Orel_bind; [apply lock_mutate; exact Hh|]. intros [k1 sc] [k2 sc'] _ [Hk Hs]. cbn in Hk, Hs. subst sc'. rewrite Hreq.
  eapply Orel_bind; [apply Hrep; [exact Hq|]|].
  { destruct (op_requires_children_fitness c1); [apply same_eval|]; exact Hk. }
  intros [n1 sd] [n2 sd'] _ [Hn Hs]. cbn in Hn, Hs. subst sd'. rewrite (Forall2_length _ _ _ Hn), Hsize.
  eapply Orel_bind; [apply Orel_refl; intros; reflexivity|]. intros [] [] _ _. apply same_eval in Hn.
  eapply Orel_bind; [apply lock_best; exact Hn|]. intros bg1 bg2 _ Hbg. rewrite (lock_flt _ _ _ _ Hbg Hb).
  cbn. split_and!; auto.
  - destruct (flt (fitness bg2) (fitness b2)); repeat match goal with |- Forall2 _ _ _ => constructor end; cbn; auto.
  - destruct (flt (fitness bg2) (fitness b2)); auto.
Qed.
Lemma lock_loop ck rem : forall g m q1 q2 b1 b2 s, Forall2 evd q1 q2 -> evd b1 b2 ->
  Orel evdS (main_loop c1 ck rem g m q1 b1 s) (main_loop c2 ck rem g m q2 b2 s).
Proof using Hsize Hdur Hreq Hf Hsel Hxo Hmut Hrep.
  induction rem as [|rem IH]; intros g m q1 q2 b1 b2 s Hq Hb; cbn [main_loop]; [cbn; split_and!; auto|].
  eapply Orel_bind; [apply lock_generation; eauto|]. intros [e1 [[[m1 q1'] b1'] s1]] [e2 [[[m2 q2'] b2'] s2]] _ (He & <- & Hq' & Hb' & <-).
  rewrite Hdur. destruct (_ <=? _)%N; [cbn; split_and!; auto|].
  eapply Orel_bind; [apply IH; eauto|]. intros [e3 [[[m3 q3] b3] s3]] [e4 [[[m4 q4] b4] s4]] _ (He' & <- & Hq3 & Hb3 & <-).
  cbn. split_and!; auto. apply Forall2_app; auto.
Qed.
Definition evdR (r1 r2 : list (event G) * individual G * metrics * St) : Prop :=
  let '(e1, b1, m1, s1) := r1 in let '(e2, b2, m2, s2) := r2 in Forall2 evdE e1 e2 /\ evd b1 b2 /\ m1 = m2 /\ s1 = s2.
Lemma lock_run ck m0 s : Orel evdR (run c1 ck m0 s) (run c2 ck m0 s).
Proof using All.
  unfold run. rewrite Hsize, Hlimit. eapply Orel_bind; [apply Hgen|]. intros [r1 sa] [r2 sa'] _ [Hr Hs]. cbn in Hr, Hs. subst sa'.
  pose proof (same_eval _ _ Hr) as Hq. eapply Orel_bind; [apply lock_best; exact Hq|]. intros b1 b2 _ Hb.
  rewrite (Forall2_length _ _ _ Hr), (Forall2_length _ _ _ Hq).
  eapply Orel_bind; [apply lock_loop; eauto|]. intros [e1 [[[m1 q1] b1'] s1]] [e2 [[[m2 q2] b2'] s2]] _ (He & <- & Hq' & Hb' & <-).
  cbn. split_and!; auto. do 3 (constructor; [cbn; auto|]). apply Forall2_app; auto. constructor; [cbn; auto|constructor].
Qed.
Lemma evd_refit x y : evd x y -> y = refit f2 x.
Proof using Type. intros (Hc & _ & _ & Hy). destruct y as [cy fy]. unfold refit. cbn in *. rewrite Hc, Hy. reflexivity. Qed.
Lemma evd_refits q1 q2 : Forall2 evd q1 q2 -> q2 = map (refit f2) q1.
Proof using Type. induction 1 as [|x y q1 q2 Hxy _ IH]; cbn; [reflexivity|]. rewrite <- IH, (evd_refit x y Hxy). reflexivity. Qed.
Lemma evdE_refit e1 e2 : evdE e1 e2 -> e2 = refit_event f2 e1.
Proof using Type.
  destruct e1, e2; cbn [evdE refit_event]; try tauto; try congruence.
  - intros [-> H]. rewrite (evd_refits _ _ H). reflexivity.
  - intros [-> H]. rewrite (evd_refit _ _ H). reflexivity.
  - intros [-> H]. rewrite (evd_refits _ _ H). reflexivity.
  - intros [-> H]. rewrite (evd_refit _ _ H). reflexivity.
  - intros (-> & H & H'). rewrite (evd_refits _ _ H), (evd_refit _ _ H'). reflexivity.
Qed.
Lemma lock_refit ck m0 s : run c2 ck m0 s = refit_run f2 (run c1 ck m0 s).
Proof using All.
  pose proof (lock_run ck m0 s) as H. destruct (run c1 ck m0 s) as [[[[e1 b1] m1] s1]| |], (run c2 ck m0 s) as [[[[e2 b2] m2] s2]| |]; cbn in H; try tauto.
  destruct H as (He & Hb & <- & <-). cbn. rewrite (evd_refit _ _ Hb). do 4 f_equal.
  induction He as [|x y e1 e2 Hxy _ IH]; cbn; [reflexivity|]. rewrite <- IH, (evdE_refit _ _ Hxy). reflexivity.
Qed.
End Lockstep.

(** ** The library's operators look at chromosomes only, except selection and WeakParent *)
Section Operators.
Context {G : Type}.
Notation pop := (list (individual G)).
Definition twin (x y : individual G) : Prop := chromosome x = chromosome y.
Definition twins (p q : (individual G * individual G) * rng) : Prop := twin p.1.1 q.1.1 /\ twin p.1.2 q.1.2 /\ p.2 = q.2.
Lemma lift_twin (op : list G -> list G -> rng -> outcome ((list G * list G) * rng)) a b a' b' r : twin a a' -> twin b b' ->
  Orel twins (lift_single op a b r) (lift_single op a' b' r).
Proof using Type. intros Ha Hb. unfold lift_single, twin in *. rewrite Ha, Hb. apply Orel_refl. intros x _. split_and!; reflexivity. Qed.
Lemma xo_twin `{EqDecision G} xo a b a' b' r : twin a a' -> twin b b' -> Orel twins (crossover_single xo a b r) (crossover_single xo a' b' r).
Proof using Type.
  intros Ha Hb. destruct xo; cbn [crossover_single]; try (apply lift_twin; assumption).
  unfold fixed_single, twin in *. rewrite Ha, Hb. destruct (fixed_point cut (chromosome a') (chromosome b')) as [[c d]| |]; cbn; [split_and!; reflexivity|exact I|exact I].
Qed.
Section Chunks.
Variables (single : individual G -> individual G -> rng -> outcome ((individual G * individual G) * rng)) (K : list G -> Prop).
Hypothesis HT : forall a b a' b' r, twin a a' -> twin b b' -> Orel twins (single a b r) (single a' b' r).
Hypothesis HK : forall a b r c d r', K (chromosome a) -> K (chromosome b) -> single a b r = Ok ((c, d), r') -> K (chromosome c) /\ K (chromosome d).
Lemma chunks_lock n : forall (q1 q2 : pop) r, length q1 <= n -> Forall2 (same K) q1 q2 -> Orel (Prel (Forall2 (same K))) (apply_chunks single q1 r) (apply_chunks single q2 r).
Proof using HT HK.
  induction n as [|n IH]; intros q1 q2 r Hn H.
  - destruct H; [split; [constructor|reflexivity]|cbn in Hn; lia].
  - destruct H as [|a a' q1 q2 Ha H]; [split; [constructor|reflexivity]|]. destruct H as [|b b' q1 q2 Hb H]; [exact I|]. cbn [apply_chunks].
    eapply Orel_bind; [apply HT; [apply Ha|apply Hb]|]. intros [[c d] r1] [[c' d'] r1'] E (Hc & Hd & Hr). cbn in Hc, Hd, Hr. subst r1'.
    destruct (HK _ _ _ _ _ _ (proj2 Ha) (proj2 Hb) E) as [Kc Kd].
    eapply Orel_bind; [apply IH; [cbn in Hn; lia|exact H]|]. intros [o r2] [o' r2'] _ [Ho Hr]. cbn in Ho, Hr. subst r2'.
    split; [|reflexivity]. cbn [fst]. constructor; [split; auto|]. constructor; [split; auto|exact Ho].
Qed.
Lemma xo_apply_lock (q1 q2 : pop) r : Forall2 (same K) q1 q2 -> Orel (Prel (Forall2 (same K))) (crossover_apply single q1 r) (crossover_apply single q2 r).
Proof using HT HK.
  intros H. unfold crossover_apply. rewrite (Forall2_length _ _ _ H). eapply Orel_bind; [apply Orel_refl; intros; reflexivity|]. intros [] [] _ _.
  exact (chunks_lock (length q1) q1 q2 r (le_n _) H).
Qed.
End Chunks.

(** WeakParent compares *)
Section Weak.
Variable R : individual G -> individual G -> Prop.
Hypothesis HR : forall x y x' y', R x y -> R x' y' -> flt (fitness x) (fitness x') = flt (fitness y) (fitness y').
Definition R2 (s t : pop * pop) : Prop := Forall2 R s.1 t.1 /\ Forall2 R s.2 t.2.
Lemma mem_swap_lock i j (x1 x2 y1 y2 : pop) : Forall2 R x1 x2 -> Forall2 R y1 y2 -> Orel R2 (mem_swap i j x1 y1) (mem_swap i j x2 y2).
Proof using Type.
  intros Hx Hy. unfold mem_swap. eapply Orel_bind; [apply Orel_index; exact Hx|]. intros a a' _ Ha. eapply Orel_bind; [apply Orel_index; exact Hy|]. intros b b' _ Hb.
  split; cbn; apply Forall2_insert; auto.
Qed.
Lemma swap_if_lock (b : bool) i j (q1 q2 : pop) : Forall2 R q1 q2 ->
  Orel (Forall2 R) (if b then swap i j q1 else Ok q1) (if b then swap i j q2 else Ok q2).
Proof using Type. intros H. destruct b; [apply Orel_swap|]; exact H. Qed.
Lemma weak_step_lock i s t : R2 s t -> Orel R2 (weak_parent_step s i) (weak_parent_step t i).
Proof using HR.
  destruct s as [p1 k1], t as [p2 k2]. intros [Hp Hk]. cbn in Hp, Hk. unfold weak_parent_step, ind_gt, ind_lt.
  eapply Orel_bind; [apply Orel_index; exact Hp|]. intros u u' _ Hu. eapply Orel_bind; [apply Orel_index; exact Hp|]. intros v v' _ Hv.
  rewrite (HR _ _ _ _ Hu Hv). eapply Orel_bind; [apply swap_if_lock; exact Hp|]. intros p3 p4 _ Hp'.
  eapply Orel_bind; [apply Orel_index; exact Hk|]. intros w w' _ Hw. eapply Orel_bind; [apply Orel_index; exact Hk|]. intros z z' _ Hz.
  rewrite (HR _ _ _ _ Hw Hz). eapply Orel_bind; [apply swap_if_lock; exact Hk|]. intros k3 k4 _ Hk'.
  eapply Orel_bind; [apply Orel_index; exact Hk'|]. intros c c' _ Hc. eapply Orel_bind; [apply Orel_index; exact Hp'|]. intros a a' _ Ha.
  rewrite (HR _ _ _ _ Ha Hc). destruct (flt (fitness a') (fitness c')).
  - eapply Orel_bind; [apply Orel_swap; exact Hp'|]. intros p5 p6 _ Hp5. eapply Orel_bind; [apply mem_swap_lock; [exact Hk'|exact Hp5]|].
    intros [k5 p7] [k6 p8] _ [Hk5 Hp7]. cbn in Hk5, Hp7. eapply Orel_bind; [apply Orel_index; exact Hk5|]. intros d d' _ Hd.
    eapply Orel_bind; [apply Orel_index; exact Hp7|]. intros b b' _ Hb. rewrite (HR _ _ _ _ Hb Hd). destruct (flt (fitness b') (fitness d')); [|split; auto].
    eapply Orel_bind; [apply mem_swap_lock; [exact Hk5|exact Hp7]|]. intros [k7 p9] [k8 p10] _ [H1 H2]. split; auto.
  - eapply Orel_bind; [apply Orel_index; exact Hp'|]. intros b b' _ Hb. rewrite (HR _ _ _ _ Hb Hc). destruct (flt (fitness b') (fitness c')); [|split; auto].
    eapply Orel_bind; [apply mem_swap_lock; [exact Hk'|exact Hp']|]. intros [k7 p9] [k8 p10] _ [H1 H2]. split; auto.
Qed.
Lemma weak_fold_lock is : forall s t, R2 s t -> Orel R2 (ofold weak_parent_step s is) (ofold weak_parent_step t is).
Proof using HR.
  induction is as [|i is IH]; intros s t H; cbn [ofold]; [exact H|]. eapply Orel_bind; [apply weak_step_lock; exact H|]. intros s' t' _ H'. apply IH. exact H'.
Qed.
Lemma weak_lock debug (p1 p2 k1 k2 : pop) : Forall2 R p1 p2 -> Forall2 R k1 k2 -> Orel (Forall2 R) (weak_parent debug p1 k1) (weak_parent debug p2 k2).
Proof using HR.
  intros Hp Hk. unfold weak_parent. rewrite (Forall2_length _ _ _ Hp), (Forall2_length _ _ _ Hk).
  eapply Orel_bind; [apply Orel_refl; intros; reflexivity|]. intros [] [] _ _. eapply Orel_bind; [apply Orel_refl; intros; reflexivity|]. intros [] [] _ _.
  replace (bool_decide (p1 <> [])) with (bool_decide (p2 <> [])) by (apply bool_decide_ext; destruct Hp; split; congruence).
  eapply Orel_bind; [apply Orel_refl; intros; reflexivity|]. intros [] [] _ _.
  eapply Orel_bind; [apply weak_fold_lock; split; [exact Hp|exact Hk]|]. intros [a b] [c d] _ [H _]. exact H.
Qed.

(** Selections by comparison *)
Hypothesis HC : forall x y x' y', R x y -> R x' y' -> fcmp (fitness x) (fitness x') = fcmp (fitness y) (fitness y').
Lemma repeatO_lock {A} n (f g : rng -> outcome (A * rng)) : (forall r, f r = g r) -> forall r, repeatO n f r = repeatO n g r.
Proof using Type. intros H. induction n as [|n IH]; intros r; cbn [repeatO]; [reflexivity|]. rewrite H. destruct (g r) as [[x r1]| |]; cbn; [|reflexivity|reflexivity]. rewrite IH. reflexivity. Qed.
Lemma max_lock (l1 l2 : list (nat * individual G)) : Forall2 (fun x y => x.1 = y.1 /\ R x.2 y.2) l1 l2 -> forall x y, x.1 = y.1 -> R x.2 y.2 ->
  Orel (fun x y : nat * individual G => x.1 = y.1 /\ R x.2 y.2) (iter_max_from (fun ip => fitness ip.2) x l1) (iter_max_from (fun ip => fitness ip.2) y l2).
Proof using HC.
  induction 1 as [|a b l1 l2 [Hi Hab] _ IH]; intros x y Hxy HRx; cbn [iter_max_from]; [split; auto|].
  eapply Orel_bind; [apply Orel_eq; unfold key_cmp; rewrite (HC _ _ _ _ HRx Hab); reflexivity|]. intros c c' _ <-. apply IH; destruct c; auto.
Qed.
Lemma tournament_spin_lock sz (p1 p2 : pop) r : Forall2 R p1 p2 -> tournament_spin sz p1 r = tournament_spin sz p2 r.
Proof using HC.
  intros H. apply Orel_eq_inv. unfold tournament_spin. rewrite (Forall2_length _ _ _ H). eapply Orel_bind; [apply Orel_eq; reflexivity|]. intros [is r1] ? _ <-.
  eapply (Orel_bind (Forall2 (fun x y : nat * individual G => x.1 = y.1 /\ R x.2 y.2))).
  { clear r r1. induction is as [|i is IH]; cbn [omapM]; [constructor|]. eapply Orel_bind; [eapply Orel_bind; [apply Orel_index; exact H|]|].
    - intros x y _ Hxy. instantiate (1 := fun x y : nat * individual G => x.1 = y.1 /\ R x.2 y.2). split; [reflexivity|exact Hxy].
    - intros x y _ Hxy. eapply Orel_bind; [exact IH|]. intros xs ys _ Hs. constructor; auto. }
  intros l1 l2 _ Hl. eapply (Orel_bind (fun x y : option (nat * individual G) => fst <$> x = fst <$> y)).
  { unfold iter_max. destruct Hl as [|x y l1 l2 [Hi HRx] Hl]; [reflexivity|]. eapply Orel_bind; [apply max_lock; [exact Hl|exact Hi|exact HRx]|]. intros a b _ [E _]. cbn. congruence. }
  intros [[i a]|] [[j b]|] _ E; cbn in *; (exact I || congruence).
Qed.
Lemma rank_spin_lock (p1 p2 : pop) r : Forall2 R p1 p2 -> rank_spin p1 r = rank_spin p2 r.
Proof using HC.
  intros H. apply Orel_eq_inv. unfold rank_spin. rewrite (Forall2_length _ _ _ H). eapply Orel_bind; [apply Orel_eq; reflexivity|]. intros [i r1] ? _ <-.
  eapply Orel_bind; [apply Orel_index; exact H|]. intros x x' _ Hx. eapply Orel_bind; [apply Orel_eq; reflexivity|]. intros [j r2] ? _ <-.
  eapply Orel_bind; [apply Orel_index; exact H|]. intros y y' _ Hy. cbn. pose proof (HC _ _ _ _ Hy Hx) as E. unfold fge, fle, SFleb, fcmp in *. rewrite E. reflexivity.
Qed.
Lemma index_lock {B} (p1 p2 : pop) i (k : outcome B) : Forall2 R p1 p2 -> (_ ← index p1 i; k) = (_ ← index p2 i; k).
Proof using Type. intros H. pose proof (Orel_index R p1 p2 i H) as E. destruct (index p1 i), (index p2 i); cbn in *; try tauto; reflexivity. Qed.
Lemma select_lock sel size m (p1 p2 : pop) r : by_comparison sel = true -> Forall2 R p1 p2 -> select_fn sel size m p1 r = select_fn sel size m p2 r.
Proof using HC.
  intros Hs H. pose proof (Forall2_length _ _ _ H) as Hl. destruct sel; try discriminate Hs; cbn [select_fn].
  - unfold random_sel. rewrite Hl. destruct (rassert _); cbn; try reflexivity. erewrite repeatO_lock; [reflexivity|]. intros r1. cbn. destruct (gen_range 0 (length p2) r1) as [[i r2]| |]; cbn; try reflexivity.
    apply (index_lock p1 p2 i (Ok (i, r2)) H).
  - unfold unique_random. rewrite Hl. destruct (sample_indices _ _ _) as [[is r1]| |]; cbn; try reflexivity.
    pose proof (Orel_omapM_index R p1 p2 is H) as E. destruct (omapM (index p1) is), (omapM (index p2) is); cbn in *; try tauto; reflexivity.
  - unfold rank. apply repeatO_lock. intros r1. apply rank_spin_lock. exact H.
  - unfold rank_r. rewrite Hl. destruct (rassert _); cbn; try reflexivity. destruct (rassert _); cbn; try reflexivity. apply repeatO_lock. intros r1. unfold rank_r_spin. rewrite Hl.
    destruct (gen_range 0 (length p2) r1) as [[i r2]| |]; cbn; try reflexivity. rewrite (index_lock p1 p2 i _ H). destruct (index p2 i); cbn; try reflexivity.
    destruct (gen_range 0 (length p2) r2) as [[j r3]| |]; cbn; try reflexivity. apply (index_lock p1 p2 j _ H).
  - unfold tournament. rewrite Hl. destruct (rassert _); cbn; try reflexivity. apply repeatO_lock. intros r1. apply tournament_spin_lock. exact H.
Qed.
End Weak.
End Operators.

(** ** Assembled solvers *)
Section Assembled.
Context {G : Type} `{EqDecision G}.
Variables (psize glimit : nat) (duration : N) (fit1 fit2 : list G -> f64) (generate : nat -> rng -> outcome (list (individual G) * rng)).
Variables (sel : selection_op) (size : metrics -> nat) (xo : crossover_op) (mut : list G -> rng -> rng -> outcome (list G * rng * rng)) (repl : replacement_op).
Notation cfg f := (assemble psize glimit duration f generate sel size xo mut repl).
Variable K : list G -> Prop.
Hypothesis HX : forall a b r c d r', K (chromosome a) -> K (chromosome b) -> crossover_single xo a b r = Ok ((c, d), r') -> K (chromosome c) /\ K (chromosome d).
Hypothesis HM : forall ch r t ch' r' t', K ch -> mut ch r t = Ok (ch', r', t') -> K ch'.
Hypothesis HG : forall r raw r', generate psize r = Ok (raw, r') -> Forall (fun x => K (chromosome x)) raw.
Hypothesis Hfit : forall a b, K a -> K b -> fcmp (fit1 a) (fit1 b) = fcmp (fit2 a) (fit2 b).
Hypothesis Hs : by_comparison sel = true \/ forall a, K a -> fit1 a = fit2 a.
Lemma assemble_lock ck m0 s : run (cfg fit2) ck m0 s = refit_run fit2 (run (cfg fit1) ck m0 s).
Proof using All.
  pose proof (lock_cmp (cfg fit1) (cfg fit2) K Hfit) as HC.
  assert (HR : forall x y x' y', evd (cfg fit1) (cfg fit2) K x y -> evd (cfg fit1) (cfg fit2) K x' y' -> flt (fitness x) (fitness x') = flt (fitness y) (fitness y')) by (apply lock_flt; exact Hfit).
  apply (lock_refit (cfg fit1) (cfg fit2) K); try reflexivity.
  - exact Hfit.
  - intros st. cbn [op_generate assemble population_size]. eapply Orel_bind; [apply Orel_refl; intros; reflexivity|]. intros [raw r] ? E <-. split; [|reflexivity]. cbn [fst].
    apply HG in E. induction E as [|x q Hx _ IH]; constructor; [split; auto|exact IH].
  - intros m q1 q2 st H. cbn [op_select assemble]. assert (E : select_fn sel size m q1 (st_sel st) = select_fn sel size m q2 (st_sel st)); [|rewrite E; reflexivity].
    destruct Hs as [Hc|Heq]; [exact (select_lock _ HC sel size m q1 q2 _ Hc H)|].
    assert (q1 = q2) as ->; [|reflexivity]. clear -H Heq. induction H as [|x y q1 q2 (E & Hk & F1 & F2) _ IH]; [reflexivity|]. rewrite IH. f_equal.
    destruct x as [cx fx], y as [cy fy]. cbn in *. subst cy fx fy. rewrite (Heq cx Hk). reflexivity.
  - intros m q1 q2 st H. cbn [op_crossover assemble]. apply evd_same in H.
    eapply Orel_bind; [apply (xo_apply_lock (crossover_single xo) K); [intros; apply xo_twin; assumption|exact HX|exact H]|]. intros [h1 r1] [h2 r2] _ [H1 H2]. cbn in H1, H2. subst r2. split; [exact H1|reflexivity].
  - intros m x y st [Hc Hk]. cbn [op_mutate assemble]. unfold mutate_individual. rewrite Hc in *. destruct (mut (chromosome y) (st_mut st) (st_thread st)) as [[[ch r] t]| |] eqn:E; cbn; try exact I.
    split; [|reflexivity]. split; [reflexivity|]. cbn. eapply HM; [exact Hk|exact E].
  - intros m q1 q2 h1 h2 st Hq Hh. cbn [op_replace op_requires_children_fitness assemble] in *.
    eapply (Orel_bind (Forall2 (same K))); [|intros a b _ Hab; split; [exact Hab|reflexivity]].
    destruct repl; cbn [replacement_fn replacement_requires_fitness] in *.
    + exact Hh.
    + eapply evd_same; exact Hq.
    + eapply Orel_impl; [exact (weak_lock _ HR debug q1 q2 h1 h2 Hq Hh)|]. intros a b _ Hab. eapply evd_same. exact Hab.
Qed.
End Assembled.

(** ** Fitness functions that may give NaN outside the search space *)
Lemma perm_solver_returns {G} `{EqDecision G} psize glimit duration fit (genes : list G) sel size xo mop repl ck m0 s :
  NoDup genes -> genes <> [] -> order_based xo = true -> enough_fuel xo (length genes) ->
  0 < psize -> Nat.even psize = true -> (forall m, size m = psize) -> dependable sel psize -> (forall ch, ch ≡ₚ genes -> is_nan (fit ch) = false) ->
  exists evs b m s', run (assemble psize glimit duration fit (gen_permutations genes) sel size xo (mutation_fn mop) repl) ck m0 s = Ok (evs, b, m, s').
Proof.
  intros Hnd Hne Ho Hf Hp He Hs Hd Hn. assert (Hl : 0 < length genes) by (destruct genes; [congruence|cbn; lia]).
  apply (live_K _ _ _ _ _ _ _ _ _ _ (fun ch => ch ≡ₚ genes)); auto.
  - intros a c r Ha Hb. apply xo_perm_ok; auto.
  - intros ch r t Hch. destruct (mutation_ok mop ch r t) as (ch' & r' & t' & E & P); [rewrite Hch; exact Hl|]. exists ch', r', t'. split; [exact E|]. rewrite P. exact Hch.
  - intros r. apply gen_permutations_spec.
Qed.
Lemma bits_solver psize glimit duration fit dim sel size xo (mut : list bool -> rng -> rng -> outcome (list bool * rng * rng)) repl ck m0 s :
  ((exists mop, mut = mutation_fn mop) \/ (exists rate, mut = flip_bit rate)) -> order_based xo = false -> 0 < dim ->
  (cuts_fit xo dim -> 0 < psize -> Nat.even psize = true -> (forall m, size m = psize) -> dependable sel psize -> (forall ch, length ch = dim -> is_nan (fit ch) = false) ->
    exists evs b m s', run (assemble psize glimit duration fit (gen_bits dim) sel size xo mut repl) ck m0 s = Ok (evs, b, m, s')) /\
  (forall evs b m s', run (assemble psize glimit duration fit (gen_bits dim) sel size xo mut repl) ck m0 s = Ok (evs, b, m, s') ->
    (forall e x, e ∈ evs -> mentions e x -> length (chromosome x) = dim) /\ length (chromosome b) = dim).
Proof.
  intros Hmut Ho Hd. split; [|apply bit_solver; assumption].
  intros Hk Hp He Hs Hde Hn. apply (live_K _ _ _ _ _ _ _ _ _ _ (fun ch => length ch = dim)); auto.
  - intros a c r Ha Hb. apply xo_length_ok; auto.
  - intros ch r t Hl. destruct Hmut as [[mop ->]|[rate ->]]; [apply mutation_length_ok; auto|apply flip_length_ok; auto].
  - intros r. apply gen_bits_spec. exact Hd.
Qed.
Section Points.
Context `{EqDecision f64}.
Lemma in_space_xo xo cs (a b : individual f64) r : order_based xo = false -> cuts_fit xo (length cs) -> cs <> [] -> in_space cs (chromosome a) -> in_space cs (chromosome b) ->
  exists c d r', crossover_single xo a b r = Ok ((c, d), r') /\ in_space cs (chromosome c) /\ in_space cs (chromosome d).
Proof using Type.
  intros Ho Hk Hc [La Ha] [Lb Hb]. destruct (xo_length_ok xo a b r (length cs) Ho Hk ltac:(destruct cs; [congruence|cbn; lia]) La Lb) as (c & d & r' & E & Lc & Ld).
  pose proof (xo_genes _ _ _ _ _ _ _ E) as Hg. exists c, d, r'. split; [exact E|].
  split; (split; [assumption|]); intros g H1; (destruct (Hg g) as [Hx|Hx]; [cbn [fst snd]; auto|apply Ha; exact Hx|apply Hb; exact Hx]).
Qed.
Lemma gen_points_space kind cs n r raw r' : Forall proper_range cs -> gen_points kind cs n r = Ok (raw, r') -> Forall (fun x => in_space cs (chromosome x)) raw.
Proof using Type.
  intros Hp E. unfold gen_points in E. apply obind_Ok in E as (g & E1 & E). apply obind_Ok in E as ([pop g'] & E2 & E). injection E as <- <-.
  assert (Hg : rp_constraints g = cs). { unfold random_points_with_constraints in E1. apply obind_Ok in E1 as (? & _ & E1). apply obind_Ok in E1 as (? & _ & E1). injection E1 as <-. reflexivity. }
  pose proof (random_points_within kind g n pop g' E2) as HF. rewrite Hg in HF. specialize (HF Hp).
  pose proof (random_points_finite kind g n pop g' E2) as HN. rewrite Hg in HN. specialize (HN Hp). rewrite Forall_forall in HF, HN |- *. intros x Hxin. pose proof (HF x Hxin) as Hx. pose proof (HN x Hxin) as Hfin. rewrite Forall_forall in Hfin. split; [symmetry; eapply Forall2_length; exact Hx|].
  intros v Hv. split; [exact (Hfin v Hv)|]. apply elem_of_list_lookup in Hv as [i Hi]. destruct (Forall2_lookup_r _ _ _ _ _ Hx Hi) as (c & Hc & Hle). exists c. split; [eapply elem_of_list_lookup_2; exact Hc|exact Hle].
Qed.
Lemma in_space_perm cs (ch ch' : list f64) : ch' ≡ₚ ch -> in_space cs ch -> in_space cs ch'.
Proof using Type. intros P [Hl Hs]. split; [rewrite P; exact Hl|]. intros g Hg. apply Hs. rewrite <- P. exact Hg. Qed.
Lemma points_solver psize glimit duration fit kind cs sel size xo mop repl ck m0 s :
  order_based xo = false -> cs <> [] -> Forall proper_range cs ->
  (cuts_fit xo (length cs) -> 0 < psize -> Nat.even psize = true -> (forall m, size m = psize) -> dependable sel psize -> (forall ch, in_space cs ch -> is_nan (fit ch) = false) ->
    exists evs b m s', run (assemble psize glimit duration fit (gen_points kind cs) sel size xo (mutation_fn mop) repl) ck m0 s = Ok (evs, b, m, s')) /\
  (forall evs b m s', run (assemble psize glimit duration fit (gen_points kind cs) sel size xo (mutation_fn mop) repl) ck m0 s = Ok (evs, b, m, s') ->
    (forall e x, e ∈ evs -> mentions e x -> in_space cs (chromosome x)) /\ in_space cs (chromosome b)).
Proof using Type.
  intros Ho Hc Hr. assert (Hd : 0 < length cs) by (destruct cs; [congruence|cbn; lia]). split.
  - intros Hk Hp He Hs Hde Hn. apply (live_K _ _ _ _ _ _ _ _ _ _ (in_space cs)); auto.
    + intros a b r. apply in_space_xo; auto.
    + intros ch r t [Hl HS]. destruct (mutation_ok mop ch r t) as (ch' & r' & t' & E & P); [lia|]. exists ch', r', t'. split; [exact E|]. apply (in_space_perm cs ch ch' P). split; auto.
    + intros r. destruct (gen_points_spec kind cs psize r Hc) as (raw & r' & E & Hl & _). exists raw, r'. split; [exact E|]. split; [exact Hl|]. eapply gen_points_space; [exact Hr|exact E].
  - intros evs b m s' H. refine (assemble_safe _ _ _ _ _ _ _ _ _ _ (in_space cs) _ _ _ _ _ _ _ _ _ H _).
    + intros x y r c d r' Hx Hy E. assert (Hk : cuts_fit xo (length cs)).
      { destruct xo; cbn [cuts_fit]; auto. cbn [crossover_single] in E. apply lift_single_Ok in E as (E & _). unfold multi_point in E.
        apply obind_Ok in E as ([] & _ & E). apply obind_Ok in E as ([] & E2 & E). apply rassert_Ok, bool_decide_eq_true in E2.
        apply obind_Ok in E as ([] & E3 & E). apply rassert_Ok, bool_decide_eq_true in E3. rewrite (proj1 Hx) in E2. auto. }
      destruct (in_space_xo xo cs x y r Ho Hk Hc Hx Hy) as (c2 & d2 & r2 & E2 & H1 & H2). rewrite E in E2. injection E2 as -> -> _. auto.
    + intros ch r t ch' r' t' HS E. apply mutation_perm in E. exact (in_space_perm cs ch ch' E HS).
    + intros r raw r' E. eapply gen_points_space; [exact Hr|exact E].
Qed.
End Points.

(** ** The statements *)
Lemma by_order_only {G} `{EqDecision G} psize glimit duration (fit1 fit2 : list G -> f64) generate sel size xo mut repl ck m0 s :
  by_comparison sel = true -> order_equivalent fit1 fit2 ->
  run (assemble psize glimit duration fit2 generate sel size xo mut repl) ck m0 s =
  refit_run fit2 (run (assemble psize glimit duration fit1 generate sel size xo mut repl) ck m0 s).
Proof.
  intros Hc Hf. apply (assemble_lock psize glimit duration fit1 fit2 generate sel size xo mut repl (fun _ => True)); auto.
  intros r raw r' _. apply Forall_true. auto.
Qed.
Lemma refit_populations {G} (fit : list G -> f64) evs : map (map chromosome) (populations (map (refit_event fit) evs)) = map (map chromosome) (populations evs).
Proof.
  assert (Hm : forall q : list (individual G), map chromosome (map (refit fit) q) = map chromosome q) by (intros q; rewrite map_map; reflexivity).
  unfold populations. induction evs as [|e evs IH]; [reflexivity|]. destruct e; cbn; rewrite ?Hm; try exact IH; f_equal; exact IH.
Qed.
Lemma rescaled {G} `{EqDecision G} psize glimit duration (fit : list G -> f64) (h : f64 -> f64) generate sel size xo mut repl ck m0 s evs b m s' :
  by_comparison sel = true -> (forall x y, fcmp (h x) (h y) = fcmp x y) ->
  run (assemble psize glimit duration fit generate sel size xo mut repl) ck m0 s = Ok (evs, b, m, s') ->
  exists evs' b', run (assemble psize glimit duration (fun ch => h (fit ch)) generate sel size xo mut repl) ck m0 s = Ok (evs', b', m, s') /\
    chromosome b' = chromosome b /\ fitness b' = h (fit (chromosome b)) /\ map (map chromosome) (populations evs') = map (map chromosome) (populations evs).
Proof.
  intros Hc Hh H. rewrite (by_order_only psize glimit duration fit (fun ch => h (fit ch)) generate sel size xo mut repl ck m0 s Hc); [|intros a c; symmetry; apply Hh].
  rewrite H. cbn. eexists _, _. split; [reflexivity|]. split; [reflexivity|]. split; [reflexivity|]. apply refit_populations.
Qed.
