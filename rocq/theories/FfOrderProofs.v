From Verif Require Import FfModel FfOrderSpec GaOrderProofs.
Open Scope nat_scope.

Section Lock.
Context (f g : list f64 -> f64) (Hs : same_lights f g).
Context (dist : list f64 -> list f64 -> outcome f64) (powf : f64 -> f64 -> f64) (sq : f64 -> f64) (c : ff_cfg).
Lemma bright_lookup (h : list f64 -> f64) pop i : brightness_of h pop !! i = shine h <$> pop !! i.
Proof using Type. unfold brightness_of. change (map ?a ?b) with (a <$> b). rewrite list_lookup_fmap. reflexivity. Qed.
Lemma bright_index (h : list f64 -> f64) pop i : index (brightness_of h pop) i = (x ← index pop i; Ok (shine h x)).
Proof using Type. unfold index. rewrite bright_lookup. destruct (pop !! i); reflexivity. Qed.
Lemma ofold_ext {A S} (h1 h2 : S -> A -> outcome S) l : (forall s a, h1 s a = h2 s a) -> forall s, ofold h1 s l = ofold h2 s l.
Proof using Type. intros H. induction l as [|a l IH]; intros s; cbn [ofold]; [reflexivity|]. rewrite H. destruct (h2 s a); cbn; auto. Qed.
Lemma move_lock i pop alfa n r : move_firefly dist powf sq c i (brightness_of f pop) pop alfa n r = move_firefly dist powf sq c i (brightness_of g pop) pop alfa n r.
Proof using Hs.
  unfold move_firefly. destruct (index pop i) as [x| |] eqn:Ex; cbn [mbind outcome_bind]; try reflexivity.
  match goal with |- (ofold ?A ?B ?C ≫= _) = (ofold ?D _ _ ≫= _) => enough (E : ofold A B C = ofold D B C) by (rewrite E; reflexivity) end.
  apply ofold_ext. intros [[res moved] r1] j. rewrite !bright_index, Ex. cbn [mbind outcome_bind].
  destruct (index pop j) as [xj| |]; cbn [mbind outcome_bind]; try reflexivity. destruct Hs as (_ & H & _). rewrite (H x xj). reflexivity.
Qed.
Lemma move_all_lock is pop alfa n : forall r, move_all dist powf sq c is (brightness_of f pop) pop alfa n r = move_all dist powf sq c is (brightness_of g pop) pop alfa n r.
Proof using Hs.
  induction is as [|i is IH]; intros r; cbn [move_all]; [reflexivity|]. rewrite move_lock. destruct (move_firefly _ _ _ _ _ _ _ _ _ _) as [[x r1]| |]; cbn [mbind outcome_bind]; try reflexivity.
  rewrite IH. reflexivity.
Qed.
Lemma brightest_lock pop : forall i maxpos (m : option (list f64)),
  brightest i maxpos (match m with None => f0 | Some z => shine f z end) (brightness_of f pop) =
  brightest i maxpos (match m with None => f0 | Some z => shine g z end) (brightness_of g pop).
Proof using Hs.
  induction pop as [|x pop IH]; intros i maxpos m; cbn [brightness_of map brightest]; [reflexivity|]. destruct Hs as (_ & H2 & H3 & H4 & _).
  change (fdiv f1 (f x)) with (shine f x). change (fdiv f1 (g x)) with (shine g x). rewrite (H4 x). destruct (feq (shine g x) finf); [reflexivity|].
  replace (flt (match m with None => f0 | Some z => shine f z end) (shine f x)) with (flt (match m with None => f0 | Some z => shine g z end) (shine g x)) by (destruct m; rewrite ?H2, ?H3; reflexivity).
  destruct (flt _ (shine g x)); [apply (IH (S i) i (Some x))|apply (IH (S i) maxpos m)].
Qed.
Lemma take_bright (h : list f64 -> f64) n pop : take n (brightness_of h pop) = brightness_of h (take n pop).
Proof using Type. unfold brightness_of. change (map ?a ?b) with (a <$> b). rewrite fmap_take. reflexivity. Qed.
(** The best value so far, in both runs *)
Definition best_rel (v w : f64) : Prop := (v = fmax /\ w = fmax) \/ exists z, v = f z /\ w = g z.
Lemma loop_lock : forall n i pop alfa v w r, best_rel v w ->
  same_flight f g (ff_loop f dist powf sq c n i pop (brightness_of f pop) alfa v r) (ff_loop g dist powf sq c n i pop (brightness_of g pop) alfa w r).
Proof using Hs.
  induction n as [|n IH]; intros i pop alfa v w r Hb; cbn [ff_loop]; [split; [reflexivity|constructor]|]. rewrite move_all_lock.
  destruct (move_all _ _ _ _ _ _ _ _ _ _) as [[pop' r1]| |]; cbn [mbind outcome_bind]; try exact I. rewrite !take_bright.
  rewrite (brightest_lock (take (ff_population_size c) pop') 0 0 None). destruct (index pop' _) as [x| |]; cbn [mbind outcome_bind]; try exact I.
  assert (Hflt : flt (f x) v = flt (g x) w).
  { destruct Hs as (H1 & _ & _ & _ & H5). destruct Hb as [[-> ->]|(z & -> & ->)]; auto. }
  assert (Hb' : best_rel (if flt (f x) v then f x else v) (if flt (g x) w then g x else w)).
  { rewrite Hflt. destruct (flt (g x) w); [right; eauto|exact Hb]. }
  pose proof (IH (S i) pop' (fmul alfa (delta c)) _ _ r1 Hb') as HL.
  destruct (ff_loop f dist powf sq c n (S i) pop' _ _ _ r1) as [[e1 p1]| |], (ff_loop g dist powf sq c n (S i) pop' _ _ _ r1) as [[e2 p2]| |]; cbn in HL; try contradiction; try exact I.
  destruct HL as [-> HL]. split; [reflexivity|]. constructor; [reflexivity|]. constructor; [split; [reflexivity|exact Hb']|]. constructor; [reflexivity|exact HL].
Qed.
Lemma run_lock pop r : same_flight f g (ff_run f dist powf sq c pop r) (ff_run g dist powf sq c pop r).
Proof using Hs.
  unfold ff_run. pose proof (loop_lock (max_generations c) 0 pop (alfa0 c) fmax fmax r (or_introl (conj eq_refl eq_refl))) as HL.
  destruct (ff_loop f _ _ _ _ _ _ _ _ _ _ r) as [[e1 p1]| |], (ff_loop g _ _ _ _ _ _ _ _ _ _ r) as [[e2 p2]| |]; cbn in HL; try contradiction; try exact I.
  destruct HL as [-> HL]. split; [reflexivity|]. constructor; [reflexivity|]. apply Forall2_app; [exact HL|]. constructor; [reflexivity|constructor].
Qed.
End Lock.
