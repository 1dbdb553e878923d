(** * Which vectors the test functions accept, whatever the arithmetic *)
From Coq Require Import Lia.
From Verif Require Export TfSpec.
Open Scope nat_scope.

Section Shapes.
Context {T : Type} {num : Num T}.
Implicit Types x : list T.

Lemma rassert_false b : b = false -> rassert b = Panic.
Proof. intros ->. reflexivity. Qed.
Lemma rassert_yes P {d : Decision P} : P -> rassert (bool_decide P) = Ok tt.
Proof. intros H. rewrite bool_decide_eq_true_2 by exact H. reflexivity. Qed.
Lemma rassert_no P {d : Decision P} : ~ P -> rassert (bool_decide P) = Panic.
Proof. intros H. rewrite bool_decide_eq_false_2 by exact H. reflexivity. Qed.

Lemma accepts_eq (f : list T -> outcome T) n (k : list T -> outcome T) :
  (forall x, f x = (_ ← rassert (bool_decide (length x = n)); k x)) -> (forall x, length x = n -> exists v, k x = Ok v) -> accepts f (fun m => m = n).
Proof.
  intros Hf Hk x. rewrite Hf. split; intros H.
  - rewrite rassert_yes by exact H. apply Hk, H.
  - rewrite rassert_no by exact H. reflexivity.
Qed.
Lemma accepts_ne (f : list T -> outcome T) (k : list T -> outcome T) :
  (forall x, f x = (_ ← rassert (bool_decide (x <> [])); k x)) -> (forall x, x <> [] -> exists v, k x = Ok v) -> accepts f (fun m => 1 <= m).
Proof.
  intros Hf Hk x. rewrite Hf. assert (L : 1 <= length x <-> x <> []) by (destruct x; cbn; split; [lia|congruence|discriminate|lia]). split; intros H.
  - rewrite rassert_yes by (apply L, H). apply Hk, L, H.
  - rewrite rassert_no by (intros E; apply H, L, E). reflexivity.
Qed.
Lemma accepts_ge (f : list T -> outcome T) n (k : list T -> outcome T) :
  (forall x, f x = (_ ← rassert (bool_decide (n <= length x)); k x)) -> (forall x, n <= length x -> exists v, k x = Ok v) -> accepts f (fun m => n <= m).
Proof.
  intros Hf Hk x. rewrite Hf. split; intros H.
  - rewrite rassert_yes by exact H. apply Hk, H.
  - rewrite rassert_no by exact H. reflexivity.
Qed.
Ltac cases x H := repeat (let a := fresh "a" in destruct x as [|a x]; try discriminate H).
Ltac fixed := eapply accepts_eq; [reflexivity|let x := fresh in let H := fresh in intros x H; cases x H; eexists; reflexivity].
Ltac dfold := cbv beta; match goal with |- context [match ?p with (_, _) => _ end] => destruct p end.
Ltac all_fixed := repeat (apply List.Forall_cons; [fixed|]); apply List.Forall_nil.

Lemma index_lt x i : i < length x -> exists v, index x i = Ok v.
Proof. intros H. unfold index. destruct (lookup_lt_is_Some_2 x i H) as [v ->]. exists v. reflexivity. Qed.
Lemma index_ge x i : length x <= i -> index x i = Panic.
Proof. intros H. unfold index. rewrite lookup_ge_None_2 by exact H. reflexivity. Qed.
Lemma ofold_ok {A S} (g : S -> A -> outcome S) l s : (forall s a, a ∈ l -> exists s', g s a = Ok s') -> exists s', ofold g s l = Ok s'.
Proof.
  revert s. induction l as [|a l IH]; intros s H; cbn [ofold]; [eauto|].
  destruct (H s a) as [s' ->]; [constructor|]. cbn [mbind outcome_bind]. apply IH. intros. apply H. constructor. assumption.
Qed.
Lemma in_seq_lt a n i : i ∈ seq a n -> a <= i < a + n.
Proof. intros H. apply elem_of_list_In, in_seq in H. exact H. Qed.

Lemma accept2 : Forall (fun f => accepts f (fun n => n = 2))
  [ackley2; ackley3; adijman; beale; biggs_exp2; bird; bohachevsky_n1; bohachevsky_n2; bohachevsky_n3; booth; branin_rcos; branin_rcos2; branin_default; brent;
   bukin_2; bukin_4; bukin_n6; three_hump_camel; six_hump_camel; chen_bird; chen_v; chichinadze; cross_in_tray; cube; damavandi; deckkers_aarts; drop_wave;
   easom; eavd; egg_crate; eggholder; exp2; freudenstein_roth; giunta; goldstein_price; himmelblau; holder_table; holder_table2; holder_table3; hosaki;
   jennrich_sampson; levy_n13; keane; leon; matyas; mcormick; parsopoulos; pen_holder; periodic; price1; price2; price3; price4; quadratic; ripple1; ripple25;
   rosenbrock_modified; rotated_ellipse; rotated_ellipse2; rump; schaffer_n1; schaffer_n2; schaffer_n3; schaffer_n4; shubert; testtube_holder; trecanni; ursem1;
   ursem3; ursem4; ursem_waves; trefethen; vss; wayburn_seader1; wayburn_seader2; wayburn_seader3; zettl; zirilli].
Proof. all_fixed. Qed.
Lemma accept3 : Forall (fun f => accepts f (fun n => n = 3)) [brad; bartels_conn; biggs_exp3; box_betts; schmidt_vetters; wolfe].
Proof. all_fixed. Qed.
Lemma accept4 : Forall (fun f => accepts f (fun n => n = 4)) [biggs_exp4; colville; miele_cantrell].
Proof. all_fixed. Qed.
Lemma accept5 : Forall (fun f => accepts f (fun n => n = 5)) [biggs_exp5; devilliers_glasser2; dolan].
Proof. all_fixed. Qed.
Lemma accept6 : accepts biggs_exp6 (fun n => n = 6).
Proof. fixed. Qed.
Lemma accept10 : accepts paviani (fun n => n = 10).
Proof. eapply accepts_eq; [reflexivity|]. intros x _. dfold. eexists. reflexivity. Qed.
Lemma accept99 : accepts gulf_research (fun n => n = 99).
Proof.
  eapply accepts_eq; [reflexivity|]. intros x H. cbv beta. destruct (index_lt x 2) as [v ->]; [lia|]. eexists. reflexivity.
Qed.
Lemma accept_ne : Forall (fun f => accepts f (fun n => 1 <= n))
  [ackley; griewank; levy; michalewicz; rastrigin; rotated_hyper_ellipsoid; schwefel; sphere; styblinski_tang; sum_of_powers; sum_squares; xin_she_yang_2; zakharov; brown; deb1; deb3].
Proof.
  assert (L : forall x, x <> [] -> 0 < length x) by (intros [|]; cbn; [congruence|lia]).
  repeat (apply List.Forall_cons; [eapply accepts_ne; [reflexivity|intros x H; cbv beta; specialize (L x H)]|]); [..|apply List.Forall_nil].
  1: dfold; eexists; reflexivity.
  1: dfold; eexists; reflexivity.
  1: { destruct (index_lt x 0) as [v ->]; [lia|]. cbn [mbind outcome_bind]. destruct (index_lt x (length x - 1)) as [w ->]; [lia|]. eexists. reflexivity. }
  all: try (eexists; reflexivity).
  all: try (dfold; eexists; reflexivity).
  apply ofold_ok. intros s i Hi. apply in_seq_lt in Hi. destruct (index_lt x i) as [v ->]; [lia|]. destruct (index_lt x (i + 1)) as [w ->]; [lia|]. eexists. reflexivity.
Qed.
Lemma accept_ge2 : Forall (fun f => accepts f (fun n => 2 <= n)) [dixon_price; pathological; rosenbrock; trid; trigonometric1; trigonometric2].
Proof.
  repeat (apply List.Forall_cons; [eapply accepts_ge; [reflexivity|intros x H; cbv beta]|]); [..|apply List.Forall_nil].
  1,4: destruct (index_lt x 0) as [v ->]; [lia|]; apply ofold_ok; intros s i Hi; apply in_seq_lt in Hi;
    (destruct (index_lt x i) as [w ->]; [lia|]); (destruct (index_lt x (i - 1)) as [z ->]; [lia|]); eexists; reflexivity.
  1,2: apply ofold_ok; intros s i Hi; apply in_seq_lt in Hi; (destruct (index_lt x i) as [w ->]; [lia|]); (destruct (index_lt x (i + 1)) as [z ->]; [lia|]); eexists; reflexivity.
  - eexists. reflexivity.
  - destruct (index_lt x 0) as [v ->]; [lia|]. eexists. reflexivity.
Qed.
Lemma accept_any : Forall (fun f => accepts f (fun _ => True))
  [alpine; alpine2; chung_reynolds; cosine_mixture; csendes; exponential; powell_sum; quintic; salomon; sargan; schumer_steiglitz].
Proof.
  repeat (apply List.Forall_cons; [intros x; split; [intros _|intros []; exact I]; unfold alpine, alpine2, chung_reynolds, cosine_mixture, csendes, exponential, powell_sum, quintic, salomon, sargan, schumer_steiglitz; try dfold; eexists; reflexivity|]).
  apply List.Forall_nil.
Qed.
Lemma powell2_accepts : accepts powell2 (fun n => 4 <= n).
Proof.
  intros x. unfold powell2. split; intros H.
  - rewrite rassert_yes by lia. cbn [mbind outcome_bind]. apply ofold_ok. intros s i Hi. apply in_seq_lt in Hi.
    destruct (index_lt x (i - 1)) as [a ->]; [lia|]. destruct (index_lt x i) as [b ->]; [lia|]. destruct (index_lt x (i + 1)) as [c ->]; [lia|].
    destruct (index_lt x (i + 2)) as [d ->]; [lia|]. eexists. reflexivity.
  - rewrite rassert_no by lia. reflexivity.
Qed.
Lemma ofold_panic {A S} (g : S -> A -> outcome S) l s a l' : (forall s a, a ∈ l -> exists s', g s a = Ok s') -> (forall s, g s a = Panic) -> ofold g s (l ++ a :: l') = Panic.
Proof.
  revert s. induction l as [|b l IH]; intros s H Ha; cbn [app ofold].
  - rewrite Ha. reflexivity.
  - destruct (H s b) as [s' ->]; [constructor|]. cbn [mbind outcome_bind]. apply IH; [|exact Ha]. intros. apply H. constructor. assumption.
Qed.
Lemma powell_accepts : accepts powell (fun n => 4 <= n /\ n mod 4 <> 0).
Proof.
  intros x. unfold powell. split; intros H.
  - destruct H as [H Hm]. rewrite rassert_yes by lia. cbn [mbind outcome_bind]. apply ofold_ok. intros s i Hi. apply in_seq_lt in Hi.
    pose proof (Nat.div_mod (length x) 4 ltac:(lia)).
    destruct (index_lt x (4 * i - 3)) as [a ->]; [lia|]. destruct (index_lt x (4 * i - 2)) as [b ->]; [lia|]. destruct (index_lt x (4 * i - 1)) as [c ->]; [lia|].
    destruct (index_lt x (4 * i)) as [d ->]; [lia|]. eexists. reflexivity.
  - destruct (decide (4 <= length x)) as [H4|H4]; [|rewrite rassert_no by lia; reflexivity].
    assert (Hm : length x mod 4 = 0) by (destruct (decide (length x mod 4 = 0)); tauto). rewrite rassert_yes by lia. cbn [mbind outcome_bind].
    pose proof (Nat.div_mod (length x) 4 ltac:(lia)) as E. rewrite Hm in E. set (q := length x / 4) in *. destruct q as [|q]; [lia|].
    rewrite seq_S. apply ofold_panic.
    + intros s i Hi. apply in_seq_lt in Hi.
      destruct (index_lt x (4 * i - 3)) as [a ->]; [lia|]. destruct (index_lt x (4 * i - 2)) as [b ->]; [lia|]. destruct (index_lt x (4 * i - 1)) as [c ->]; [lia|].
      destruct (index_lt x (4 * i)) as [d ->]; [lia|]. eexists. reflexivity.
    + intros s. destruct (index_lt x (4 * (1 + q) - 3)) as [a ->]; [lia|]. destruct (index_lt x (4 * (1 + q) - 2)) as [b ->]; [lia|].
      destruct (index_lt x (4 * (1 + q) - 1)) as [c ->]; [lia|]. cbn [mbind outcome_bind]. rewrite index_ge by lia. reflexivity.
Qed.

(** ** Functions that can never return *)
Lemma panics_eq (f : list T -> outcome T) n (k : list T -> outcome T) :
  (forall x, f x = (_ ← rassert (bool_decide (length x = n)); k x)) -> (forall x, length x = n -> k x = Panic) -> forall x, f x = Panic.
Proof.
  intros Hf Hk x. rewrite Hf. destruct (decide (length x = n)) as [H|H].
  - rewrite rassert_yes by exact H. apply Hk, H.
  - rewrite rassert_no by exact H. reflexivity.
Qed.
Lemma always_panics : Forall (fun f => forall x, f x = Panic)
  [de_jong_n5; devilliers_glasser1; hartmann_3d; hartmann_4d; hartmann_6d; shekel_default; stretched_v_sine_wave; trid10].
Proof.
  repeat (apply List.Forall_cons); [..|apply List.Forall_nil].
  1-6: eapply panics_eq; [reflexivity|]; intros x H; cases x H; reflexivity.
  - intros x. unfold stretched_v_sine_wave. destruct (decide (x = [])) as [->|H]; [reflexivity|]. rewrite rassert_yes by exact H. cbn [mbind outcome_bind].
    destruct (exists_last H) as (l & a & ->). rewrite imap_app. cbn [imap]. apply ofold_panic.
    + intros s [i b] Hi. apply elem_of_lookup_imap in Hi as (j & y & [= -> ->] & Hi). apply lookup_lt_Some in Hi.
      destruct (index_lt (l ++ [a]) (j + 1)) as [v ->]; [rewrite app_length; cbn; lia|]. eexists. reflexivity.
    + intros s. rewrite index_ge by (rewrite app_length; cbn; lia). reflexivity.
  - intros x. unfold trid10. destruct (decide (2 <= length x)) as [H|H]; [|rewrite rassert_no by exact H; reflexivity].
    rewrite rassert_yes by exact H. cbn [mbind outcome_bind]. destruct x as [|a x]; [cbn in H; lia|]. reflexivity.
Qed.
Lemma bind_panic {A B} (o : outcome A) (k : A -> outcome B) : o <> Diverge -> (forall a, k a = Panic) -> (a ← o; k a) = Panic.
Proof. intros Hd H. destruct o; cbn [mbind outcome_bind]; [apply H|reflexivity|congruence]. Qed.
Lemma bind_nodiv {A B} (o : outcome A) (k : A -> outcome B) : o <> Diverge -> (forall a, k a <> Diverge) -> (a ← o; k a) <> Diverge.
Proof. intros Hd H. destruct o; cbn [mbind outcome_bind]; [apply H|congruence|congruence]. Qed.
Lemma index_nodiv {A} (l : list A) i : index l i <> Diverge.
Proof. unfold index. destruct (l !! i); cbn; discriminate. Qed.
Lemma shekel_panics x m beta (c : list (list T)) : shekel x m beta c = Panic.
Proof.
  unfold shekel. destruct (decide (length x = 4)) as [Hx|Hx]; [rewrite (rassert_yes (length x = 4) Hx)|rewrite (rassert_no (length x = 4) Hx); reflexivity].
  cbn [mbind outcome_bind]. destruct c as [|c0 c]; [reflexivity|]. change (index (c0 :: c) 0) with (Ok c0). cbn [mbind outcome_bind].
  destruct (decide (length c0 = 4)) as [H0|H0]; [rewrite (rassert_yes (length c0 = 4) H0)|rewrite (rassert_no (length c0 = 4) H0); reflexivity]. cbn [mbind outcome_bind].
  destruct (decide (length (c0 :: c) = m)) as [Hm|Hm]; [rewrite (rassert_yes (length (c0 :: c) = m) Hm)|rewrite (rassert_no (length (c0 :: c) = m) Hm); reflexivity]. cbn [mbind outcome_bind].
  destruct (decide (length beta = m)) as [Hb|Hb]; [rewrite (rassert_yes (length beta = m) Hb)|rewrite (rassert_no (length beta = m) Hb); reflexivity]. cbn [mbind outcome_bind].
  destruct m as [|m]; [discriminate|]. change (seq 1 (S m)) with (1 :: seq 2 m). cbn [ofold].
  match goal with |- context [ofold ?g ?s (seq 1 4)] => assert (E : ofold g s (seq 1 4) = Panic) end; [|rewrite E; reflexivity].
  change (seq 1 4) with ([1; 2; 3] ++ [4]). generalize (# 0)%num. intros s. 
  cbn [app ofold]. destruct x as [|x0 [|x1 [|x2 [|x3 [|]]]]]; try discriminate Hx. 
  do 3 (apply bind_panic; [do 3 (apply bind_nodiv; [apply index_nodiv|intros ?]); discriminate|intros ?]). reflexivity.
Qed.
Lemma rana_panics x : x <> [] -> rana x = Panic.
Proof.
  intros H. unfold rana. destruct (exists_last H) as (l & a & ->). rewrite imap_app. cbn [imap]. apply ofold_panic.
  - intros s [i b] Hi. apply elem_of_lookup_imap in Hi as (j & y & [= -> ->] & Hi). apply lookup_lt_Some in Hi.
    destruct (index_lt (l ++ [a]) (j + 1)) as [v ->]; [rewrite app_length; cbn; lia|]. eexists. reflexivity.
  - intros s. rewrite index_ge by (rewrite app_length; cbn; lia). reflexivity.
Qed.
Lemma pinter_panics x : x <> [] -> pinter x = Panic.
Proof. destruct x as [|a x]; [congruence|]. reflexivity. Qed.
End Shapes.
