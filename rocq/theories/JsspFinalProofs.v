(** * The job shop program: fuel, the meaning of solution strings, and the link from the arguments to the run *)
From Verif Require Export JsspProgramProofs JsspLimitProofs.
Open Scope nat_scope.

(** ** More fuel does not change the result of the program *)
Lemma ld_map {A B} (f g : A -> outcome B) l : (forall x, f x ⊏ g x) -> omapM f l ⊏ omapM g l.
Proof. intros H. induction l as [|x l IH]; cbn [omapM]; [apply ld_refl|]. apply ld_bind; [apply H|]. intros y. apply ld_bind; [exact IH|]. intros ys. apply ld_refl. Qed.
Lemma eval_pop_mono k k' dc pop : k <= k' -> jssp_eval_pop k dc pop ⊏ jssp_eval_pop k' dc pop.
Proof. intros H. apply ld_map. intros x. destruct (j_valid x); [apply ld_refl|]. apply ld_bind; [apply evaluate_mono, H|]. intros [y m]. apply ld_refl. Qed.
Section Mono.
Context {W : Type} (pr : probe jssp_event W) (o : operators) (k k' : nat) (dc : f64) (size : nat) (Hk : k <= k').
Lemma generation_mono g pop best r w : main_generation pr o k dc size g pop best r w ⊏ main_generation pr o k' dc size g pop best r w.
Proof.
  unfold main_generation. apply ld_bind_same. intros w1. apply ld_bind; [apply eval_pop_mono, Hk|]. intros pop1. apply ld_bind_same. intros [chosen r1]. apply ld_bind_same. intros pool. apply ld_bind_same. intros [children r2].
  apply ld_bind_same. intros [pop2 r3]. apply ld_bind_same. intros u. apply ld_bind; [apply eval_pop_mono, Hk|]. intros pop3. apply ld_refl.
Qed.
Lemma generations_mono expired gens : forall g pop best r w, main_generations pr o k dc size expired gens g pop best r w ⊏ main_generations pr o k' dc size expired gens g pop best r w.
Proof. induction gens as [|gens IH]; intros g pop best r w; cbn [main_generations]; [apply ld_refl|]. apply ld_bind; [apply generation_mono|]. intros [[[pop1 best1] r1] w1]. destruct (expired (S g)); [apply ld_refl|apply IH]. Qed.
Lemma main_run_mono gen_pop expired gens r w : main_run pr o k dc size gen_pop expired gens r w ⊏ main_run pr o k' dc size gen_pop expired gens r w.
Proof.
  unfold main_run. apply ld_bind_same. intros w1. apply ld_bind_same. intros [pop r1]. apply ld_bind; [apply eval_pop_mono, Hk|]. intros pop1. apply ld_bind_same. intros w2. apply ld_bind_same. intros best. apply ld_bind_same. intros w3.
  apply ld_bind; [apply generations_mono|]. intros [[[g pop2] best2] w4]. apply ld_refl.
Qed.
End Mono.
Lemma program_mono k k' is_file read_config read_instance a expired r : k <= k' -> program k is_file read_config read_instance a expired r ⊏ program k' is_file read_config read_instance a expired r.
Proof.
  intros H. unfold program. apply ld_bind_same. intros _. destruct (config_of_args read_config a) as [c|]; [|apply ld_refl]. apply ld_bind_same. intros file. apply ld_bind_same. intros inst. unfold run_instance. cbv zeta.
  apply ld_bind_same. intros p. apply ld_bind_same. intros _. apply ld_bind_same. intros _. apply ld_bind; [apply main_run_mono, H|]. intros [b log]. apply ld_refl.
Qed.
Lemma program_at k is_file read_config read_instance a expired r log : program k is_file read_config read_instance a expired r = Ok log -> ends_with (fun fuel => program fuel is_file read_config read_instance a expired r) log.
Proof. intros E. exists k. intros fuel Hf. destruct (program_mono k fuel is_file read_config read_instance a expired r Hf) as [H|H]; [rewrite E in H; discriminate|]. rewrite <- H. exact E. Qed.
Lemma ends_unique {A} (run : nat -> outcome A) a b : ends_with run a -> ends_with run b -> a = b.
Proof. intros [k H] [k' H']. specialize (H (k + k') ltac:(lia)). specialize (H' (k + k') ltac:(lia)). congruence. Qed.
Lemma ends_not_fails {A} (run : nat -> outcome A) a : ends_with run a -> ~ fails run.
Proof. intros [k H] [k' H']. specialize (H (k + k') ltac:(lia)). specialize (H' (k + k') ltac:(lia)). congruence. Qed.

(** ** The schedule that a solution string tells is unique *)
Section Unique.
Context (jobs : shop) (s : list nat) (Ps : s ≡ₚ seq 1 (n_tasks jobs)).
Lemma before_split a b j k j' k' m' d' : s = a ++ op_number jobs j k :: b -> task jobs j' k' m' d' -> precedes s (op_number jobs j' k') (op_number jobs j k) -> op_number jobs j' k' ∈ a.
Proof.
  intros E T' (a1 & a2 & a3 & E'). pose proof (string_nodup jobs s Ps) as Nd. rewrite E in Nd, E'.
  assert (Hpos : length a = length (a1 ++ op_number jobs j' k' :: a2)).
  { apply (NoDup_lookup (a ++ op_number jobs j k :: b) _ _ (op_number jobs j k) Nd); [rewrite lookup_app_r by lia; rewrite Nat.sub_diag; reflexivity|]. rewrite E'. change (op_number jobs j' k' :: a2 ++ op_number jobs j k :: a3) with ((op_number jobs j' k' :: a2) ++ op_number jobs j k :: a3). rewrite app_assoc. rewrite lookup_app_r by lia. rewrite Nat.sub_diag. reflexivity. }
  change (op_number jobs j' k' :: a2 ++ op_number jobs j k :: a3) with ((op_number jobs j' k' :: a2) ++ op_number jobs j k :: a3) in E'. rewrite app_assoc in E'. apply app_inj_1 in E' as [-> _]; [|exact Hpos]. apply elem_of_app. right. left.
Qed.
Context (start start' : nat -> nat -> N).
Context (Ord : forall j k m d m' d', task jobs j k m d -> task jobs j (S k) m' d' -> precedes s (op_number jobs j k) (op_number jobs j (S k))).
Context (R : forall j k m d, task jobs j k m d -> ready_at jobs start s j k (start j k)) (R' : forall j k m d, task jobs j k m d -> ready_at jobs start' s j k (start' j k)).
Lemma replay_unique : forall j k m d, task jobs j k m d -> start' j k = start j k.
Proof.
  assert (Main : forall a b, s = a ++ b -> forall j k m d, task jobs j k m d -> op_number jobs j k ∈ a -> start' j k = start j k).
  { intros a. induction a as [|i a IH] using rev_ind; intros b E j k m d T Hin; [apply elem_of_nil in Hin; tauto|]. rewrite <- app_assoc in E. apply elem_of_app in Hin as [Hin|Hin]; [exact (IH _ E j k m d T Hin)|]. apply elem_of_list_singleton in Hin as <-. cbn [app] in E.
    pose proof (R j k m d T) as [A1 A2]. pose proof (R' j k m d T) as [B1 B2].
    assert (Same : forall j' k' m' d', task jobs j' k' m' d' -> ((j' = j /\ S k' = k) \/ exists m d d', task jobs j k m d /\ task jobs j' k' m d' /\ precedes s (op_number jobs j' k') (op_number jobs j k)) -> start' j' k' = start j' k').
    { intros j' k' m' d' T' Hw. apply (IH _ E j' k' m' d' T'). eapply before_split; [exact E|exact T'|]. destruct Hw as [[-> <-]|(m1 & d1 & d2 & _ & _ & Hp)]; [exact (Ord _ _ _ _ _ _ T' T)|exact Hp]. }
    apply N.le_antisymm.
    - destruct B2 as [->|(j' & k' & m' & d' & T' & Hw & ->)]; [lia|]. rewrite (Same j' k' m' d' T' Hw). exact (A1 j' k' m' d' T' Hw).
    - destruct A2 as [->|(j' & k' & m' & d' & T' & Hw & ->)]; [lia|]. rewrite <- (Same j' k' m' d' T' Hw). exact (B1 j' k' m' d' T' Hw). }
  intros j k m d T. apply (Main s [] ltac:(rewrite app_nil_r; reflexivity) j k m d T). exact (string_in jobs s Ps _ _ _ _ T).
Qed.
End Unique.

(** ** From the arguments to the run *)
Section Program.
Context (is_file : path -> bool) (read_config : path -> option partial_config) (read_instance : path -> option (list (list N))) (a : cli_args) (c : config) (nm : nat) (jobs : shop) (p : provider).
Context (Va : validate_args is_file a = true) (Ec : config_of_args read_config a = inl c) (Ei : read_instance (cfg_input c) = Some (file_of nm jobs)) (Lp : load nm jobs = Ok p).
Notation run expired r := (fun fuel => program fuel is_file read_config read_instance a expired r).
Lemma size_eq : main_size c (list_sum (map length (parsed 0 jobs))) = population_size jobs c.
Proof. rewrite parsed_lengths. unfold main_size, population_size, n_tasks. destruct (cfg_pop_size c); cbn; lia. Qed.
Lemma gens_eq : main_gens c = generation_limit c. Proof. unfold main_gens, generation_limit. destruct (cfg_n_gen c); reflexivity. Qed.
Lemma program_eq fuel expired r : program fuel is_file read_config read_instance a expired r =
  (_ ← rassert (bool_decide (0 < generation_limit c)); _ ← rassert (bool_decide (0 < population_size jobs c));
   '(_, log) ← main_run jssp_probe (if cfg_random c then random_operators p else solver_operators p (population_size jobs c)) fuel main_delay (population_size jobs c) (generate_jssp p) expired (generation_limit c) r empty_log; Ok log).
Proof.
  unfold program. rewrite Va. cbn [rassert mbind outcome_bind]. rewrite Ec, Ei. cbn [unwrap mbind outcome_bind]. pose proof Lp as L. unfold load in L. rewrite parse_instance_spec in *. cbn [mbind outcome_bind] in *. unfold run_instance. cbv zeta. rewrite L. cbn [mbind outcome_bind snd].
  rewrite size_eq, gens_eq. reflexivity.
Qed.
Lemma program_ends expired r best log : 0 < generation_limit c -> 0 < population_size jobs c ->
  ends_with (fun fuel => main_run jssp_probe (if cfg_random c then random_operators p else solver_operators p (population_size jobs c)) fuel main_delay (population_size jobs c) (generate_jssp p) expired (generation_limit c) r empty_log) (best, log) ->
  ends_with (run expired r) log.
Proof. intros Hg Hs [k H]. exists k. intros fuel Hf. rewrite program_eq, (bool_decide_eq_true_2 _ Hg), (bool_decide_eq_true_2 _ Hs). cbn [rassert mbind outcome_bind]. rewrite (H fuel Hf). reflexivity. Qed.
Lemma program_fails expired r :
  (0 < generation_limit c -> 0 < population_size jobs c -> fails (fun fuel => main_run jssp_probe (if cfg_random c then random_operators p else solver_operators p (population_size jobs c)) fuel main_delay (population_size jobs c) (generate_jssp p) expired (generation_limit c) r empty_log)) ->
  fails (run expired r).
Proof.
  intros H. destruct (decide (0 < generation_limit c)) as [Hg|Hg]; [|exists 0; intros fuel _; rewrite program_eq, (bool_decide_eq_false_2 _ Hg); reflexivity].
  destruct (decide (0 < population_size jobs c)) as [Hs|Hs]; [|exists 0; intros fuel _; rewrite program_eq, (bool_decide_eq_true_2 _ Hg), (bool_decide_eq_false_2 _ Hs); reflexivity].
  destruct (H Hg Hs) as [k Hk]. exists k. intros fuel Hf. rewrite program_eq, (bool_decide_eq_true_2 _ Hg), (bool_decide_eq_true_2 _ Hs). cbn [rassert mbind outcome_bind]. rewrite (Hk fuel Hf). reflexivity.
Qed.
Context (V : valid_shop nm jobs) (Std : standard_shop jobs).
Lemma solver_log expired r : cfg_random c = false -> population_size jobs c <= 2 ^ 50 -> 0 < generation_limit c -> 6 <= population_size jobs c -> Nat.even (population_size jobs c) = true ->
  exists pops log, ends_with (run expired r) log /\ history jobs p (population_size jobs c) (generation_limit c) expired next_generation pops /\ chronicle jobs pops log.
Proof.
  intros Er Hb Hg H6 Ev. destruct (run_log nm jobs V Std p Lp (solver_operators p (population_size jobs c)) (population_size jobs c) next_generation ltac:(lia)
    ltac:(intros pop r0 L G; exact (solver_step nm jobs V Std p Lp (population_size jobs c) pop r0 H6 Ev Hb L G)) expired (generation_limit c) r Hg) as (pops & best & log & E & H & C).
  exists pops, log. split; [|split; assumption]. apply (program_ends expired r best log Hg ltac:(lia)). rewrite Er. exact E.
Qed.
Lemma solver_fails expired r : cfg_random c = false -> generation_limit c = 0 \/ population_size jobs c < 6 \/ Nat.even (population_size jobs c) = false -> fails (run expired r).
Proof.
  intros Er Bad. apply program_fails. intros Hg Hs. rewrite Er. assert (Bad' : Nat.even (population_size jobs c) = false \/ population_size jobs c < 6) by (destruct Bad as [Bad|[Bad|Bad]]; [lia|right; exact Bad|left; exact Bad]).
  apply (run_fails nm jobs V Std p Lp _ _ expired _ r Hs Hg). intros pop r0 L G. exact (solver_panics nm jobs V Std p Lp _ pop r0 Hs Bad' L G).
Qed.
Lemma random_log expired r : cfg_random c = true -> 0 < generation_limit c -> 0 < population_size jobs c ->
  exists pops log, ends_with (run expired r) log /\ history jobs p (population_size jobs c) (generation_limit c) expired (fun _ _ => True) pops /\ chronicle jobs pops log.
Proof.
  intros Er Hg Hs. destruct (run_log nm jobs V Std p Lp (random_operators p) (population_size jobs c) (fun _ _ => True) Hs
    ltac:(intros pop r0 L _; destruct (random_step nm jobs V p Lp (population_size jobs c) pop r0 L) as (pop2 & r' & E & L2 & F & _); exists pop2, r'; auto) expired (generation_limit c) r Hg) as (pops & best & log & E & H & C).
  exists pops, log. split; [|split; assumption]. apply (program_ends expired r best log Hg Hs). rewrite Er. exact E.
Qed.
End Program.

(** ** The best of a generation stays *)
Lemma elite_keeps pop pop' m m' : next_generation pop pop' -> 10 <= length pop -> lowest pop m -> lowest pop' m' -> (m' <= m)%N.
Proof.
  intros (elite & rest & children & samples & -> & _ & Pp & Le & Hb & _) H10 [(x & Hx & <-) _] [_ M']. assert (Hl : 1 <= length elite) by (rewrite Le; apply Nat.div_le_lower_bound; lia).
  destruct elite as [|e elite]; [cbn in Hl; lia|]. rewrite Pp in Hx. apply elem_of_app in Hx as [Hx|Hx]; [apply M', elem_of_app; left; exact Hx|]. etransitivity; [apply M'; left|]. apply Hb; [left|exact Hx].
Qed.
Lemma lowest_exists pop : pop <> [] -> exists m, lowest pop m.
Proof. destruct pop as [|x l]; [congruence|]. intros _. exists (j_fitness (best_from x l)). apply first_best_lowest, best_from_first. Qed.
