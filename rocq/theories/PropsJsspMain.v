(** * Property theorems: the job shop program (C94 - C97) *)
From Verif Require Import PropsJssp JsspFinalProofs JsspLimitProofs JsspMainModel JsspSpec JsspMainSpec.
Open Scope nat_scope.

(** A call of the program for the examples: the example shop, a population of six, two generations; the genes of the first individual are the example genes *)
Definition example_args : cli_args := Args (Some "shop"%string) (Some "out"%string) (Some 2) None None (Some "config"%string) None.
Definition example_file : partial_config := Partial None (Some "other"%string) (Some 7) (Some 6) None (Some false).
Definition example_config : config := Config "shop"%string "out"%string (Some 2) (Some 6) None false.
Definition example_reader : path -> option partial_config := fun _ => Some example_file.
Definition example_instance : path -> option (list (list N)) := fun _ => Some (file_of 3 example_shop).
Definition example_draws : rng := rng_of (map (fun k => (k * 2 ^ 48)%N) [7; 3; 5; 11; 14; 14; 5; 2; 4; 10; 12; 5; 13; 15; 4; 15; 12; 1]%N).
Notation example_program := (fun fuel : nat => program fuel (fun _ => true) example_reader example_instance example_args (fun _ => false) example_draws).
Definition example_log : jssp_log := Eval vm_compute in match example_program 100 with Ok l => l | _ => empty_log end.
Lemma validate_spec is_file a : validate_args is_file a = true <-> files_exist is_file a.
Proof.
  unfold validate_args, files_exist. rewrite andb_true_iff. split.
  - intros [H1 H2] f [H|H]; [rewrite H in H1; exact H1|rewrite H in H2; exact H2].
  - intros H. split; [destruct (arg_input a); [apply H; left; reflexivity|reflexivity]|destruct (arg_cfg_file a); [apply H; right; reflexivity|reflexivity]].
Qed.
Lemma example_called : called (fun _ => true) example_reader example_instance example_args example_config 3 example_shop.
Proof. repeat split. Qed.
Lemma example_ends : ends_with example_program example_log.
Proof.
  assert (E : program 100 (fun _ => true) example_reader example_instance example_args (fun _ => false) example_draws = Ok example_log) by (vm_compute; reflexivity).
  exact (program_at 100 (fun _ => true) example_reader example_instance example_args (fun _ => false) example_draws example_log E).
Qed.

(** ** C94: when the program works *)
(** The solver ends if the population has an even size of at least six and there is at least one generation, and panics otherwise *)
Theorem C94_solver_runs :
  forall is_file read_config read_instance a c nm jobs expired r,
  called is_file read_config read_instance a c nm jobs -> valid_shop nm jobs -> standard_shop jobs -> cfg_random c = false -> population_size jobs c <= 2 ^ 50 ->
  let run fuel := program fuel is_file read_config read_instance a expired r in
  (0 < generation_limit c /\ 6 <= population_size jobs c /\ Nat.Even (population_size jobs c) <-> exists log, ends_with run log) /\
  (~ (0 < generation_limit c /\ 6 <= population_size jobs c /\ Nat.Even (population_size jobs c)) <-> fails run).
Proof.
  intros is_file read_config read_instance a c nm jobs expired r (Va%validate_spec & Ec & Ei) V Std Er Hb run. pose proof (load_spec nm jobs ltac:(apply V)) as Lp. set (p := Provider nm (shop_ops jobs)) in *.
  assert (Good : 0 < generation_limit c /\ 6 <= population_size jobs c /\ Nat.Even (population_size jobs c) -> exists log, ends_with run log).
  { intros (Hg & H6 & Ev). apply Nat.even_spec in Ev. destruct (solver_log is_file read_config read_instance a c nm jobs p Va Ec Ei Lp V Std expired r Er Hb Hg H6 Ev) as (pops & log & E & _). exists log. exact E. }
  assert (Bad : ~ (0 < generation_limit c /\ 6 <= population_size jobs c /\ Nat.Even (population_size jobs c)) -> fails run).
  { intros B. apply (solver_fails is_file read_config read_instance a c nm jobs p Va Ec Ei Lp V Std expired r Er). destruct (Nat.even (population_size jobs c)) eqn:Ev; [|auto]. apply Nat.even_spec in Ev. destruct (decide (0 < generation_limit c)), (decide (6 <= population_size jobs c)); [tauto|right; left; lia|left; lia|left; lia]. }
  assert (D : (0 < generation_limit c /\ 6 <= population_size jobs c /\ Nat.Even (population_size jobs c)) \/ ~ (0 < generation_limit c /\ 6 <= population_size jobs c /\ Nat.Even (population_size jobs c))). { rewrite <- Nat.even_spec. destruct (decide (0 < generation_limit c)), (decide (6 <= population_size jobs c)), (Nat.even (population_size jobs c)) eqn:Ev; try (left; tauto); right; intros (? & ? & ?); congruence. }
  destruct D as [D|D].
  - split; split; [exact Good|intros _; exact D|exact Bad|]. intros F. destruct (Good D) as [log E]. destruct (ends_not_fails run log E F).
  - split; split; [exact Good| |exact Bad|intros _; exact D]. intros [log E]. destruct (ends_not_fails run log E (Bad D)).
Qed.
Print Assumptions C94_solver_runs.
(** With the defaults, the solver ends exactly for the shops of at least three operations *)
Theorem C94_solver_defaults :
  forall is_file read_config read_instance a c nm jobs expired r,
  called is_file read_config read_instance a c nm jobs -> valid_shop nm jobs -> standard_shop jobs -> cfg_random c = false -> cfg_pop_size c = None -> cfg_n_gen c = None -> 2 * n_tasks jobs <= 2 ^ 50 ->
  let run fuel := program fuel is_file read_config read_instance a expired r in
  (3 <= n_tasks jobs <-> exists log, ends_with run log) /\ (n_tasks jobs < 3 <-> fails run).
Proof.
  intros is_file read_config read_instance a c nm jobs expired r C V Std Er Es Eg Hb run.
  assert (Hs : population_size jobs c = 2 * n_tasks jobs) by (unfold population_size; rewrite Es; reflexivity). assert (Hg : generation_limit c = 400) by (unfold generation_limit; rewrite Eg; reflexivity).
  assert (Hb' : population_size jobs c <= 2 ^ 50) by (rewrite Hs; exact Hb). clear Hb.
  destruct (C94_solver_runs is_file read_config read_instance a c nm jobs expired r C V Std Er Hb') as [A B]. fold run in A, B. clear Hb'. rewrite Hs, Hg in A, B. assert (Ev : Nat.Even (2 * n_tasks jobs)) by (exists (n_tasks jobs); reflexivity).
  split; [rewrite <- A|rewrite <- B]; split.
  - intros H. split; [lia|]. split; [lia|exact Ev].
  - intros (_ & H & _). lia.
  - intros H (_ & H' & _). lia.
  - intros H. destruct (decide (n_tasks jobs < 3)); [assumption|]. exfalso. apply H. split; [lia|]. split; [lia|exact Ev].
Qed.
Print Assumptions C94_solver_defaults.
(** The random search ends for every size but zero *)
Theorem C94_random_search_runs :
  forall is_file read_config read_instance a c nm jobs expired r,
  called is_file read_config read_instance a c nm jobs -> valid_shop nm jobs -> standard_shop jobs -> cfg_random c = true ->
  let run fuel := program fuel is_file read_config read_instance a expired r in
  (0 < generation_limit c /\ 0 < population_size jobs c -> exists log, ends_with run log) /\ (generation_limit c = 0 \/ population_size jobs c = 0 -> fails run).
Proof.
  intros is_file read_config read_instance a c nm jobs expired r (Va%validate_spec & Ec & Ei) V Std Er run. pose proof (load_spec nm jobs ltac:(apply V)) as Lp. set (p := Provider nm (shop_ops jobs)) in *. split.
  - intros [Hg Hs]. destruct (random_log is_file read_config read_instance a c nm jobs p Va Ec Ei Lp V Std expired r Er Hg Hs) as (pops & log & E & _). exists log. exact E.
  - intros B. apply (program_fails is_file read_config read_instance a c nm jobs p Va Ec Ei Lp expired r). lia.
Qed.
Print Assumptions C94_random_search_runs.
(** Arguments that name a missing file, an incomplete configuration or an unreadable file: the program panics *)
Theorem C94_bad_call :
  forall is_file read_config read_instance a expired r fuel,
  (exists f, (arg_input a = Some f \/ arg_cfg_file a = Some f) /\ is_file f = false) \/ (exists e, config_of_args read_config a = inr e) \/ (exists c, config_of_args read_config a = inl c /\ read_instance (cfg_input c) = None) ->
  program fuel is_file read_config read_instance a expired r = Panic.
Proof.
  intros is_file read_config read_instance a expired r fuel H. unfold program. destruct (validate_args is_file a) eqn:Va; [|reflexivity]. apply validate_spec in Va. destruct H as [(f & Hf & H)|[[e H]|(c & H & H')]]; [rewrite (Va f Hf) in H; discriminate| |]; cbn [rassert mbind outcome_bind]; rewrite H; [reflexivity|]. rewrite H'. reflexivity.
Qed.
Print Assumptions C94_bad_call.
Lemma config_eq read_config a : config_of_args read_config a =
  match (match arg_cfg_file a with Some f => read_config f | None => Some empty_config end) with
  | None => inr BadConfigFile
  | Some f => complete_config (Partial (chosen (arg_input a) (pc_input f)) (chosen (arg_output a) (pc_output f)) (chosen (arg_n_gen a) (pc_n_gen f)) (chosen (arg_pop_size a) (pc_pop_size f))
                                       (chosen (arg_delay a) (pc_delay f)) (chosen (arg_random a) (pc_random f)))
  end.
Proof.
  unfold config_of_args. destruct (match arg_cfg_file a with Some f => read_config f | None => Some empty_config end) as [[fi fo fg fp fd fr]|]; [|reflexivity]. cbv zeta. f_equal.
  transitivity (Partial (chosen (arg_input a) fi) (chosen (arg_output a) fo) (chosen (arg_n_gen a) fg) (chosen (arg_pop_size a) fp) (chosen (arg_delay a) fd) (chosen (arg_random a) fr)); [|reflexivity].
  assert (H1 : match arg_input a with Some x => Partial (Some x) fo fg fp fd fr | None => Partial fi fo fg fp fd fr end = Partial (chosen (arg_input a) fi) fo fg fp fd fr) by (destruct (arg_input a); reflexivity). cbn [pc_input pc_output pc_n_gen pc_pop_size pc_delay pc_random]. rewrite H1. clear H1. set (xi := chosen (arg_input a) fi).
  assert (H1 : match arg_output a with Some x => Partial xi (Some x) fg fp fd fr | None => Partial xi fo fg fp fd fr end = Partial xi (chosen (arg_output a) fo) fg fp fd fr) by (destruct (arg_output a); reflexivity). cbn [pc_input pc_output pc_n_gen pc_pop_size pc_delay pc_random]. rewrite H1. clear H1. set (xo := chosen (arg_output a) fo).
  assert (H1 : match arg_n_gen a with Some x => Partial xi xo (Some x) fp fd fr | None => Partial xi xo fg fp fd fr end = Partial xi xo (chosen (arg_n_gen a) fg) fp fd fr) by (destruct (arg_n_gen a); reflexivity). cbn [pc_input pc_output pc_n_gen pc_pop_size pc_delay pc_random]. rewrite H1. clear H1. set (xg := chosen (arg_n_gen a) fg).
  assert (H1 : match arg_pop_size a with Some x => Partial xi xo xg (Some x) fd fr | None => Partial xi xo xg fp fd fr end = Partial xi xo xg (chosen (arg_pop_size a) fp) fd fr) by (destruct (arg_pop_size a); reflexivity). cbn [pc_input pc_output pc_n_gen pc_pop_size pc_delay pc_random]. rewrite H1. clear H1. set (xp := chosen (arg_pop_size a) fp).
  assert (H1 : match arg_delay a with Some x => Partial xi xo xg xp (Some x) fr | None => Partial xi xo xg xp fd fr end = Partial xi xo xg xp (chosen (arg_delay a) fd) fr) by (destruct (arg_delay a); reflexivity). cbn [pc_input pc_output pc_n_gen pc_pop_size pc_delay pc_random]. rewrite H1. clear H1. set (xd := chosen (arg_delay a) fd).
  destruct (arg_random a); reflexivity.
Qed.
Lemma config_other_delay read_config a d d' : exists d2, config_of_args (fun f => file_with_delay d' <$> read_config f) (args_with_delay d a) =
  match config_of_args read_config a with inl c => inl (Config (cfg_input c) (cfg_output c) (cfg_n_gen c) (cfg_pop_size c) d2 (cfg_random c)) | inr e => inr e end.
Proof.
  rewrite !config_eq. destruct a as [ai ao ag ap ad af ar]. cbn [arg_cfg_file args_with_delay arg_input arg_output arg_n_gen arg_pop_size arg_delay arg_random].
  destruct af as [f|]; [destruct (read_config f) as [[fi fo fg fp fd fr]|]; [exists (chosen d d')|exists None; reflexivity]|exists (chosen d None)]; unfold complete_config;
    cbn [fmap option_fmap option_map file_with_delay empty_config pc_input pc_output pc_n_gen pc_pop_size pc_delay pc_random]; destruct (chosen ai _); try reflexivity; destruct (chosen ao _); reflexivity.
Qed.
(** The delay factor of the arguments and of the configuration file has no effect *)
Theorem C94_delay_factor_is_ignored :
  forall is_file read_config read_instance a expired r fuel d d',
  program fuel is_file (fun f => file_with_delay d' <$> read_config f) read_instance (args_with_delay d a) expired r = program fuel is_file read_config read_instance a expired r.
Proof.
  intros is_file read_config read_instance a expired r fuel d d'. unfold program. change (validate_args is_file (args_with_delay d a)) with (validate_args is_file a). destruct (validate_args is_file a); [|reflexivity]. cbn [rassert mbind outcome_bind].
  destruct (config_other_delay read_config a d d') as [d2 ->]. destruct (config_of_args read_config a) as [[ci co cg cp cd cr]|e]; reflexivity.
Qed.
Print Assumptions C94_delay_factor_is_ignored.
(** Each selected individual is the worse one of two individuals drawn at random: the fitness is minimised, but the selection operator prefers large values *)
Theorem C94_selection_prefers_the_worse :
  forall count pop (r : rng), pop <> [] ->
  exists chosen r', jssp_rank count pop r = Ok (chosen, r') /\ length chosen = count /\
  forall i w, chosen !! i = Some w ->
  let a := N.to_nat (r (2 * i) mod N.of_nat (length pop)) in let b := N.to_nat (r (2 * i + 1) mod N.of_nat (length pop)) in
  (w = a \/ w = b) /\ exists x y z, pop !! a = Some x /\ pop !! b = Some y /\ pop !! w = Some z /\ (j_fitness x <= j_fitness z)%N /\ (j_fitness y <= j_fitness z)%N.
Proof.
  intros count pop. unfold jssp_rank. induction count as [|count IH]; intros r Ne; [exists [], r; split; [reflexivity|]; split; [reflexivity|]; intros i w H; discriminate|]. destruct (rank_spin pop r Ne) as (a & b & x & y & E & Ea & Eb & Hx & Hy).
  destruct (IH (rng_tail (rng_tail r)) Ne) as (chosen & r' & E' & L & F). exists ((if (j_fitness y <=? j_fitness x)%N then a else b) :: chosen), r'. cbn [repeatO]. rewrite E. cbn [mbind outcome_bind]. rewrite E'. split; [reflexivity|]. split; [cbn; lia|].
  assert (Hl : 0 < length pop) by (destruct pop; [congruence|cbn; lia]). unfold gen_range in Ea, Eb. rewrite decide_True in Ea, Eb by exact Hl. rewrite Nat.sub_0_r in Ea, Eb. injection Ea as Ea. injection Eb as Eb. cbn [rng_tail Nat.add] in Eb.
  intros [|i] w Hw.
  - cbn [lookup list_lookup] in Hw. change (2 * 0) with 0. change (0 + 1) with 1. cbv zeta. cbn in Ea. rewrite Ea. unfold rng_tail in Eb. rewrite Eb. injection Hw as <-. split; [destruct (_ <=? _)%N; auto|]. destruct (N.leb_spec (j_fitness y) (j_fitness x)); [exists x, y, x|exists x, y, y]; repeat split; try assumption; lia.
  - specialize (F i w Hw). cbv zeta in *. replace (2 * S i) with (S (S (2 * i))) by lia. exact F.
Qed.
Print Assumptions C94_selection_prefers_the_worse.
Example C94_nonvacuous : called (fun _ => true) example_reader example_instance example_args example_config 3 example_shop /\ valid_shop 3 example_shop /\ standard_shop example_shop /\
  cfg_random example_config = false /\ population_size example_shop example_config = 6 /\ generation_limit example_config = 2 /\ n_tasks example_shop = 9 /\ ends_with example_program example_log.
Proof. exact (conj example_called (conj example_valid (conj example_standard (conj eq_refl (conj eq_refl (conj eq_refl (conj eq_refl example_ends))))))). Qed.

(** ** C95: the log *)
(** The log of the solver is the chronicle of its populations *)
Theorem C95_solver_log :
  forall is_file read_config read_instance a c nm jobs p expired r log,
  called is_file read_config read_instance a c nm jobs -> valid_shop nm jobs -> standard_shop jobs -> load nm jobs = Ok p -> cfg_random c = false -> population_size jobs c <= 2 ^ 50 ->
  ends_with (fun fuel => program fuel is_file read_config read_instance a expired r) log ->
  exists pops, history jobs p (population_size jobs c) (generation_limit c) expired next_generation pops /\ chronicle jobs pops log.
Proof.
  intros is_file read_config read_instance a c nm jobs p expired r log C V Std Lp Er Hb E. destruct (C94_solver_runs is_file read_config read_instance a c nm jobs expired r C V Std Er Hb) as [[_ G] _]. destruct (G ltac:(eauto)) as (Hg & H6 & Ev).
  destruct C as (Va%validate_spec & Ec & Ei). apply Nat.even_spec in Ev. destruct (solver_log is_file read_config read_instance a c nm jobs p Va Ec Ei Lp V Std expired r Er Hb Hg H6 Ev) as (pops & log' & E' & H & Ch).
  rewrite (ends_unique _ _ _ E E'). exists pops. split; assumption.
Qed.
Print Assumptions C95_solver_log.
(** So is that of the random search *)
Theorem C95_random_search_log :
  forall is_file read_config read_instance a c nm jobs p expired r log,
  called is_file read_config read_instance a c nm jobs -> valid_shop nm jobs -> standard_shop jobs -> load nm jobs = Ok p -> cfg_random c = true ->
  ends_with (fun fuel => program fuel is_file read_config read_instance a expired r) log ->
  exists pops, history jobs p (population_size jobs c) (generation_limit c) expired (fun _ _ => True) pops /\ chronicle jobs pops log.
Proof.
  intros is_file read_config read_instance a c nm jobs p expired r log C V Std Lp Er E. destruct (C94_random_search_runs is_file read_config read_instance a c nm jobs expired r C V Std Er) as [_ B].
  assert (Hgs : 0 < generation_limit c /\ 0 < population_size jobs c). { destruct (decide (generation_limit c = 0 \/ population_size jobs c = 0)) as [D|D]; [|lia]. destruct (ends_not_fails _ _ E (B D)). }
  destruct C as (Va%validate_spec & Ec & Ei). destruct Hgs as [Hg Hs]. destruct (random_log is_file read_config read_instance a c nm jobs p Va Ec Ei Lp V Std expired r Er Hg Hs) as (pops & log' & E' & H & Ch).
  rewrite (ends_unique _ _ _ E E'). exists pops. split; assumption.
Qed.
Print Assumptions C95_random_search_log.
(** With a population of at least ten, the best fitness of a generation never gets worse *)
Theorem C95_best_never_gets_worse :
  forall is_file read_config read_instance a c nm jobs expired r log,
  called is_file read_config read_instance a c nm jobs -> valid_shop nm jobs -> standard_shop jobs -> cfg_random c = false -> 10 <= population_size jobs c <= 2 ^ 50 ->
  ends_with (fun fuel => program fuel is_file read_config read_instance a expired r) log ->
  forall i g m g' m', log_bestingen log !! i = Some (g, m) -> log_bestingen log !! S i = Some (g', m') -> g' = S g /\ (m' <= m)%N.
Proof.
  intros is_file read_config read_instance a c nm jobs expired r log C V Std Er [H10 Hb] E i g m g' m' Hi Hi'. pose proof (load_spec nm jobs ltac:(apply V)) as Lp.
  destruct (C95_solver_log is_file read_config read_instance a c nm jobs _ expired r log C V Std Lp Er Hb E) as (pops & (_ & All & Next) & (_ & (Hl & Rows) & _)). clear Hb.
  assert (Hlen : S (S i) < length pops). { apply lookup_lt_Some in Hi'. lia. } destruct (lookup_lt_is_Some_2 pops (S i) ltac:(lia)) as [pop Hp]. destruct (lookup_lt_is_Some_2 pops (S (S i)) ltac:(lia)) as [pop' Hp'].
  destruct (All pop ltac:(eapply elem_of_list_lookup_2, Hp)) as [L _]. destruct (All pop' ltac:(eapply elem_of_list_lookup_2, Hp')) as [L' _].
  destruct (lowest_exists pop ltac:(intros ->; cbn in L; lia)) as [n Hn]. destruct (lowest_exists pop' ltac:(intros ->; cbn in L'; lia)) as [n' Hn'].
  pose proof (Rows _ _ _ Hp Hn) as A. pose proof (Rows _ _ _ Hp' Hn') as A'. rewrite Hi in A. rewrite Hi' in A'. injection A as -> ->. injection A' as -> ->. split; [reflexivity|].
  exact (elite_keeps pop pop' n n' (Next _ _ _ Hp Hp') ltac:(lia) Hn Hn').
Qed.
Print Assumptions C95_best_never_gets_worse.
(** The mean distance of a single individual is not a number *)
Theorem C95_mean_distance_of_one : forall x, mean_distance [x] = S754_nan.
Proof. intros x. reflexivity. Qed.
Print Assumptions C95_mean_distance_of_one.
Example C95_nonvacuous : called (fun _ => true) example_reader example_instance example_args example_config 3 example_shop /\ ends_with example_program example_log /\
  length (log_population example_log) = 3 /\ log_newbest example_log = [(0, 11%N)] /\ log_bestingen example_log = [(1, 11%N); (2, 11%N)].
Proof. exact (conj example_called (conj example_ends (conj eq_refl (conj eq_refl eq_refl)))). Qed.

(** ** C96: the solution string *)
(** It lists every operation once, by finish time in the recorded schedule; it is the only such list, and the schedule that it tells is the recorded one *)
Theorem C96_solution_string :
  forall nm jobs delay_const p genes x m, valid_shop nm jobs -> standard_shop jobs -> delay_ok delay_const -> load nm jobs = Ok p -> genes_for jobs genes -> evaluates delay_const (fresh p genes) x m ->
  exists s start, solution_string (j_ops x) = Ok s /\ records jobs x start /\ feasible jobs start /\ solution_of jobs x s /\ (forall s', solution_of jobs x s' -> s' = s) /\
  tells jobs s start /\ forall start', tells jobs s start' -> forall j k m d, task jobs j k m d -> start' j k = start j k.
Proof.
  intros nm jobs dc p genes x m V Std Hdc Lp G E. destruct (fresh_string nm jobs V dc Hdc Std p Lp genes x m G E) as (s & start & order & Es & Rs & Fe & Ear & Ps & Ss). exists s, start.
  assert (T : tells jobs s start) by (intros j k m1 d T; exact (replay jobs Std start s order Fe Ear Ps Ss j k m1 d T)).
  split; [exact Es|]. split; [exact Rs|]. split; [exact Fe|]. split; [exists start; split; [exact Rs|split; [exact Ps|exact Ss]]|]. split; [|split; [exact T|]].
  - intros s' (start' & Rs' & Ps' & Ss'). apply (same_string jobs start s s' Ps Ss Ps'). intros j k m1 d j' k' m1' d' T1 T2 Hp. pose proof (Rs _ _ _ _ T1) as A1. pose proof (Rs' _ _ _ _ T1) as B1. pose proof (Rs _ _ _ _ T2) as A2. pose proof (Rs' _ _ _ _ T2) as B2.
    assert (start j k = start' j k) as -> by congruence. assert (start j' k' = start' j' k') as -> by congruence. exact (Ss' _ _ _ _ _ _ _ _ T1 T2 Hp).
  - intros start' T' j k m1 d Tk. apply (replay_unique jobs s Ps start start') with (m := m1) (d := d); try assumption. intros j1 k1 m2 d2 m3 d3 T2 T3. apply (waits_precedes jobs Std start s Fe Ps Ss j1 (S k1) j1 k1 m3 d3 m2 d2 T3 T2). left. auto.
Qed.
Print Assumptions C96_solution_string.
(** Individuals with the same solution string record the same schedule *)
Theorem C96_string_determines_schedule :
  forall nm jobs delay_const p genes genes' x x' m m' s, valid_shop nm jobs -> standard_shop jobs -> delay_ok delay_const -> load nm jobs = Ok p -> genes_for jobs genes -> genes_for jobs genes' ->
  evaluates delay_const (fresh p genes) x m -> evaluates delay_const (fresh p genes') x' m' -> solution_string (j_ops x) = Ok s -> solution_string (j_ops x') = Ok s ->
  forall j k mach d, task jobs j k mach d -> recorded_start jobs x' j k = recorded_start jobs x j k.
Proof.
  intros nm jobs dc p genes genes' x x' m m' s V Std Hdc Lp G G' E E' Es Es' j k mach d T.
  destruct (C96_solution_string nm jobs dc p genes x m V Std Hdc Lp G E) as (s1 & start & Es1 & Rs & _ & _ & _ & _ & U). rewrite Es in Es1. injection Es1 as <-.
  destruct (C96_solution_string nm jobs dc p genes' x' m' V Std Hdc Lp G' E') as (s2 & start' & Es2 & Rs' & _ & _ & _ & T' & _). rewrite Es' in Es2. injection Es2 as <-.
  rewrite (Rs _ _ _ _ T), (Rs' _ _ _ _ T), (U start' T' _ _ _ _ T). reflexivity.
Qed.
Print Assumptions C96_string_determines_schedule.
(** The reported fitness may be smaller than the makespan of the schedule that the reported solution string tells *)
Theorem C96_reported_fitness_may_be_too_small :
  exists is_file read_config read_instance a c nm jobs expired r log out, called is_file read_config read_instance a c nm jobs /\ valid_shop nm jobs /\ standard_shop jobs /\
  ends_with (fun fuel => program fuel is_file read_config read_instance a expired r) log /\ log_output log = Some out /\
  (exists start, tells jobs (out_solution out) start /\ feasible jobs start) /\ forall start t, tells jobs (out_solution out) start -> has_makespan jobs start t -> (out_fitness out < t)%N.
Proof.
  exists (fun _ => true), example_reader, example_instance, example_args, example_config, 3, example_shop, (fun _ => false), example_draws, example_log, (Output [4; 5; 1; 6; 7; 2; 8; 9; 3] 11%N 2 example_genes).
  split; [exact example_called|]. split; [exact example_valid|]. split; [exact example_standard|]. split; [exact example_ends|]. split; [vm_compute; reflexivity|]. cbn [out_solution out_fitness].
  destruct (C96_solution_string 3 example_shop dc_example example_provider example_genes example_result.1 11%N example_valid example_standard dc_ok example_load example_genes_ok example_evaluates) as (s & start & Es & Rs & Fe & _ & _ & T & U).
  assert (Hs : s = [4; 5; 1; 6; 7; 2; 8; 9; 3]). { assert (Ok s = Ok [4; 5; 1; 6; 7; 2; 8; 9; 3]) as H by (rewrite <- Es; vm_compute; reflexivity). injection H as ->. reflexivity. } subst s. split; [exists start; split; assumption|].
  intros start' t T' [H _]. assert (Tk : task example_shop 0 2 2 2%N) by (eexists; split; reflexivity). specialize (H _ _ _ _ Tk). rewrite (U start' T' _ _ _ _ Tk) in H. specialize (Rs _ _ _ _ Tk). change (Some 14%N = Some (start 0 2)) in Rs. injection Rs as Rs. lia.
Qed.
Print Assumptions C96_reported_fitness_may_be_too_small.
Example C96_nonvacuous : valid_shop 3 example_shop /\ standard_shop example_shop /\ delay_ok dc_example /\ load 3 example_shop = Ok example_provider /\ genes_for example_shop example_genes /\
  evaluates dc_example (fresh example_provider example_genes) example_result.1 11%N /\ solution_string (j_ops example_result.1) = Ok [4; 5; 1; 6; 7; 2; 8; 9; 3].
Proof. split; [exact example_valid|]. split; [exact example_standard|]. split; [exact dc_ok|]. split; [exact example_load|]. split; [exact example_genes_ok|]. split; [exact example_evaluates|]. vm_compute. reflexivity. Qed.

(** ** C97: the configuration *)
(** The value of an argument wins over that of the configuration file; without both, there is no random search and the other values stay open *)
Theorem C97_arguments_before_file :
  forall read_config a f c, file_values read_config a f ->
  config_of_args read_config a = inl c <->
  Some (cfg_input c) = chosen (arg_input a) (pc_input f) /\ Some (cfg_output c) = chosen (arg_output a) (pc_output f) /\ cfg_n_gen c = chosen (arg_n_gen a) (pc_n_gen f) /\
  cfg_pop_size c = chosen (arg_pop_size a) (pc_pop_size f) /\ cfg_delay c = chosen (arg_delay a) (pc_delay f) /\ Some (cfg_random c) = chosen (chosen (arg_random a) (pc_random f)) (Some false).
Proof.
  intros read_config a f [ci co cg cp cd cr] F. rewrite config_eq. assert (Hm : match arg_cfg_file a with Some f => read_config f | None => Some empty_config end = Some f) by (unfold file_values in F; destruct (arg_cfg_file a); [exact F|subst f; reflexivity]).
  rewrite Hm. unfold complete_config. cbn [pc_input pc_output pc_n_gen pc_pop_size pc_delay pc_random cfg_input cfg_output cfg_n_gen cfg_pop_size cfg_delay cfg_random].
  destruct (chosen (arg_input a) (pc_input f)) as [i|]; [|split; [discriminate|intros (H & _); discriminate]]. destruct (chosen (arg_output a) (pc_output f)) as [o|]; [|split; [discriminate|intros (_ & H & _); discriminate]]. generalize (chosen (arg_random a) (pc_random f)). intros ro. split.
  - intros H. injection H as -> -> <- <- <- <-. destruct ro; auto 10.
  - intros (H1 & H2 & -> & -> & -> & H6). injection H1 as ->. injection H2 as ->. f_equal. f_equal. destruct ro; cbn in H6; congruence.
Qed.
Print Assumptions C97_arguments_before_file.
(** When there is no configuration, and why *)
Theorem C97_errors :
  forall read_config a e, config_of_args read_config a = inr e <->
  match e with
  | BadConfigFile => exists file, arg_cfg_file a = Some file /\ read_config file = None
  | NoInputFile => exists f, file_values read_config a f /\ chosen (arg_input a) (pc_input f) = None
  | NoOutputDir => exists f, file_values read_config a f /\ chosen (arg_input a) (pc_input f) <> None /\ chosen (arg_output a) (pc_output f) = None
  end.
Proof.
  intros read_config a e. rewrite config_eq. unfold file_values. destruct (match arg_cfg_file a with Some f => read_config f | None => Some empty_config end) as [f|] eqn:Ef.
  - assert (Hf : forall g, match arg_cfg_file a with None => g = Partial None None None None None None | Some file => read_config file = Some g end <-> g = f). { intros g. destruct (arg_cfg_file a); [rewrite Ef; split; congruence|]. injection Ef as <-. reflexivity. }
    assert (Hr : forall file, arg_cfg_file a = Some file -> read_config file <> None) by (intros file H; rewrite H in Ef; congruence).
    assert (Ex : forall P : partial_config -> Prop, (exists g, match arg_cfg_file a with None => g = Partial None None None None None None | Some file => read_config file = Some g end /\ P g) <-> P f).
    { intros P. split; [intros (g & Hg & HP); apply Hf in Hg as ->; exact HP|]. intros HP. eexists. split; [apply Hf; reflexivity|exact HP]. }
    unfold complete_config. cbn [pc_input pc_output]. destruct e; [rewrite Ex|rewrite Ex|]; destruct (chosen (arg_input a) (pc_input f)), (chosen (arg_output a) (pc_output f)); split; intros H; try discriminate H; try tauto; try reflexivity; try (destruct H as [H1 H2]; congruence); try (split; congruence); destruct H as (file & H & H'); destruct (Hr file H H').
  - destruct (arg_cfg_file a) as [file|]; [|discriminate]. destruct e; split; intros H; try discriminate H; try reflexivity; [destruct H as (f & Hf & _); congruence|destruct H as (f & Hf & _); congruence|]. exists file. auto.
Qed.
Print Assumptions C97_errors.
Example C97_nonvacuous : file_values example_reader example_args example_file /\ config_of_args example_reader example_args = inl example_config /\
  config_of_args (fun _ => None) example_args = inr BadConfigFile /\ config_of_args example_reader (Args None None None None None None None) = inr NoInputFile.
Proof. repeat split. Qed.
