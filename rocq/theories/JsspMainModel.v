(** * The job shop program: configuration, selection, probe and main (examples/jssp)

    One stream of draws serves all operators, in the order in which they draw.  Durations, log formatting, the md5 hash and the logging setup are left
    out; log rows and the final record are kept as values. *)
From Coq Require Export String.
From Verif Require Export JsspModel ProbeModel.
Open Scope nat_scope.
Local Open Scope list_scope.

(** ** Configuration *)
Definition path := string.
(** cli.rs:5-42 [Args] *)
Record cli_args := Args {
  arg_input : option path; arg_output : option path; arg_n_gen : option nat; arg_pop_size : option nat; arg_delay : option f64;
  arg_cfg_file : option path; arg_random : option bool }.
(** config.rs:39-47 [PartialConfig] *)
Record partial_config := Partial {
  pc_input : option path; pc_output : option path; pc_n_gen : option nat; pc_pop_size : option nat; pc_delay : option f64; pc_random : option bool }.
(** config.rs:15-37 [Config] *)
Record config := Config {
  cfg_input : path; cfg_output : path; cfg_n_gen : option nat; cfg_pop_size : option nat; cfg_delay : option f64; cfg_random : bool }.
(** The three errors of config.rs:77, 80, 101 *)
Inductive config_failure := NoInputFile | NoOutputDir | BadConfigFile.
(** config.rs:49-60 [PartialConfig::empty] *)
Definition empty_config : partial_config := Partial None None None None None None.
(** config.rs:72-92: the conversion of a partial configuration *)
Definition complete_config (c : partial_config) : config + config_failure :=
  match pc_input c with
  | None => inr NoInputFile
  | Some i => match pc_output c with
              | None => inr NoOutputDir
              | Some o => inl (Config i o (pc_n_gen c) (pc_pop_size c) (pc_delay c) (match pc_random c with Some b => b | None => false end))
              end
  end.
(** config.rs:97-125: [read] reads a configuration file (config.rs:62-70), [None] if that fails *)
Definition config_of_args (read : path -> option partial_config) (a : cli_args) : config + config_failure :=
  match (match arg_cfg_file a with Some f => read f | None => Some empty_config end) with
  | None => inr BadConfigFile
  | Some c =>
      let c := match arg_input a with Some x => Partial (Some x) (pc_output c) (pc_n_gen c) (pc_pop_size c) (pc_delay c) (pc_random c) | None => c end in
      let c := match arg_output a with Some x => Partial (pc_input c) (Some x) (pc_n_gen c) (pc_pop_size c) (pc_delay c) (pc_random c) | None => c end in
      let c := match arg_n_gen a with Some x => Partial (pc_input c) (pc_output c) (Some x) (pc_pop_size c) (pc_delay c) (pc_random c) | None => c end in
      let c := match arg_pop_size a with Some x => Partial (pc_input c) (pc_output c) (pc_n_gen c) (Some x) (pc_delay c) (pc_random c) | None => c end in
      let c := match arg_delay a with Some x => Partial (pc_input c) (pc_output c) (pc_n_gen c) (pc_pop_size c) (Some x) (pc_random c) | None => c end in
      let c := match arg_random a with Some x => Partial (pc_input c) (pc_output c) (pc_n_gen c) (pc_pop_size c) (pc_delay c) (Some x) | None => c end in
      complete_config c
  end.
(** cli.rs:44-56 [validate_args] *)
Definition validate_args (is_file : path -> bool) (a : cli_args) : bool :=
  match arg_input a with Some f => is_file f | None => true end && match arg_cfg_file a with Some f => is_file f | None => true end.

(** ** Operators of the program *)
(** src/ga/operators/selection/impls.rs:282-297 [Rank::apply], with the usize fitness of individual.rs:71-97 *)
Definition jssp_rank_spin (pop : list jind) (r : rng) : outcome (nat * rng) :=
  '(i, r) ← gen_range 0 (length pop) r;
  p1 ← index pop i;
  '(j, r) ← gen_range 0 (length pop) r;
  p2 ← index pop j;
  Ok (if (j_fitness p2 <=? j_fitness p1)%N then i else j, r).
Definition jssp_rank (count : nat) (pop : list jind) (r : rng) : outcome (list nat * rng) := repeatO count (jssp_rank_spin pop) r.
(** problem/selection.rs:13-21 [EmptySelection::apply] *)
Definition empty_selection (pop : list jind) (r : rng) : outcome (list nat * rng) := Ok ([], r).
(** problem/crossover.rs:71-102 [NoopCrossover] *)
Definition noop_crossover (sel : list jind) (r : rng) : outcome (list jind * rng) :=
  _ ← rassert (Nat.even (length sel)); Ok (sel, r).

(** ** The solver with its probe *)
(** The callbacks of src/ga/probe.rs with the generation number of the metrics *)
Inductive jssp_event :=
| JStart | JInitial (pop : list jind) | JNewBest (g : nat) (x : jind) | JIterationStart (g : nat) | JNewGeneration (g : nat) (pop : list jind)
| JBestInGeneration (g : nat) (x : jind) | JIterationEnd (g : nat) | JEnd (g : nat) (pop : list jind) (best : jind).
Record operators := Operators {
  ops_select : list jind -> rng -> outcome (list nat * rng);
  ops_cross : list jind -> rng -> outcome (list jind * rng);
  ops_replace : list jind -> list jind -> rng -> outcome (list jind * rng) }.

Section Run.
Context {W : Type} (pr : probe jssp_event W) (o : operators) (fuel : nat) (delay_const : f64) (size : nat).
(** src/ga.rs:303-378: generation number [g].  Both replacement operators say that children need no fitness (replacement.rs:60, 89), and the mutation
    operator is the identity. *)
Definition main_generation (g : nat) (pop : list jind) (best : jind) (r : rng) (w : W) : outcome (list jind * jind * rng * W) :=
  w ← pr w (JIterationStart g);
  pop ← jssp_eval_pop fuel delay_const pop;
  '(chosen, r) ← ops_select o pop r;
  pool ← omapM (index pop) chosen;
  '(children, r) ← ops_cross o pool r;
  '(pop, r) ← ops_replace o pop children r;
  _ ← rassert (bool_decide (length pop = size));
  pop ← jssp_eval_pop fuel delay_const pop;
  w ← pr w (JNewGeneration g pop);
  b ← jssp_best pop;
  w ← pr w (JBestInGeneration g b);
  '(best, w) ← (if (j_fitness b <? j_fitness best)%N then w ← pr w (JNewBest g b); Ok (b, w) else Ok (best, w));
  w ← pr w (JIterationEnd g);
  Ok (pop, best, r, w).
(** ga.rs:302-380: the loop; [expired g] says whether the time limit has passed after generation [g] *)
Fixpoint main_generations (expired : nat -> bool) (gens g : nat) (pop : list jind) (best : jind) (r : rng) (w : W) : outcome (nat * list jind * jind * W) :=
  match gens with
  | 0 => Ok (g, pop, best, w)
  | S gens =>
      '(pop, best, r, w) ← main_generation (S g) pop best r w;
      if expired (S g) then Ok (S g, pop, best, w) else main_generations expired gens (S g) pop best r w
  end.
(** ga.rs:277-387 [run]; [gen_pop] is the population generator *)
Definition main_run (gen_pop : nat -> rng -> outcome (list jind * rng)) (expired : nat -> bool) (gens : nat) (r : rng) (w : W) : outcome (jind * W) :=
  w ← pr w JStart;
  '(pop, r) ← gen_pop size r;
  pop ← jssp_eval_pop fuel delay_const pop;
  w ← pr w (JInitial pop);
  best ← jssp_best pop;
  w ← pr w (JNewBest 0 best);
  '(g, pop, best, w) ← main_generations expired gens 0 pop best r w;
  w ← pr w (JEnd g pop best);
  Ok (best, w).
End Run.

(** ** The probe: problem/probe.rs *)
(** util.rs:46-55 [euclidean_distance] *)
Definition jssp_distance (a b : list f64) : outcome f64 :=
  match zip_with (fun x y => fmul (fsub x y) (fsub x y)) a b with
  | [] => Panic
  | d :: ds => Ok (fsqrt (foldl fadd d ds))
  end.
(** probe.rs:60-71 [estimate_avg_distance]; the subtraction [len() - 1] of an empty population overflows *)
Definition avg_distance (pop : list jind) : outcome f64 :=
  let n := length pop in
  _ ← rassert (bool_decide (0 < n));
  sum ← ofold (fun s i => ofold (fun s j =>
           a ← index pop i; b ← index pop j; d ← jssp_distance (j_chromosome a) (j_chromosome b); Ok (fadd s d))
         s (seq (i + 1) (n - (i + 1)))) f0 (seq 0 (n - 1));
  Ok (fdiv sum (f_of_nat (n * (n - 1) / 2))).
(** probe.rs:166-184: the comparison *)
Definition compare_ops (n : nat) (a b : operation) : outcome comparison :=
  if op_id a =? n + 1 then Ok Gt
  else if op_id b =? n + 1 then Ok Lt
  else
    fa ← unwrap (op_finish a); fb ← unwrap (op_finish b);
    if (fa <? fb)%N then Ok Lt
    else if (fb <? fa)%N then Ok Gt
    else if negb (op_duration a =? 0)%N && negb (op_duration b =? 0)%N then Ok (Nat.compare (op_machine a) (op_machine b))
    else if negb (op_duration a =? 0)%N && (op_duration b =? 0)%N then Ok Lt
    else Ok Gt.
(** [sort_unstable_by], as an insertion sort.  For the operations of an evaluated individual the comparison is a strict total order (proved), so that
    every sorting algorithm gives the same result. *)
Fixpoint insert_op (n : nat) (x : operation) (l : list operation) : outcome (list operation) :=
  match l with
  | [] => Ok [x]
  | y :: l' => c ← compare_ops n x y; match c with Gt => l' ← insert_op n x l'; Ok (y :: l') | _ => Ok (x :: l) end
  end.
Fixpoint sort_ops (n : nat) (l : list operation) : outcome (list operation) :=
  match l with [] => Ok [] | x :: l => l ← sort_ops n l; insert_op n x l end.
(** probe.rs:160-189: the numbers that the solution string lists *)
Definition solution_string (ops : list operation) : outcome (list nat) :=
  n ← (if decide (2 <= length ops) then Ok (length ops - 2) else Panic);
  sorted ← sort_ops n ops;
  Ok (map op_id (filter (fun o => op_id o <> 0 /\ op_id o <> n + 1) sorted)).
(** logging.rs:13-21 [OutputData], without hash and time *)
Record output := Output { out_solution : list nat; out_fitness : N; out_generations : nat; out_genes : list f64 }.
(** The rows of event_popmetrics.csv (generation, population size, average distance; the diversity is always 0), event_newbest.csv and
    event_bestingen.csv (generation, fitness), and the record of run_metadata.json *)
Record jssp_log := JLog { log_population : list (nat * nat * f64); log_newbest : list (nat * N); log_bestingen : list (nat * N); log_output : option output }.
Definition empty_log : jssp_log := JLog [] [] [] None.
(** probe.rs:79-211 *)
Definition jssp_probe : probe jssp_event jssp_log := fun l e =>
  match e with
  | JStart | JIterationStart _ | JIterationEnd _ => Ok l
  | JInitial pop => d ← avg_distance pop; Ok (JLog (log_population l ++ [(0, length pop, d)]) (log_newbest l) (log_bestingen l) (log_output l))
  | JNewGeneration g pop => d ← avg_distance pop; Ok (JLog (log_population l ++ [(g, length pop, d)]) (log_newbest l) (log_bestingen l) (log_output l))
  | JNewBest g x => Ok (JLog (log_population l) (log_newbest l ++ [(g, j_fitness x)]) (log_bestingen l) (log_output l))
  | JBestInGeneration g x => Ok (JLog (log_population l) (log_newbest l) (log_bestingen l ++ [(g, j_fitness x)]) (log_output l))
  | JEnd g _ best =>
      s ← solution_string (j_ops best);
      Ok (JLog (log_population l) (log_newbest l) (log_bestingen l) (Some (Output s (j_fitness best) g (j_chromosome best))))
  end.

(** ** main.rs *)
(** The constants of main.rs: 1.5, 0.1 and 0.2 *)
Definition main_delay : f64 := fdiv (f_of_Z 3) (f_of_Z 2).
Definition main_elite : f64 := fdiv f1 (f_of_Z 10).
Definition main_sample : f64 := fdiv f1 (f_of_Z 5).
(** main.rs:38-52, 85-99: population size and number of generations; [n_ops] is the number of operations *)
Definition main_size (c : config) (n_ops : nat) : nat := match cfg_pop_size c with Some s => s | None => n_ops * 2 end.
Definition main_gens (c : config) : nat := match cfg_n_gen c with Some g => g | None => 400 end.
(** main.rs:110-125 [run_jssp_solver], main.rs:67-80 [run_randomsearch]: the operators *)
Definition solver_operators (p : provider) (size : nat) : operators :=
  Operators (jssp_rank size) jssp_crossover (jssp_replace p main_elite main_sample).
Definition random_operators (p : provider) : operators :=
  Operators empty_selection noop_crossover (fun pop _ r => random_replace p pop r).
(** The setters of src/ga/builder/generic.rs assert that the number of generations and the size are not zero *)
Definition run_instance (fuel : nat) (c : config) (inst : nat * list (list operation)) (expired : nat -> bool) (r : rng) : outcome jssp_log :=
  let size := main_size c (list_sum (map length inst.2)) in
  p ← new_provider inst;
  _ ← rassert (bool_decide (0 < main_gens c));
  _ ← rassert (bool_decide (0 < size));
  '(_, log) ← main_run jssp_probe (if cfg_random c then random_operators p else solver_operators p size) fuel main_delay size
                (generate_jssp p) expired (main_gens c) r empty_log;
  Ok log.
(** main.rs:128-151 [run]: [read_instance] gives the numbers of an instance file, line by line ([None] if the file cannot be read) *)
Definition program (fuel : nat) (is_file : path -> bool) (read_config : path -> option partial_config) (read_instance : path -> option (list (list N)))
    (a : cli_args) (expired : nat -> bool) (r : rng) : outcome jssp_log :=
  _ ← rassert (validate_args is_file a);
  match config_of_args read_config a with
  | inr _ => Panic
  | inl c =>
      file ← unwrap (read_instance (cfg_input c));
      inst ← parse_instance file;
      run_instance fuel c inst expired r
  end.
