(** * Specification vocabulary for the job shop program *)
From Verif Require Export JsspMainModel JsspSpec.
Open Scope nat_scope.

(** What becomes of a run that is given enough time: it ends with a log, or it panics *)
Definition ends_with {A} (run : nat -> outcome A) (a : A) : Prop := exists k, forall fuel, k <= fuel -> run fuel = Ok a.
Definition fails {A} (run : nat -> outcome A) : Prop := exists k, forall fuel, k <= fuel -> run fuel = Panic.

(** The population size and the number of generations: those of the configuration, or else twice the number of operations and 400 *)
Definition population_size (jobs : shop) (c : config) : nat := default (2 * n_tasks jobs) (cfg_pop_size c).
Definition generation_limit (c : config) : nat := default 400 (cfg_n_gen c).

(** The smallest fitness *)
Definition lowest (pop : list jind) (m : N) : Prop := (exists x, x ∈ pop /\ j_fitness x = m) /\ forall x, x ∈ pop -> (m <= j_fitness x)%N.
(** The first individual of the smallest fitness *)
Definition first_best (l : list jind) (x : jind) : Prop :=
  exists before after, l = before ++ x :: after /\ (forall y, y ∈ before -> (j_fitness x < j_fitness y)%N) /\ forall y, y ∈ after -> (j_fitness x <= j_fitness y)%N.

(** ** The populations of a run *)
(** An individual as the evaluation of its genes, with the delay factor 3/2, leaves it *)
Definition settled (jobs : shop) (p : provider) (x : jind) : Prop :=
  genes_for jobs (j_chromosome x) /\ evaluates (fdiv (f_of_Z 3) (f_of_Z 2)) (fresh p (j_chromosome x)) x (j_fitness x).
(** Every gene comes from one of the two parents, which gave it at the same place *)
Definition mixes (a b x : jind) : Prop := forall i g, j_chromosome x !! i = Some g -> j_chromosome a !! i = Some g \/ j_chromosome b !! i = Some g.
(** One generation of the solver: a tenth of the population, its best individuals, stays; a fifth is new; the others are children *)
Definition next_generation (pop pop' : list jind) : Prop :=
  exists elite rest children samples, pop' = elite ++ children ++ samples /\ length pop' = length pop /\
  pop ≡ₚ elite ++ rest /\ length elite = length pop / 10 /\ (forall x y, x ∈ elite -> y ∈ rest -> (j_fitness x <= j_fitness y)%N) /\
  length samples = length pop / 5 /\ forall x, x ∈ children -> exists a b, a ∈ pop /\ b ∈ pop /\ mixes a b x.
(** The populations of a run, from the initial one: there is one more for every generation, until the limit is reached or the time is over *)
Definition history (jobs : shop) (p : provider) (size limit : nat) (expired : nat -> bool) (next : list jind -> list jind -> Prop) (pops : list (list jind)) : Prop :=
  (exists g, length pops = S g /\ 1 <= g <= limit /\ (forall g', 1 <= g' < g -> expired g' = false) /\ (g = limit \/ expired g = true)) /\
  (forall pop, pop ∈ pops -> length pop = size /\ Forall (settled jobs p) pop) /\
  forall g pop pop', pops !! g = Some pop -> pops !! S g = Some pop' -> next pop pop'.

(** ** The log of a run *)
(** The pairs of individuals, each pair once *)
Fixpoint pairs {A} (l : list A) : list (A * A) := match l with [] => [] | x :: l => map (pair x) l ++ pairs l end.
Definition f_sum (l : list f64) : f64 := match l with [] => f0 | x :: l => foldl fadd x l end.
Definition gene_distance (a b : list f64) : f64 := fsqrt (f_sum (zip_with (fun x y => fmul (fsub x y) (fsub x y)) a b)).
Definition mean_distance (pop : list jind) : f64 :=
  fdiv (foldl fadd f0 (map (fun ab => gene_distance (j_chromosome ab.1) (j_chromosome ab.2)) (pairs pop))) (f_of_nat (length (pairs pop))).
(** Population number g has a smaller fitness than all the populations before it, namely m *)
Definition improves (pops : list (list jind)) (g : nat) (m : N) : Prop :=
  (exists pop, pops !! g = Some pop /\ lowest pop m) /\ forall g' pop' m', g' < g -> pops !! g' = Some pop' -> lowest pop' m' -> (m < m')%N.
(** Number i comes before number i' in the list *)
Definition precedes (l : list nat) (i i' : nat) : Prop := exists a b c, l = a ++ i :: b ++ i' :: c.
(** The solution string lists the operations by the time at which they finish in the schedule that the individual records; operations that finish at the
    same time are listed by machine. *)
Definition solution_of (jobs : shop) (x : jind) (s : list nat) : Prop :=
  exists start, records jobs x start /\ s ≡ₚ seq 1 (n_tasks jobs) /\
  forall j k m d j' k' m' d', task jobs j k m d -> task jobs j' k' m' d' -> precedes s (op_number jobs j k) (op_number jobs j' k') ->
  (start j k + d < start j' k' + d')%N \/ ((start j k + d = start j' k' + d')%N /\ m < m').
Definition chronicle (jobs : shop) (pops : list (list jind)) (log : jssp_log) : Prop :=
  log_population log = imap (fun g pop => (g, length pop, mean_distance pop)) pops /\
  (length (log_bestingen log) = length pops - 1 /\ forall g pop m, pops !! S g = Some pop -> lowest pop m -> log_bestingen log !! g = Some (S g, m)) /\
  ((forall g m, (g, m) ∈ log_newbest log <-> improves pops g m) /\ forall a g m b g' m' c, log_newbest log = a ++ (g, m) :: b ++ (g', m') :: c -> g < g') /\
  exists x s, first_best (concat pops) x /\ solution_of jobs x s /\ log_output log = Some (Output s (j_fitness x) (length pops - 1) (j_chromosome x)).

(** ** What a solution string tells *)
(** The end of the latest of the operations that come before an operation in its job or, among those that the string lists before it, on its machine *)
Definition ready_at (jobs : shop) (start : nat -> nat -> N) (s : list nat) (j k : nat) (t : N) : Prop :=
  let waits_for j' k' := (j' = j /\ S k' = k) \/ exists m d d', task jobs j k m d /\ task jobs j' k' m d' /\ precedes s (op_number jobs j' k') (op_number jobs j k) in
  (forall j' k' m d, task jobs j' k' m d -> waits_for j' k' -> (start j' k' + d <= t)%N) /\
  (t = 0%N \/ exists j' k' m d, task jobs j' k' m d /\ waits_for j' k' /\ t = (start j' k' + d)%N).

(** ** Calling the program *)
(** The files that the arguments name exist *)
Definition files_exist (is_file : path -> bool) (a : cli_args) : Prop := forall f, arg_input a = Some f \/ arg_cfg_file a = Some f -> is_file f = true.
(** The files that the arguments name exist, the configuration is [c], and its input file contains the shop *)
Definition called (is_file : path -> bool) (read_config : path -> option partial_config) (read_instance : path -> option (list (list N))) (a : cli_args) (c : config)
    (nm : nat) (jobs : shop) : Prop :=
  files_exist is_file a /\ config_of_args read_config a = inl c /\ read_instance (cfg_input c) = Some (file_of nm jobs).
(** The contents of the configuration file that the arguments name; nothing if they name none *)
Definition file_values (read_config : path -> option partial_config) (a : cli_args) (f : partial_config) : Prop :=
  match arg_cfg_file a with None => f = Partial None None None None None None | Some file => read_config file = Some f end.
(** The value of an argument, or else the value in the file *)
Definition chosen {A} (from_args from_file : option A) : option A := match from_args with Some x => Some x | None => from_file end.
(** The same arguments and the same file with another delay factor *)
Definition args_with_delay (d : option f64) (a : cli_args) : cli_args := Args (arg_input a) (arg_output a) (arg_n_gen a) (arg_pop_size a) d (arg_cfg_file a) (arg_random a).
Definition file_with_delay (d : option f64) (f : partial_config) : partial_config := Partial (pc_input f) (pc_output f) (pc_n_gen f) (pc_pop_size f) d (pc_random f).
(** The schedule that a solution string tells: every operation starts as soon as it is ready *)
Definition tells (jobs : shop) (s : list nat) (start : nat -> nat -> N) : Prop := forall j k m d, task jobs j k m d -> ready_at jobs start s j k (start j k).
