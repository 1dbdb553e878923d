(** * The job shop example (examples/jssp)

    Times and durations are usize values, represented by N; an addition that exceeds usize::MAX panics, as in a build with overflow checks, and
    debug assertions are checked.  Identifiers of operations and machines are positions in vectors, represented by nat.  Loops without a static bound
    take [fuel]; running out of fuel is [Diverge]. *)
From Verif Require Export Rng PopulationModel.
Open Scope nat_scope.

Definition usize_max : N := (2 ^ 64 - 1)%N.
Definition uadd (a b : N) : outcome N := let s := (a + b)%N in if (s <=? usize_max)%N then Ok s else Panic.
(** [x as f64] for x : usize *)
Definition f_of_N (x : N) : f64 := f_of_Z (Z.of_N x).

(** examples/jssp/problem.rs:14-36 [EdgeKind], [Edge] *)
Inductive edge_kind := JobSucc | MachineSucc.
Record edge := Edge { neigh_id : nat; edge_kind_of : edge_kind }.
Definition is_machine_edge (e : edge) : bool := match edge_kind_of e with MachineSucc => true | JobSucc => false end.

(** problem.rs:43-79 [Operation] *)
Record operation := Operation {
  op_id : nat; op_duration : N; op_machine : nat; op_finish : option N; op_preds : list nat; op_edges : list edge;
  op_mpred : option nat; op_cp_edge : option edge; op_cp_dist : N }.
Definition set_finish (t : option N) (o : operation) : operation :=
  Operation (op_id o) (op_duration o) (op_machine o) t (op_preds o) (op_edges o) (op_mpred o) (op_cp_edge o) (op_cp_dist o).
Definition set_edges (es : list edge) (o : operation) : operation :=
  Operation (op_id o) (op_duration o) (op_machine o) (op_finish o) (op_preds o) es (op_mpred o) (op_cp_edge o) (op_cp_dist o).
Definition set_mpred (p : option nat) (o : operation) : operation :=
  Operation (op_id o) (op_duration o) (op_machine o) (op_finish o) (op_preds o) (op_edges o) p (op_cp_edge o) (op_cp_dist o).
Definition set_critical (e : option edge) (d : N) (o : operation) : operation :=
  Operation (op_id o) (op_duration o) (op_machine o) (op_finish o) (op_preds o) (op_edges o) (op_mpred o) e d.
(** problem.rs:82-101 [Operation::new] *)
Definition new_operation (id : nat) (duration : N) (machine : nat) (preds : list nat) : operation :=
  Operation id duration machine None preds [] None None 0%N.
(** [Vec::swap_remove] *)
Definition swap_remove {A} (l : list A) (i : nat) : list A :=
  match last l with Some z => take (length l - 1) (<[i := z]> l) | None => [] end.
(** problem.rs:104-126 [Operation::reset]; the critical path fields are kept *)
Definition reset_edges (es : list edge) : list edge :=
  match list_find (fun e => is_machine_edge e = true) es with Some (i, _) => swap_remove es i | None => es end.
Definition reset_operation (o : operation) : outcome operation :=
  let es := reset_edges (op_edges o) in
  _ ← rassert (forallb (fun e => negb (is_machine_edge e)) es);
  Ok (set_edges es (set_mpred None (set_finish None o))).

(** problem.rs:129-153 [Machine]; its id is not used anywhere and left out *)
Record machine := Machine { m_busy : list (N * N); m_last : option nat }.
Definition new_machine : machine := Machine [] None.
(** problem.rs:164-169 [Machine::is_idle] for the query start..end *)
Definition is_idle (m : machine) (qs qe : N) : bool :=
  negb (existsb (fun r => (r.1 <? qe)%N && (qs <? r.2)%N) (m_busy m)).
(** problem.rs:174-177 [Machine::reserve] *)
Definition reserve (m : machine) (s e : N) (op : nat) : machine := Machine (m_busy m ++ [(s, e)]) (Some op).
(** problem.rs:180-183 [Machine::reset] *)
Definition reset_machine (m : machine) : machine := Machine [] None.

(** problem/individual.rs:11-29 [JsspIndividual] *)
Record jind := JInd { j_chromosome : list f64; j_ops : list operation; j_machines : list machine; j_fitness : N; j_valid : bool; j_dirty : bool }.
(** individual.rs:32-41 [JsspIndividual::new] *)
Definition new_jind (c : list f64) (ops : list operation) (ms : list machine) (fit : N) : jind := JInd c ops ms fit false false.
(** individual.rs:44-47 [JsspIndividual::reset] *)
Definition reset_jind (x : jind) : outcome jind :=
  ops ← omapM reset_operation (j_ops x);
  Ok (JInd (j_chromosome x) ops (reset_machine <$> j_machines x) (j_fitness x) (j_valid x) (j_dirty x)).

(** ** Scheduling: problem/fitness.rs *)
(** fitness.rs:143-146 [delay_for_g] *)
Definition delay_for_g (delay_const : f64) (c : list f64) (n g : nat) (maxdur : N) : outcome f64 :=
  x ← index c (n + g - 1); Ok (fmul (fmul x delay_const) (f_of_N maxdur)).
(** fitness.rs:148-152 [op_priority] *)
Definition op_priority (c : list f64) (id : nat) : outcome f64 :=
  match id with 0 => Panic | S i => index c i end.

(** fitness.rs:187-200: finish_times[pred] as f64 > time as f64 + delay *)
Definition too_late (ft : list N) (limit : f64) (pred : nat) : outcome bool :=
  t ← index ft pred; Ok (fgt (f_of_N t) limit).
Fixpoint none_too_late (ft : list N) (limit : f64) (preds : list nat) : outcome bool :=
  match preds with
  | [] => Ok true
  | p :: ps => b ← too_late ft limit p; if (b : bool) then Ok false else none_too_late ft limit ps
  end.
(** fitness.rs:167-202: the two filters; [n_ops] is the length of the operation vector *)
Definition delay_feasible (n_ops : nat) (ft : list N) (limit : f64) (o : operation) : outcome bool :=
  t ← index ft (op_id o);
  if (t =? usize_max)%N then
    if decide (op_id o = n_ops - 1) then none_too_late ft limit (op_preds o)
    else match last (op_preds o) with
         | Some p => b ← too_late ft limit p; Ok (negb b)
         | None => Ok true
         end
  else Ok false.
(** fitness.rs:154-215 [update_delay_feasibles_and_highest_prior_op]: the new delay feasible set and the operation with the highest priority *)
Definition update_feasibles (c : list f64) (ops : list operation) (ft : list N) (delay : f64) (time : N) : outcome (list nat * nat) :=
  let limit := fadd (f_of_N time) delay in
  '(fs, best, _) ← ofold (fun '(fs, best, highest) o =>
      b ← delay_feasible (length ops) ft limit o;
      if (b : bool) then
        p ← op_priority c (op_id o);
        if fgt p highest then Ok (fs ++ [op_id o], op_id o, p) else Ok (fs ++ [op_id o], best, highest)
      else Ok (fs, best, highest)) ([], 0, fmin) ops;
  Ok (fs, best).

(** [Iterator::min] on usize *)
Definition list_min (l : list N) : option N :=
  match l with [] => None | x :: xs => Some (foldl N.min x xs) end.
(** [Iterator::max] on usize *)
Definition list_max_N (l : list N) : option N :=
  match l with [] => None | x :: xs => Some (foldl N.max x xs) end.

(** The local variables of [evaluate_individual] that the loops change *)
Record sched := Sched { s_ops : list operation; s_machines : list machine; s_ft : list N; s_count : nat; s_g : nat; s_last : N }.

(** fitness.rs:91-97: the candidates for the start of an operation *)
Fixpoint idle_starts (m : machine) (pf d : N) (ft : list N) : outcome (list N) :=
  match ft with
  | [] => Ok []
  | t :: ts =>
      if negb (t =? usize_max)%N && (pf <=? t)%N then
        e ← uadd t d; rest ← idle_starts m pf d ts;
        Ok (if is_idle m t e then t :: rest else rest)
      else idle_starts m pf d ts
  end.
(** fitness.rs:112-122: the edge from the operation scheduled last on the machine *)
Definition link_machine (ops : list operation) (prev : option nat) (j : nat) : outcome (list operation) :=
  match prev with
  | None => Ok ops
  | Some l =>
      o ← index ops l;
      let ops := <[l := set_edges (op_edges o ++ [Edge j MachineSucc]) o]> ops in
      oj ← index ops j;
      Ok (<[j := set_mpred (Some l) oj]> ops)
  end.
(** fitness.rs:78-125: scheduling operation [j] *)
Definition schedule_op (j : nat) (s : sched) : outcome sched :=
  o ← index (s_ops s) j;
  let d := op_duration o in
  p ← unwrap (last (op_preds o));
  pf ← index (s_ft s) p;
  m ← index (s_machines s) (op_machine o);
  starts ← idle_starts m pf d (s_ft s);
  start ← unwrap (list_min starts);
  fin ← uadd start d;
  ft ← assign (s_ft s) (op_id o) fin;
  let ops := <[j := set_finish (Some fin) o]> (s_ops s) in
  ops ← link_machine ops (m_last m) j;
  let machines := <[op_machine o := reserve m (fin - d) fin j]> (s_machines s) in
  Ok (Sched ops machines ft (s_count s + 1) (s_g s + 1) (N.max (s_last s) fin)).

(** fitness.rs:77-132: the loop that schedules until no operation is delay feasible *)
Fixpoint schedule_feasibles (fuel : nat) (delay_const : f64) (c : list f64) (n : nat) (maxdur time : N) (fs : list nat) (j : nat) (s : sched) : outcome sched :=
  match fs with
  | [] => Ok s
  | _ :: _ =>
      match fuel with
      | 0 => Diverge
      | S fuel =>
          s ← schedule_op j s;
          if decide (n < s_g s) then Ok s
          else
            delay ← delay_for_g delay_const c n (s_g s) maxdur;
            '(fs, j) ← update_feasibles c (s_ops s) (s_ft s) delay time;
            schedule_feasibles fuel delay_const c n maxdur time fs j s
      end
  end.
(** fitness.rs:67-135: the loop over scheduling times *)
Fixpoint schedule_all (fuel : nat) (delay_const : f64) (c : list f64) (n : nat) (maxdur time : N) (s : sched) : outcome sched :=
  if decide (s_count s < n + 1) then
    match fuel with
    | 0 => Diverge
    | S fuel' =>
        delay ← delay_for_g delay_const c n (s_g s) maxdur;
        '(fs, j) ← update_feasibles c (s_ops s) (s_ft s) delay time;
        s ← schedule_feasibles fuel delay_const c n maxdur time fs j s;
        time ← unwrap (list_min (List.filter (fun t => (time <? t)%N) (s_ft s)));
        schedule_all fuel' delay_const c n maxdur time s
    end
  else Ok s.

(** fitness.rs:39-66: the state before the loop *)
Definition initial_sched (ops : list operation) (machines : list machine) (n : nat) : outcome sched :=
  o ← index ops 0;
  Ok (Sched (<[0 := set_finish (Some 0%N) o]> ops) machines (<[0 := 0%N]> (repeat usize_max (n + 2))) 1 1 0%N).

(** ** Local search *)
(** [max_by_key] (the last of the greatest elements) over edges, by the critical distance of the neighbour: fitness.rs:296-300 *)
Definition edge_key (ops : list operation) (e : edge) : outcome N := o ← index ops (neigh_id e); Ok (op_cp_dist o).
Fixpoint max_edge_from (ops : list operation) (best : edge) (key : N) (es : list edge) : outcome edge :=
  match es with
  | [] => Ok best
  | e :: es => k ← edge_key ops e; if (key <=? k)%N then max_edge_from ops e k es else max_edge_from ops best key es
  end.
Definition max_edge (ops : list operation) (es : list edge) : outcome edge :=
  match es with [] => Panic | e :: es => k ← edge_key ops e; max_edge_from ops e k es end.
(** fitness.rs:278-311: marking a vertex all of whose neighbours are visited *)
Definition finish_vertex (ops : list operation) (v : nat) (o : operation) : outcome (list operation) :=
  match op_edges o with
  | [] => Ok (<[v := set_critical (op_cp_edge o) (op_duration o) o]> ops)
  | es =>
      e ← max_edge ops es;
      w ← index ops (neigh_id e);
      d ← uadd (op_duration o) (op_cp_dist w);
      Ok (<[v := set_critical (Some e) d o]> ops)
  end.
(** The neighbours that are pushed, the last one on top *)
Fixpoint unvisited_neighbours (visited : list bool) (es : list edge) (acc : list nat) : outcome (list nat) :=
  match es with
  | [] => Ok acc
  | e :: es => b ← index visited (neigh_id e); unvisited_neighbours visited es (if (b : bool) then acc else neigh_id e :: acc)
  end.
(** fitness.rs:271-311 [calculate_critical_distance]; the stack has its top at the head *)
Fixpoint critical_dfs (fuel : nat) (ops : list operation) (visited : list bool) (stack : list nat) : outcome (list operation) :=
  match stack with
  | [] => Ok ops
  | v :: rest =>
      match fuel with
      | 0 => Diverge
      | S fuel =>
          b ← index visited v;
          if (b : bool) then critical_dfs fuel ops visited rest
          else
            o ← index ops v;
            pushed ← unvisited_neighbours visited (op_edges o) [];
            match pushed with
            | [] => ops ← finish_vertex ops v o; critical_dfs fuel ops (<[v := true]> visited) rest
            | _ => critical_dfs fuel ops visited (pushed ++ stack)
            end
      end
  end.
(** fitness.rs:266-269, 330-333 [determine_critical_path], [determine_makespan] *)
Definition determine_makespan (fuel : nat) (ops : list operation) : outcome (list operation * N) :=
  ops ← critical_dfs fuel ops (repeat false (length ops)) [0];
  o ← index ops 0;
  Ok (ops, op_cp_dist o).

(** fitness.rs:313-328 [determine_critical_blocks]: [done] are the finished blocks, [cur] the block being filled *)
Fixpoint blocks_from (fuel : nat) (ops : list operation) (v : nat) (done : list (list nat)) (cur : list nat) : outcome (list (list nat)) :=
  o ← index ops v;
  match op_cp_edge o with
  | None => _ ← rassert (bool_decide (cur = [])); Ok done
  | Some e =>
      match fuel with
      | 0 => Diverge
      | S fuel =>
          let cur := cur ++ [op_id o] in
          match edge_kind_of e with
          | JobSucc => blocks_from fuel ops (neigh_id e) (done ++ [cur]) []
          | MachineSucc => blocks_from fuel ops (neigh_id e) done cur
          end
      end
  end.
Definition critical_blocks (fuel : nat) (ops : list operation) : outcome (list (list nat)) :=
  o ← index ops 0;
  e ← unwrap (op_cp_edge o);
  blocks_from fuel ops (neigh_id e) [] [].

(** edges_out[1].neigh_id = x *)
Definition set_second_edge (x : nat) (o : operation) : outcome operation :=
  e ← index (op_edges o) 1; Ok (set_edges (<[1 := Edge x (edge_kind_of e)]> (op_edges o)) o).
Definition update_op (ops : list operation) (i : nat) (f : operation -> outcome operation) : outcome (list operation) :=
  o ← index ops i; o' ← f o; Ok (<[i := o']> ops).
(** [Vec::pop] for its effect *)
Definition drop_last {A} (l : list A) : list A := take (length l - 1) l.
(** fitness.rs:335-370 [swap_ops] *)
Definition swap_ops (ops : list operation) (u v : nat) : outcome (list operation) :=
  _ ← rassert (negb (u =? 0) && negb (v =? 0));
  ov ← index ops v;
  ops ← match op_edges ov !! 1 with
        | Some e =>
            ops ← update_op ops u (set_second_edge (neigh_id e));
            ops ← update_op ops (neigh_id e) (fun o => Ok (set_mpred (Some u) o));
            update_op ops v (set_second_edge u)
        | None =>
            ops ← update_op ops u (fun o => Ok (set_edges (drop_last (op_edges o)) o));
            update_op ops v (fun o => Ok (set_edges (op_edges o ++ [Edge u MachineSucc]) o))
        end;
  ou ← index ops u;
  ops ← match op_mpred ou with
        | Some p =>
            ops ← update_op ops p (set_second_edge v);
            update_op ops v (fun o => Ok (set_mpred (Some p) o))
        | None => update_op ops v (fun o => Ok (set_mpred None o))
        end;
  update_op ops u (fun o => Ok (set_mpred (Some v) o)).

(** fitness.rs:236-244, 247-258: swap, recompute, swap back unless the makespan got smaller *)
Definition try_swap (fuel : nat) (ops : list operation) (cur : N) (u v : nat) : outcome (list operation * N * bool) :=
  ops ← swap_ops ops u v;
  '(ops, m) ← determine_makespan fuel ops;
  if (m <? cur)%N then Ok (ops, m, true)
  else ops ← swap_ops ops v u; Ok (ops, cur, false).
(** fitness.rs:230-261: the blocks from number [i] on, [blocks_len] in total *)
Fixpoint try_blocks (fuel : nat) (ops : list operation) (cur : N) (i blocks_len : nat) (blocks : list (list nat)) : outcome (list operation * N * bool) :=
  match blocks with
  | [] => Ok (ops, cur, false)
  | block :: blocks =>
      '(ops, cur, updated) ←
        (if decide (0 < i /\ 2 <= length block) then
           u ← index block 0; v ← index block 1; try_swap fuel ops cur u v
         else Ok (ops, cur, false));
      '(ops, cur, updated) ←
        (if decide (i <> blocks_len - 1 /\ updated = false /\ 2 <= length block) then
           v ← index block (length block - 1); u ← index block (length block - 2); try_swap fuel ops cur u v
         else Ok (ops, cur, updated));
      if (updated : bool) then Ok (ops, cur, true) else try_blocks fuel ops cur (i + 1) blocks_len blocks
  end.
(** fitness.rs:217-264 [local_search] *)
Fixpoint local_search_loop (rounds fuel : nat) (ops : list operation) : outcome (list operation * N) :=
  match rounds with
  | 0 => Diverge
  | S rounds =>
      '(ops, cur) ← determine_makespan fuel ops;
      blocks ← critical_blocks fuel ops;
      '(ops, cur, updated) ← try_blocks fuel ops cur 0 (length blocks) blocks;
      if (updated : bool) then local_search_loop rounds fuel ops else Ok (ops, cur)
  end.
Definition local_search (fuel : nat) (ops : list operation) : outcome (list operation * N) := local_search_loop fuel fuel ops.

(** fitness.rs:31-141 [evaluate_individual].  [delay_feasibles], the only state of the evaluator, is cleared at every use. *)
Definition evaluate_individual (fuel : nat) (delay_const : f64) (x : jind) : outcome (jind * N) :=
  x ← (if j_dirty x then reset_jind x else Ok x);
  n ← (if decide (2 <= length (j_ops x)) then Ok (length (j_ops x) - 2) else Panic);
  s ← initial_sched (j_ops x) (j_machines x) n;
  maxdur ← unwrap (list_max_N (op_duration <$> s_ops s));
  s ← schedule_all fuel delay_const (j_chromosome x) n maxdur 0 s;
  '(ops, m) ← local_search fuel (s_ops s);
  let makespan := N.min (s_last s) m in
  Ok (JInd (j_chromosome x) ops (s_machines s) makespan true true, makespan).

(** ** Instances: parse.rs and problem/population.rs *)
(** parse.rs:54-74: the operations of one line; [tokens] are its numbers, [first] the first identifier of the job, [id] the next one *)
Fixpoint parse_job (first id : nat) (tokens : list N) : outcome (list operation) :=
  match tokens with
  | [] => Ok []
  | [_] => Panic
  | m :: d :: rest => ops ← parse_job first (S id) rest; Ok (new_operation id d (N.to_nat m) (seq first (id - first)) :: ops)
  end.
Fixpoint parse_jobs (id : nat) (lines : list (list N)) : outcome (list (list operation)) :=
  match lines with
  | [] => Ok []
  | l :: ls => job ← parse_job id id l; jobs ← parse_jobs (id + length job) ls; Ok (job :: jobs)
  end.
(** parse.rs:29-90 [JsspInstance::try_from] on the numbers of the file, line by line: number of machines and the jobs.  Reading the file and splitting
    it into numbers are left out. *)
Definition parse_instance (file : list (list N)) : outcome (nat * list (list operation)) :=
  match file with
  | [] => Panic
  | header :: lines =>
      match header with
      | [_; n_machines] => jobs ← parse_jobs 0 lines; Ok (N.to_nat n_machines, jobs)
      | _ => Panic
      end
  end.

(** population.rs:30-46: shifting the identifiers of a job by one and adding the edges to the following operations *)
Definition shift_operation (o : operation) : operation :=
  Operation (S (op_id o)) (op_duration o) (op_machine o) (op_finish o) (0 :: map S (op_preds o)) (op_edges o ++ [Edge (S (S (op_id o))) JobSucc])
    (op_mpred o) (op_cp_edge o) (op_cp_dist o).
(** job.last_mut().unwrap().edges_out.last_mut().unwrap().neigh_id = sink *)
Definition edge_to_sink (sink : nat) (o : operation) : outcome operation :=
  e ← unwrap (last (op_edges o));
  Ok (set_edges (<[length (op_edges o) - 1 := Edge sink (edge_kind_of e)]> (op_edges o)) o).
Definition prepare_job (dim : nat) (job : list operation) : outcome (list operation) :=
  let job := map shift_operation job in
  o ← unwrap (last job);
  o ← edge_to_sink (dim + 1) o;
  Ok (<[length job - 1 := o]> job).
(** population.rs:18-56 [JsspPopProvider::new]: the operations, with a zero operation in front and a sink operation behind *)
Definition provider_ops (jobs : list (list operation)) : outcome (list operation) :=
  let dim := list_sum (map length jobs) in
  jobs ← omapM (prepare_job dim) jobs;
  firsts ← omapM (fun job => unwrap (head job)) jobs;
  let zero := set_edges (map (fun o => Edge (op_id o) JobSucc) firsts) (new_operation 0 0%N 0 []) in
  let sink := new_operation (dim + 1) 0%N 0 (seq 0 (dim + 1)) in
  let ops := [zero] ++ concat jobs ++ [sink] in
  _ ← rassert (bool_decide (length ops = dim + 2));
  Ok ops.
Record provider := Provider { p_machines : nat; p_ops : list operation }.
Definition new_provider (inst : nat * list (list operation)) : outcome provider :=
  ops ← provider_ops inst.2; Ok (Provider inst.1 ops).
(** population.rs:59-74 [generate] *)
Definition generate_jssp (p : provider) (count : nat) (r : rng) : outcome (list jind * rng) :=
  if decide (2 <= length (p_ops p)) then
    '(cs, r) ← generate_with_single_constraint (2 * (length (p_ops p) - 2)) count (f0, f1) r;
    Ok (map (fun c => new_jind c (p_ops p) (repeat new_machine (p_machines p)) usize_max) cs, r)
  else Panic.

(** ** Crossover: problem/crossover.rs *)
Definition f_0_6 : f64 := fdiv (f_of_Z 6) (f_of_Z 10).
(** crossover.rs:21-52 [apply_single] *)
Fixpoint mix_genes (locus : nat) (mask : list f64) (c1 c2 : list f64) : outcome (list f64 * list f64) :=
  match mask with
  | [] => Ok ([], [])
  | v :: mask =>
      a ← index c1 locus; b ← index c2 locus;
      '(k1, k2) ← mix_genes (S locus) mask c1 c2;
      Ok (if fle v f_0_6 then (a :: k1, b :: k2) else (b :: k1, a :: k2))
  end.
Definition with_genes (c : list f64) (x : jind) : jind := JInd c (j_ops x) (j_machines x) (j_fitness x) false (j_dirty x).
Definition jssp_crossover_single (p1 p2 : jind) (r : rng) : outcome (jind * jind * rng) :=
  let '(mask, r) := repeatM (length (j_chromosome p1)) uni_f64 r in
  '(c1, c2) ← mix_genes 0 mask (j_chromosome p1) (j_chromosome p2);
  Ok (with_genes c1 p1, with_genes c2 p2, r).
(** crossover.rs:55-69 [JsspCrossover::apply] *)
Fixpoint jssp_crossover_pairs (sel : list jind) (r : rng) : outcome (list jind * rng) :=
  match sel with
  | p1 :: p2 :: rest =>
      '(c1, c2, r) ← jssp_crossover_single p1 p2 r;
      '(cs, r) ← jssp_crossover_pairs rest r;
      Ok (c1 :: c2 :: cs, r)
  | _ => Ok ([], r)
  end.
Definition jssp_crossover (sel : list jind) (r : rng) : outcome (list jind * rng) :=
  _ ← rassert (Nat.even (length sel)); jssp_crossover_pairs sel r.

(** ** Replacement: problem/replacement.rs *)
(** [population.sort()]: a stable sort by fitness (individual.rs:65-69) *)
Fixpoint insert_sorted (x : jind) (l : list jind) : list jind :=
  match l with [] => [x] | y :: l => if (j_fitness x <=? j_fitness y)%N then x :: y :: l else y :: insert_sorted x l end.
Fixpoint sort_population (l : list jind) : list jind := match l with [] => [] | x :: l => insert_sorted x (sort_population l) end.
(** replacement.rs:45-47: population[i] and children[i - elite_size] are swapped; the children are dropped afterwards *)
Fixpoint take_children (i : nat) (children : list jind) (count : nat) (pop : list jind) : outcome (list jind) :=
  match count with
  | 0 => Ok pop
  | S count =>
      match children with
      | [] => Panic
      | c :: cs => pop ← assign pop i c; take_children (S i) cs count pop
      end
  end.
(** replacement.rs:25-63 [JsspReplacement::apply] *)
Definition jssp_replace (p : provider) (elite_rate sample_rate : f64) (pop children : list jind) (r : rng) : outcome (list jind * rng) :=
  let n := length pop in
  let elite := N.to_nat (f_to_usize (fmul elite_rate (f_of_nat n))) in
  let sample := N.to_nat (f_to_usize (fmul sample_rate (f_of_nat n))) in
  crossover ← (if decide (elite + sample <= n) then Ok (n - elite - sample) else Panic);
  _ ← rassert (bool_decide (crossover < n));
  let pop := if decide (0 < elite) then sort_population pop else pop in
  pop ← take_children elite children crossover pop;
  if decide (0 < sample) then
    '(fresh, r) ← generate_jssp p sample r;
    Ok (take (elite + crossover) pop ++ fresh, r)
  else Ok (pop, r).
(** replacement.rs:79-88 [ReplaceWithRandomPopulation::apply] *)
Definition random_replace (p : provider) (pop : list jind) (r : rng) : outcome (list jind * rng) := generate_jssp p (length pop) r.

(** ** The solver: the generic loop of src/ga.rs, with the operators of examples/jssp/main.rs:82-125 (the mutation operator is the identity) *)
(** ga.rs:263-268 [eval_pop]: individuals whose fitness is valid are skipped *)
Definition jssp_eval_pop (fuel : nat) (delay_const : f64) (pop : list jind) : outcome (list jind) :=
  omapM (fun x => if j_valid x then Ok x else '(y, m) ← evaluate_individual fuel delay_const x;
                  Ok (JInd (j_chromosome y) (j_ops y) (j_machines y) m (j_valid y) (j_dirty y))) pop.
(** ga.rs:253-260 [find_best_individual]: [Iterator::min], the first of the smallest *)
Fixpoint best_from (best : jind) (l : list jind) : jind :=
  match l with [] => best | x :: l => best_from (if (j_fitness x <? j_fitness best)%N then x else best) l end.
Definition jssp_best (pop : list jind) : outcome jind :=
  match pop with [] => Panic | x :: l => Ok (best_from x l) end.
(** ga.rs:303-378: one generation.  [select] is the selection operator, which gives positions in the population; [size] is the configured population size. *)
Definition jssp_generation (fuel : nat) (p : provider) (delay_const elite_rate sample_rate : f64) (size : nat)
    (select : list jind -> rng -> outcome (list nat * rng)) (pop : list jind) (best : jind) (r : rng) : outcome (list jind * jind * rng) :=
  pop ← jssp_eval_pop fuel delay_const pop;
  '(chosen, r) ← select pop r;
  pool ← omapM (index pop) chosen;
  '(children, r) ← jssp_crossover pool r;
  '(pop, r) ← jssp_replace p elite_rate sample_rate pop children r;
  _ ← rassert (bool_decide (length pop = size));
  pop ← jssp_eval_pop fuel delay_const pop;
  b ← jssp_best pop;
  Ok (pop, if (j_fitness b <? j_fitness best)%N then b else best, r).
(** [expired g] tells whether the time limit has passed after the generation with [g] generations to go *)
Fixpoint jssp_generations (fuel : nat) (p : provider) (delay_const elite_rate sample_rate : f64) (size : nat)
    (select : list jind -> rng -> outcome (list nat * rng)) (expired : nat -> bool) (gens : nat) (pop : list jind) (best : jind) (r : rng) : outcome (list jind * jind * rng) :=
  match gens with
  | 0 => Ok (pop, best, r)
  | S gens =>
      '(pop, best, r) ← jssp_generation fuel p delay_const elite_rate sample_rate size select pop best r;
      if expired gens then Ok (pop, best, r)
      else jssp_generations fuel p delay_const elite_rate sample_rate size select expired gens pop best r
  end.
(** ga.rs:277-387 [run] without the probe and the metrics *)
Definition jssp_run (fuel : nat) (p : provider) (delay_const elite_rate sample_rate : f64) (size : nat)
    (select : list jind -> rng -> outcome (list nat * rng)) (expired : nat -> bool) (gens : nat) (r : rng) : outcome (list jind * jind * rng) :=
  '(pop, r) ← generate_jssp p size r;
  pop ← jssp_eval_pop fuel delay_const pop;
  best ← jssp_best pop;
  jssp_generations fuel p delay_const elite_rate sample_rate size select expired gens pop best r.
