(** * Ant colony optimisation (src/aco.rs, src/aco/) *)
From Verif Require Export Rng.
Open Scope nat_scope.

(** ** Matrices *)
(** [FMatrix] (src/aco.rs:34), nalgebra's dynamically sized f64 matrix: [at m i j] is row i, column j.
    Values of [entry] outside the dimensions mean nothing. *)
Record matrix := Mat { nrows : nat; ncols : nat; entry : nat -> nat -> f64 }.

(** [m[(i, j)]], [m[(i, j)] = v]: panic when out of bounds. *)
Definition mget (m : matrix) (i j : nat) : outcome f64 :=
  if decide (i < nrows m /\ j < ncols m) then Ok (entry m i j) else Panic.
Definition mset (m : matrix) (i j : nat) (v : f64) : outcome matrix :=
  if decide (i < nrows m /\ j < ncols m) then
    Ok (Mat (nrows m) (ncols m) (fun a b => if decide (a = i /\ b = j) then v else entry m a b))
  else Panic.
(** [m[(i, j)] = f(m[(i, j)])] *)
Definition mupd (m : matrix) (i j : nat) (f : f64 -> f64) : outcome matrix :=
  v ← mget m i j; mset m i j (f v).
(** [m.scale_mut(c)] *)
Definition mscale (c : f64) (m : matrix) : matrix := Mat (nrows m) (ncols m) (fun i j => fmul (entry m i j) c).
(** [m.iter()]: column by column. *)
Definition melems (m : matrix) : list f64 :=
  concat (map (fun j => map (fun i => entry m i j) (seq 0 (nrows m))) (seq 0 (ncols m))).
(** [FMatrix::from_iterator(r, c, it)]: panics unless the iterator has exactly r * c elements. *)
Definition mfrom (r c : nat) (l : list f64) : outcome matrix :=
  if decide (length l = r * c) then Ok (Mat r c (fun i j => nth (j * r + i) l f0)) else Panic.
(** [FMatrix::repeat], [FMatrix::zeros] *)
Definition mrepeat (r c : nat) (v : f64) : matrix := Mat r c (fun _ _ => v).

(** itertools' [circular_tuple_windows::<(_, _)>()]: each element with its successor, the last one with the
    first; [(a, a)] for a single element. *)
Definition windows {A} (l : list A) : list (A * A) :=
  match l with [] => [] | x :: xs => zip l (xs ++ [x]) end.

(** ** Solutions *)
(** src/aco/solution.rs:7-20; Solution::default() has the empty path and fitness 0. *)
Record solution := Sol { sol_path : list nat; sol_fitness : f64 }.
Definition sol_default : solution := Sol [] f0.
(** src/aco/solution.rs:23-34 [from_path]: the matrix is built and dropped, but its indexing may panic. *)
Definition from_path (path : list nat) : outcome solution :=
  _ ← ofold (fun m '(i, j) => m ← mset m i j f1; mset m j i f1) (mrepeat (length path) (length path) f0) (windows path);
  Ok (Sol path f0).

(** ** Ants (src/aco/tsp/ant.rs) *)
(** [a_unvisited] lists the members of the HashSet; each time the set is iterated the order is arbitrary: it is drawn
    from [a_hash].  [a_rate] is [None] for CanonicalAnt and the exploitation rate for ExploitingAnt. *)
Record ant := Ant { a_unvisited : list nat; a_path : list nat; a_size : nat; a_stuck : bool; a_rate : option f64; a_rng : rng; a_hash : rng }.

(** ant.rs:65-74 [CanonicalAnt::with_rng], 154-168 [ExploitingAnt::with_rng] *)
Definition canonical_ant (size : nat) (r h : rng) : ant := Ant [] [] size false None r h.
Definition exploiting_ant (size : nat) (rate : f64) (r h : rng) : outcome ant :=
  _ ← rassert (fle f0 rate && flt rate f1); Ok (Ant [] [] size false (Some rate) r h).

(** [HashSet::insert] and [remove] *)
Definition set_insert (x : nat) (l : list nat) : list nat := if decide (x ∈ l) then l else x :: l.
Definition set_remove (x : nat) (l : list nat) : list nat := filter (fun y => y <> x) l.

(** ant.rs:23-30 [clear] *)
Definition ant_clear (a : ant) : ant :=
  Ant (foldl (fun s i => set_insert i s) (a_unvisited a) (seq 0 (a_size a))) [] (a_size a) false (a_rate a) (a_rng a) (a_hash a).
(** ant.rs:36-40 [chose_staring_place] *)
Definition ant_start (a : ant) : outcome ant :=
  '(start, r) ← gen_range 0 (a_size a) (a_rng a);
  Ok (Ant (set_remove start (a_unvisited a)) (a_path a ++ [start]) (a_size a) (a_stuck a) (a_rate a) r (a_hash a)).

(** ant.rs:98-111 and 204-216: the roulette wheel over the goodness of the unvisited places *)
Definition goodness_sum (row : nat -> outcome f64) (order : list nat) : outcome f64 :=
  ofold (fun s v => g ← row v; Ok (fadd s g)) f0 order.
Fixpoint spin (row : nat -> outcome f64) (random : f64) (order : list nat) (next : nat) : outcome nat :=
  match order with
  | [] => Ok next
  | v :: order =>
      g ← row v;
      let random := fsub random g in
      if fle random f0 then Ok v else spin row random order next
  end.
Definition roulette (row : nat -> outcome f64) (order : list nat) (last : nat) (r : rng) : outcome (nat * rng) :=
  sum ← goodness_sum row order;
  '(random, r) ← gen_range_f64 f0 sum r;
  next ← spin row random order last;
  Ok (next, r).
(** ant.rs:195-202: the unvisited place of greatest goodness (the first met) *)
Definition exploit (row : nat -> outcome f64) (order : list nat) (last : nat) : outcome nat :=
  '(next, _) ← ofold (fun st v => g ← row v; Ok (if flt (snd st) g then (v, g) else st)) (last, fmin) order;
  Ok next.

(** ant.rs:83-120 [CanonicalAnt::go_to_next_place], 176-226 [ExploitingAnt::go_to_next_place].  [edges_goodness.row(last)]
    panics when there is no such row. *)
Definition ant_step (goodness : matrix) (a : ant) : outcome (nat * nat * ant) :=
  last ← unwrap (last (a_path a));
  if a_stuck a then Ok (last, last, a)
  else
    _ ← rassert (bool_decide (last < nrows goodness));
    _ ← rassert (bool_decide (a_unvisited a <> []));
    let row v := mget goodness last v in
    '(order, h) ← shuffle (a_unvisited a) (a_hash a);
    '(next, r) ←
      match a_rate a with
      | None => roulette row order last (a_rng a)
      | Some rate =>
          let '(u, r) := gen_f64 (a_rng a) in
          if flt u rate then next ← exploit row order last; Ok (next, r) else roulette row order last r
      end;
    Ok (last, next, Ant (set_remove next (a_unvisited a)) (a_path a ++ [next]) (a_size a) (a_stuck a || bool_decide (next = last)) (a_rate a) r h).

(** ** Goodness and local update *)
(** src/aco/tsp/goodness.rs:57-67 [CanonicalGoodness::apply]; [powf] is libm's. *)
Definition canonical_goodness (powf : f64 -> f64 -> f64) (alpha beta : f64) (heuristic pheromone : matrix) : outcome matrix :=
  mfrom (nrows pheromone) (nrows pheromone)
    (zip_with (fun p h => fmul (powf p alpha) (powf h beta)) (melems pheromone) (melems heuristic)).

(** [p_path[l - 2]], [p_path[l - 1]]: l - 2 underflows (a panic either way) when l < 2. *)
Definition last_edge (p : list nat) : outcome (nat * nat) :=
  _ ← rassert (bool_decide (2 <= length p));
  s ← index p (length p - 2); r ← index p (length p - 1); Ok (s, r).
(** src/aco/tsp/local_update.rs:34-45 [Decay::apply] *)
Definition decay (rate : f64) (m : matrix) (paths : list (list nat)) : outcome matrix :=
  ofold (fun m p => '(s, r) ← last_edge p; mupd m s r (fun x => fmul x rate)) m paths.
(** local_update.rs:75-86 [DecayTo::apply] *)
Definition decay_to (rate stable : f64) (m : matrix) (paths : list (list nat)) : outcome matrix :=
  ofold (fun m p => '(s, r) ← last_edge p; m ← mupd m s r (fun x => fmul x rate);
                    mupd m s r (fun x => fadd x (fmul stable (fsub f1 rate)))) m paths.

(** ** Ants behaviour (src/aco/tsp/ants_behaviour.rs) *)
(** [for _ in 1..n { ant.go_to_next_place(&goodness) }] *)
Fixpoint ant_steps (n : nat) (goodness : matrix) (a : ant) : outcome ant :=
  match n with
  | 0 => Ok a
  | S n => '(_, _, a) ← ant_step goodness a; ant_steps n goodness a
  end.
(** ants_behaviour.rs:40-53: one ant after the other; a stuck ant ends the loop. *)
Fixpoint as_loop (n : nat) (goodness : matrix) (ants : list ant) : outcome (list (list nat) * list ant) :=
  match ants with
  | [] => Ok ([], [])
  | a :: ants =>
      a ← ant_start (ant_clear a);
      a ← ant_steps (n - 1) goodness a;
      if a_stuck a then Ok ([], a :: ants)
      else '(paths, ants) ← as_loop n goodness ants; Ok (a_path a :: paths, a :: ants)
  end.
(** ants_behaviour.rs:30-57 [AntSystemAB::simulate_ants] *)
Definition ant_system (goodness_op : matrix -> outcome matrix) (ants : list ant) (pheromone : matrix)
  : outcome (list (list nat) * list ant * matrix) :=
  goodness ← goodness_op pheromone;
  '(paths, ants) ← as_loop (nrows pheromone) goodness ants;
  Ok (paths, ants, pheromone).

(** ants_behaviour.rs:87-95: one step of every ant that is not stuck *)
Fixpoint acs_round (goodness : matrix) (ants : list ant) : outcome (list (list nat) * list ant) :=
  match ants with
  | [] => Ok ([], [])
  | a :: ants =>
      if a_stuck a then '(paths, ants) ← acs_round goodness ants; Ok (paths, a :: ants)
      else
        '(_, _, a) ← ant_step goodness a;
        '(paths, ants) ← acs_round goodness ants;
        Ok (a_path a :: paths, a :: ants)
  end.
Fixpoint acs_rounds (goodness_op : matrix -> outcome matrix) (local : matrix -> list (list nat) -> outcome matrix)
    (n : nat) (paths : list (list nat)) (ants : list ant) (pheromone : matrix) : outcome (list (list nat) * list ant * matrix) :=
  match n with
  | 0 => Ok (paths, ants, pheromone)
  | S n =>
      goodness ← goodness_op pheromone;
      '(paths, ants) ← acs_round goodness ants;
      pheromone ← local pheromone paths;
      acs_rounds goodness_op local n paths ants pheromone
  end.
(** ants_behaviour.rs:67-99 [AntColonySystemAB::simulate_ants] *)
Definition ant_colony_system (goodness_op : matrix -> outcome matrix) (local : matrix -> list (list nat) -> outcome matrix)
    (ants : list ant) (pheromone : matrix) : outcome (list (list nat) * list ant * matrix) :=
  ants ← omapM (fun a => ant_start (ant_clear a)) ants;
  acs_rounds goodness_op local (nrows pheromone - 1) [] ants pheromone.

(** ** Grading *)
(** src/aco/tsp.rs:67-77 [PathLengthInverse::grade_solution] *)
Definition path_cost (weights : matrix) (path : list nat) : outcome f64 :=
  ofold (fun s '(i, j) => w ← mget weights i j; Ok (fadd s w)) f0 (windows path).
Definition grade_solution (weights : matrix) (s : solution) : outcome solution :=
  cost ← path_cost weights (sol_path s); Ok (Sol (sol_path s) (fdiv f1 cost)).
(** tsp.rs:80-84 *)
Definition path_length_inverse (weights : matrix) (sols : list solution) : outcome (list solution) :=
  omapM (grade_solution weights) sols.

(** src/aco.rs:107-112 [find_best] and src/aco/tsp/pheromone/best_policy.rs:86-91: [reduce] with [>] *)
Definition find_best_sol (sols : list solution) : outcome solution :=
  match sols with
  | [] => Panic
  | s :: sols => Ok (foldl (fun a b => if fgt (sol_fitness a) (sol_fitness b) then a else b) s sols)
  end.

(** ** Best policies (src/aco/tsp/pheromone/best_policy.rs); the state is the stored solution *)
(** best_policy.rs:42-47 *)
Definition iteration_best (best : solution) (sols : list solution) : solution :=
  match find_best_sol sols with Ok b => b | _ => best end.
(** best_policy.rs:71-80 *)
Definition overall_best (best : solution) (sols : list solution) : solution :=
  match find_best_sol sols with
  | Ok b => if fgt (sol_fitness b) (sol_fitness best) then b else best
  | _ => best
  end.

(** ** Pheromone update (src/aco/tsp/pheromone.rs) *)
(** pheromone.rs:199-204 [leave_single_trail], with the added amount *)
Definition leave_trail1 (amount : f64) (path : list nat) (m : matrix) : outcome matrix :=
  ofold (fun m '(i, j) => m ← mupd m i j (fun x => fadd x amount); mupd m j i (fun x => fadd x amount)) m (windows path).
(** pheromone.rs:191-196 [leave_trail] *)
Definition leave_trail (sols : list solution) (m : matrix) : outcome matrix :=
  ofold (fun m s => leave_trail1 (sol_fitness s) (sol_path s) m) m sols.
(** pheromone.rs:29-34 [AntSystemPU::apply] *)
Definition as_update (rate : f64) (m : matrix) (sols : list solution) : outcome matrix :=
  leave_trail sols (mscale (fsub f1 rate) m).
(** pheromone.rs:60-68 [ElitistAntSystemPU::apply] *)
Definition elitist_update (rate : f64) (m : matrix) (sols : list solution) (best : solution) : outcome (matrix * solution) :=
  let best := overall_best best sols in
  m ← leave_trail sols (mscale (fsub f1 rate) m);
  m ← leave_trail1 (sol_fitness best) (sol_path best) m;
  Ok (m, best).
(** nalgebra::clamp(val, min, max) *)
Definition fclamp (v lo hi : f64) : f64 := if fgt v lo then if flt v hi then v else hi else lo.
(** pheromone.rs:90-113 [MMAntSystemPU::with_best_policy] *)
Definition mmas_new (lo hi : f64) : outcome (f64 * f64) :=
  _ ← rassert (fge lo f0); _ ← rassert (fgt hi lo); Ok (lo, hi).
(** pheromone.rs:124-139 [MMAntSystemPU::apply]; [policy] is the best policy. *)
Definition mmas_update (policy : solution -> list solution -> solution) (rate lo hi : f64) (m : matrix) (sols : list solution) (best : solution)
  : outcome (matrix * solution) :=
  let best := policy best sols in
  m ← ofold (fun m '(i, j) => m ← mupd m i j (fun x => fclamp (fadd x (sol_fitness best)) lo hi); v ← mget m i j; mset m j i v)
        (mscale (fsub f1 rate) m) (windows (sol_path best));
  Ok (m, best).
(** pheromone.rs:175-188 [AntColonySystemPU::apply] *)
Definition acs_update (policy : solution -> list solution -> solution) (rate : f64) (m : matrix) (sols : list solution) (best : solution)
  : outcome (matrix * solution) :=
  let best := policy best sols in
  m ← leave_trail1 (fmul (sol_fitness best) rate) (sol_path best) (mscale (fsub f1 rate) m);
  Ok (m, best).

(** ** Group-wise update (src/aco/pheromone.rs) *)
(** pheromone.rs:72-84 [find_bounds] *)
Definition find_bounds (sols : list solution) : outcome (f64 * f64) :=
  s ← index sols 0;
  Ok (foldl (fun b x => (if flt (sol_fitness x) (fst b) then sol_fitness x else fst b,
                         if fgt (sol_fitness x) (snd b) then sol_fitness x else snd b)) (sol_fitness s, sol_fitness s) sols).
(** pheromone.rs:57-59: the group of a solution; [parts] = pheromone.len() *)
Definition part_of (min increment : f64) (parts : nat) (s : solution) : nat :=
  Nat.min (N.to_nat (N.min (f_to_usize (fdiv (fsub (sol_fitness s) min) increment)) (N.of_nat (parts - 1)))) (parts - 1).
(** pheromone.rs:49-70 [PartFromEvalPU::apply]; an update is a function on a matrix and some state [S] common to
    all.  With no pheromone at all the subtraction [pheromone.len() - 1] panics (or the following index does). *)
Definition part_from_eval {S} (updates : list (matrix -> list solution -> S -> outcome (matrix * S)))
    (pheromone : list matrix) (sols : list solution) (s : S) : outcome (list matrix * S) :=
  '(min, max) ← find_bounds sols;
  let increment := fdiv (fsub max min) (f_of_nat (length pheromone)) in
  _ ← rassert (bool_decide (pheromone <> []));
  groups ← ofold (fun (gs : list (list solution)) x =>
      g ← index gs (part_of min increment (length pheromone) x);
      assign gs (part_of min increment (length pheromone) x) (g ++ [x])) (replicate (length updates) []) sols;
  '(done, s) ← ofold (fun st ug => let '(pu, (p, g)) := ug in '(p, s') ← pu p g (snd st); Ok (fst st ++ [p], s'))
      ([], s) (zip updates (zip pheromone groups));
  Ok (done ++ drop (length done) pheromone, s).

(** ** The main loop (src/aco.rs) *)
(** Callbacks of src/aco/probe.rs *)
Inductive aco_event (Ph : Type) :=
| AcoIterationStart
| AcoCurrentBest (s : solution)
| AcoPheromoneUpdate (p : Ph)
| AcoIterationEnd
| AcoEnd.
Arguments AcoIterationStart {_}.
Arguments AcoCurrentBest {_} _.
Arguments AcoPheromoneUpdate {_} _.
Arguments AcoIterationEnd {_}.
Arguments AcoEnd {_}.

(** src/aco.rs:45-63: colony, grader and update rule act on the pheromone [Ph] and an arbitrary state [S]; the
    termination condition has a state [T] of its own. *)
Record aco (Ph S T : Type) := Aco {
  colony : Ph -> S -> outcome (list (list nat) * Ph * S);
  grader : list solution -> S -> outcome (list solution * S);
  update : Ph -> list solution -> S -> outcome (Ph * S);
  tc_init : T -> T;
  tc_check : T -> Ph -> bool * T }.
Arguments colony {_ _ _} _ _ _.
Arguments grader {_ _ _} _ _ _.
Arguments update {_ _ _} _ _ _ _.
Arguments tc_init {_ _ _} _ _.
Arguments tc_check {_ _ _} _ _ _.

Section Aco.
Context {Ph S T : Type} (c : aco Ph S T).
(** aco.rs:91-118 [iterate], with [grade] and [find_best] *)
Definition aco_iterate (p : Ph) (s : S) : outcome (list (aco_event Ph) * Ph * S) :=
  '(paths, p, s) ← colony c p s;
  sols ← omapM from_path paths;
  '(sols, s) ← grader c sols s;
  best ← find_best_sol sols;
  '(p, s) ← update c p sols s;
  Ok ([AcoCurrentBest best; AcoPheromoneUpdate p], p, s).
(** aco.rs:79-86: the [while] loop, with fuel *)
Fixpoint aco_loop (fuel : nat) (p : Ph) (s : S) (t : T) : outcome (list (aco_event Ph) * Ph * S) :=
  match fuel with
  | 0 => Diverge
  | Datatypes.S fuel =>
      let '(stop, t) := tc_check c t p in
      if stop then Ok ([], p, s)
      else
        '(evs, p, s) ← aco_iterate p s;
        '(evs', p, s) ← aco_loop fuel p s t;
        Ok ([AcoIterationStart] ++ evs ++ [AcoIterationEnd] ++ evs', p, s)
  end.
(** aco.rs:77-89, 120-122 [run], [end] *)
Definition aco_run (fuel : nat) (p : Ph) (s : S) (t : T) : outcome (list (aco_event Ph) * Ph * S) :=
  '(evs, p, s) ← aco_loop fuel p s (tc_init c t);
  Ok (evs ++ [AcoEnd], p, s).
End Aco.

(** src/aco/termination_condition.rs:46-57 [IterationCond]: current iteration and limit *)
Definition ic_init (t : nat * nat) : nat * nat := (0, t.2).
Definition ic_check {Ph} (t : nat * nat) (_ : Ph) : bool * (nat * nat) :=
  let curr := t.1 + 1 in (t.2 <? curr, (curr, t.2)).
(** termination_condition.rs:81-92 [TimeCond]: the number of checks made so far, and the limit; [clock i] is the time
    measured since [init] at check i. *)
Definition time_init (t : nat * N) : nat * N := (0, t.2).
Definition time_check {Ph} (clock : nat -> N) (t : nat * N) (_ : Ph) : bool * (nat * N) :=
  ((t.2 <? clock t.1)%N, (t.1 + 1, t.2)).

(** ** Utilities (src/aco/tsp/util.rs) *)
(** util.rs:6-17 [create_heuristic_from_weights] *)
Definition heuristic_entry (w : f64) : f64 := if feq w f0 then f0 else fdiv f1 w.
Definition create_heuristic (w : matrix) : outcome matrix := mfrom (nrows w) (ncols w) (heuristic_entry <$> melems w).
(** util.rs:36-46: the cost matrix of the cities *)
Definition city_distance (a b : f64 * f64) : f64 :=
  let x := fsub a.1 b.1 in let y := fsub a.2 b.2 in fsqrt (fadd (fmul x x) (fmul y y)).
Definition tsp_cost (cities : list (f64 * f64)) : outcome matrix :=
  let n := length cities in
  ofold (fun m '(i, j) =>
      a ← index cities i; b ← index cities j;
      let d := city_distance a b in
      m ← mset m i j d; mset m j i d)
    (mrepeat n n f0) (concat (map (fun i => map (fun j => (i, j)) (seq i (n - i))) (seq 0 n))).
(** util.rs:23-34: the coordinates; [gen_range(0.0..100.0)] is a value of [0, 100). *)

(** ** A travelling salesman solver put together from the parts above *)
(** The two implementations of BestPolicy (best_policy.rs) and the four of PheromoneUpdate (tsp/pheromone.rs); the state
    of each is the stored solution. *)
Inductive best_policy := IterationBest | OverallBest.
Definition apply_policy (k : best_policy) : solution -> list solution -> solution :=
  match k with IterationBest => iteration_best | OverallBest => overall_best end.
Inductive update_rule :=
| AntSystemPU (rate : f64)
| ElitistAntSystemPU (rate : f64)
| MMAntSystemPU (policy : best_policy) (rate lo hi : f64)
| AntColonySystemPU (policy : best_policy) (rate : f64).
Definition apply_rule (u : update_rule) (m : matrix) (sols : list solution) (best : solution) : outcome (matrix * solution) :=
  match u with
  | AntSystemPU rate => m ← as_update rate m sols; Ok (m, best)
  | ElitistAntSystemPU rate => elitist_update rate m sols best
  | MMAntSystemPU policy rate lo hi => mmas_update (apply_policy policy) rate lo hi m sols best
  | AntColonySystemPU policy rate => acs_update (apply_policy policy) rate m sols best
  end.
(** src/aco/tsp.rs:41-55 [TspColony::build_solutions] hands over to the ants behaviour; 80-84 [PathLengthInverse].
    State: the ants and the stored best solution. *)
Definition tsp {T} (behaviour : list ant -> matrix -> outcome (list (list nat) * list ant * matrix)) (weights : matrix) (u : update_rule)
    (init : T -> T) (check : T -> matrix -> bool * T) : aco matrix (list ant * solution) T :=
  Aco matrix (list ant * solution) T
    (fun p s => '(paths, ants, p) ← behaviour (fst s) p; Ok (paths, p, (ants, snd s)))
    (fun sols s => sols ← path_length_inverse weights sols; Ok (sols, s))
    (fun p sols s => '(p, best) ← apply_rule u p sols (snd s); Ok (p, (fst s, best)))
    init check.
