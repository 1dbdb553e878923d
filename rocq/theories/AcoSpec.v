(** * Vocabulary for the ant colony properties *)
From Verif Require Import AcoModel.
Open Scope nat_scope.

(** A tour visits every place 0 .. n-1 exactly once. *)
Definition tour (n : nat) (p : list nat) : Prop := p ≡ₚ seq 0 n.
(** A broken path: the last place is a repetition of the one before, the others are distinct. *)
Definition broken (n : nat) (p : list nat) : Prop :=
  exists q x, p = q ++ [x] /\ last q = Some x /\ NoDup q /\ Forall (fun v => v < n) q.
(** The ant walks: one step for each of the given goodness matrices. *)
Definition walk (gs : list matrix) (a : ant) : outcome ant :=
  ofold (fun a g => '(_, _, a) ← ant_step g a; Ok a) a gs.
(** A fresh or a previously used ant. *)
Definition usable (n : nat) (a : ant) : Prop :=
  a_size a = n /\ NoDup (a_unvisited a) /\ Forall (fun v => v < n) (a_unvisited a).

(** [b] comes right after [a] on the closed path [p]. *)
Definition follows (p : list nat) (a b : nat) : Prop :=
  exists i, p !! i = Some a /\ p !! ((i + 1) mod length p) = Some b.
Definition neighbours (p : list nat) (a b : nat) : Prop := follows p a b \/ follows p b a.
Definition in_matrix (m : matrix) (i j : nat) : Prop := i < nrows m /\ j < ncols m.
Definition symmetric (m : matrix) : Prop := nrows m = ncols m /\ forall i j, in_matrix m i j -> entry m i j = entry m j i.

(** Goodness values small enough for sums not to overflow: genuine binary64 numbers of [0, 2^900]. *)
Definition f_2_900 : f64 := S754_finite false 4503599627370496 848.
Definition moderate (m : matrix) (n : nat) : Prop :=
  nrows m = n /\ ncols m = n /\
  forall i j, i < n -> j < n ->
    SpecFloat.valid_binary 53 1024 (entry m i j) = true /\ fle f0 (entry m i j) = true /\ fle (entry m i j) f_2_900 = true.
(** Whole-number goodness whose row totals are exactly representable. *)
Definition whole (m : matrix) (n : nat) : Prop :=
  nrows m = n /\ ncols m = n /\ exists k : nat -> nat -> nat,
    (forall i j, i < n -> j < n -> entry m i j = f_of_nat (k i j)) /\
    forall i, i < n -> (Z.of_nat (sum_list (map (k i) (seq 0 n))) <= 2 ^ 53)%Z.
(** The i-th update acts on the i-th pheromone with the i-th group, one after the other; pheromones without an
    update stay as they are. *)
Inductive in_turn {S} : list (matrix -> list solution -> S -> outcome (matrix * S)) -> list matrix -> list (list solution) -> S ->
    list matrix -> S -> Prop :=
| turn_end ps gs s : in_turn [] ps gs s ps s
| turn_none us gs s : in_turn us [] gs s [] s
| turn_step u us p ps g gs s p' s1 ps' s' : u p g s = Ok (p', s1) -> in_turn us ps gs s1 ps' s' ->
    in_turn (u :: us) (p :: ps) (g :: gs) s (p' :: ps') s'.

(** ** Runs *)
(** One iteration from pheromone [p] and state [s]: the ants' paths become solutions, which are graded; [b] is reported
    as the current best, and the update makes [p']. *)
Definition one_iteration {Ph S T} (c : aco Ph S T) (p : Ph) (s : S) (sols : list solution) (b : solution) (p' : Ph) (s' : S) : Prop :=
  exists paths p1 s1 ungraded s2,
    colony c p s = Ok (paths, p1, s1) /\ omapM from_path paths = Ok ungraded /\ grader c ungraded s1 = Ok (sols, s2) /\
    b ∈ sols /\ (Forall (fun x => is_nan (sol_fitness x) = false) sols -> Forall (fun x => fle (sol_fitness x) (sol_fitness b) = true) sols) /\
    update c p1 sols s2 = Ok (p', s').
(** The bests and pheromones reported by a sequence of iterations. *)
Inductive iterations {Ph S T} (c : aco Ph S T) : Ph -> S -> list (solution * Ph) -> Ph -> S -> Prop :=
| it_none p s : iterations c p s [] p s
| it_more p s sols b p1 s1 l p' s' : one_iteration c p s sols b p1 s1 -> iterations c p1 s1 l p' s' -> iterations c p s ((b, p1) :: l) p' s'.
(** What the probe sees. *)
Definition protocol {Ph} (l : list (solution * Ph)) : list (aco_event Ph) :=
  concat (map (fun x => [AcoIterationStart; AcoCurrentBest x.1; AcoPheromoneUpdate x.2; AcoIterationEnd]) l) ++ [AcoEnd].
(** The termination condition, asked before every iteration with the current pheromone, says stop only at the end. *)
Inductive stops_after {Ph S T} (c : aco Ph S T) : T -> Ph -> list (solution * Ph) -> Prop :=
| stops_now t p t' : tc_check c t p = (true, t') -> stops_after c t p []
| goes_on t p t' b q l : tc_check c t p = (false, t') -> stops_after c t' q l -> stops_after c t p ((b, q) :: l).

(** ** Deposits *)
(** The value of an edge {a, b} after the solutions have left their trails one after the other: the fitness of each tour
    using the edge is added once, in order, to the value before. *)
Inductive after_deposits (a b : nat) : list solution -> f64 -> f64 -> Prop :=
| dep_done v : after_deposits a b [] v v
| dep_on s sols v v' : neighbours (sol_path s) a b -> after_deposits a b sols (fadd v (sol_fitness s)) v' -> after_deposits a b (s :: sols) v v'
| dep_off s sols v v' : ~ neighbours (sol_path s) a b -> after_deposits a b sols v v' -> after_deposits a b (s :: sols) v v'.
(** The stored best solution: a tour, or the empty path of the default solution. *)
Definition tour_or_none (n : nat) (s : solution) : Prop := sol_path s = [] \/ tour n (sol_path s).
(** The value of the directed edge (a, b) after [f] has been applied once for each path ending with that edge. *)
Inductive after_steps (f : f64 -> f64) (a b : nat) : list (list nat) -> f64 -> f64 -> Prop :=
| steps_done v : after_steps f a b [] v v
| step_on q ps v v' : after_steps f a b ps (f v) v' -> after_steps f a b ((q ++ [a; b]) :: ps) v v'
| step_off p ps v v' : (forall q, p <> q ++ [a; b]) -> after_steps f a b ps v v' -> after_steps f a b (p :: ps) v v'.

(** [w] is [v] limited to the range from lo to hi *)
Definition cut_to (lo hi v w : f64) : Prop :=
  (flt lo v = true -> flt v hi = true -> w = v) /\ (fle v lo = true -> w = lo) /\ (flt lo v = true -> fle hi v = true -> w = hi) /\ (is_nan v = true -> w = lo).
