(** * Vocabulary for the properties of assembled solvers *)
From Verif Require Import GaSpec GaAssembleModel F64R PopulationSpec.
Open Scope nat_scope.

(** The individual [x] is handed to the probe in callback [e]. *)
Definition mentions {G} (e : event G) (x : individual G) : Prop :=
  match e with
  | OnInitialPopulation _ pop | OnNewGeneration _ pop => x ∈ pop
  | OnNewBest _ b | OnBestFit _ b => x = b
  | OnEnd _ pop b => x ∈ pop \/ x = b
  | _ => False
  end.

(** The chromosome of [x] has gene [g] at locus [l]. *)
Definition carries {G} (x : individual G) (l : nat) (g : G) : Prop := chromosome x !! l = Some g.

(** Crossovers made for permutations, and the others, which copy genes locus by locus. *)
Definition order_based (xo : crossover_op) : bool :=
  match xo with XoOrdered | XoPmx _ | XoPpx => true | _ => false end.
(** PMX's repair loop is given at least as many rounds as there are genes. *)
Definition enough_fuel (xo : crossover_op) (dim : nat) : Prop :=
  match xo with XoPmx fuel => dim <= fuel | _ => True end.
(** MultiPoint has at least one and at most [dim] cut points. *)
Definition cuts_fit (xo : crossover_op) (dim : nat) : Prop :=
  match xo with XoMultiPoint k => 1 <= k <= dim | _ => True end.

(** Selections that fill the mating pool for every population of [n] comparable individuals: Random, Rank,
    UniqueRandom, RankR with r in [0, 1], Tournament with a factor in [0, 1].  (RouletteWheel, SUS and Boltzmann
    put conditions on the fitness values: C19 - C22.) *)
Definition dependable (sel : selection_op) (n : nat) : Prop :=
  match sel with
  | SelRandom _ | SelRank | SelUniqueRandom => True
  | SelRankR r => fle f0 r = true /\ fle r f1 = true
  | SelTournament factor => fvalid factor /\ fle f0 factor = true /\ fle factor f1 = true /\ (Z.of_nat n <= 2 ^ 53)%Z
  | SelRouletteWheel | SelSus _ | SelBoltzmann _ _ _ _ _ => False
  end.

(** [ch] has one coordinate per interval of [cs], and every coordinate is a finite number in one of the intervals.  (Interchange,
    Reversing and Inversion move coordinates about, so it need not be the interval of its own position.) *)
Definition in_space (cs : list (f64 * f64)) (ch : list f64) : Prop :=
  length ch = length cs /\ forall g, g ∈ ch -> finite_f64 g /\ exists c, c ∈ cs /\ fle c.1 g = true /\ fle g c.2 = true.

(** On every population of [psize] individuals whose chromosomes satisfy [K] and which carry their fitness, the selection
    returns [psize] positions of the population. *)
Definition fills_pool {G} (sel : selection_op) (size : metrics -> nat) (psize : nat) (fit : list G -> f64) (K : list G -> Prop) : Prop :=
  forall m (pop : list (individual G)) r, length pop = psize -> Forall (fun x => K (chromosome x) /\ fitness x = fit (chromosome x)) pop ->
  exists idx r', select_fn sel size m pop r = Ok (idx, r') /\ length idx = psize /\ Forall (fun i => i < length pop) idx.
