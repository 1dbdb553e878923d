(** * Vocabulary: runs that differ in the fitness function only *)
From Verif Require Import GaAssembleModel.
Open Scope nat_scope.

(** The two fitness functions put any two chromosomes in the same order (and agree on which are not comparable). *)
Definition order_equivalent {G} (fit1 fit2 : list G -> f64) : Prop :=
  forall a b, fcmp (fit1 a) (fit1 b) = fcmp (fit2 a) (fit2 b).

(** The same individual, with the fitness [fit] gives it. *)
Definition refit {G} (fit : list G -> f64) (x : individual G) : individual G := Ind (chromosome x) (fit (chromosome x)).
(** The same callback, with individuals carrying the fitness [fit] gives them. *)
Definition refit_event {G} (fit : list G -> f64) (e : event G) : event G :=
  match e with
  | OnStart m => OnStart m
  | OnInitialPopulation m pop => OnInitialPopulation m (map (refit fit) pop)
  | OnNewBest m b => OnNewBest m (refit fit b)
  | OnIterationStart m => OnIterationStart m
  | OnNewGeneration m pop => OnNewGeneration m (map (refit fit) pop)
  | OnBestFit m b => OnBestFit m (refit fit b)
  | OnIterationEnd m => OnIterationEnd m
  | OnEnd m pop b => OnEnd m (map (refit fit) pop) (refit fit b)
  end.
(** The same run, with individuals carrying the fitness [fit] gives them; a run that fails stays as it is. *)
Definition refit_run {G St} (fit : list G -> f64) (o : outcome (list (event G) * individual G * metrics * St))
  : outcome (list (event G) * individual G * metrics * St) :=
  match o with
  | Ok (evs, b, m, s) => Ok (map (refit_event fit) evs, refit fit b, m, s)
  | Panic => Panic
  | Diverge => Diverge
  end.

(** Selections that look at fitness values by comparing them, if at all. *)
Definition by_comparison (sel : selection_op) : bool :=
  match sel with
  | SelRandom _ | SelUniqueRandom | SelRank | SelRankR _ | SelTournament _ => true
  | SelRouletteWheel | SelSus _ | SelBoltzmann _ _ _ _ _ => false
  end.
