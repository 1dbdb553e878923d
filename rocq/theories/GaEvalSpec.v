(** * Vocabulary for the solver with stateful fitness *)
From Verif Require Export GaEvalModel GaSpec.
Open Scope nat_scope.

(** The populations shown to the probe *)
Definition g_shown {I} (e : gevent I) : option (list I) :=
  match e with GInitialPopulation _ pop | GNewGeneration _ pop | GEnd _ pop _ => Some pop | _ => None end.
(** [P] holds of every individual of every population shown to the probe. *)
Definition g_all_shown {I} (evs : list (gevent I)) (P : I -> Prop) : Prop :=
  forall e q x, e ∈ evs -> g_shown e = Some q -> x ∈ q -> P x.
(** The number of finished iterations *)
Definition g_finished {I} (e : gevent I) : bool := match e with GIterationEnd _ => true | _ => false end.
Definition finished_iterations {I} (evs : list (gevent I)) : nat := length (List.filter g_finished evs).

(** The comparisons of the individuals agree with the preorder [le] on the individuals that satisfy [D]. *)
Record orders {I V S} (cfg : gconfig I V S) (D : I -> Prop) (le : I -> I -> Prop) : Prop := {
  ord_refl : forall a, D a -> le a a;
  ord_trans : forall a b c, D a -> D b -> D c -> le a b -> le b c -> le a c;
  ord_cmp : forall a b c, D a -> D b -> g_cmp cfg a b = Ok c -> match c with Gt => le b a | _ => le a b end;
  ord_less : forall a b, D a -> D b -> if g_less cfg a b then le a b else le b a }.

(** The crate's individuals and a pure fitness function *)
Definition pure {G S} (cfg : config G S) : gconfig (individual G) f64 S :=
  GConfig (individual G) f64 S (population_size cfg) (generation_limit cfg) (max_duration cfg)
    (fun _ => true) (fun x v => Ind (chromosome x) v) ind_cmp (fun a b => flt (fitness a) (fitness b))
    (op_generate cfg) (fun x s => Ok (op_fitness cfg (chromosome x), x, s)) (op_select cfg) (op_crossover cfg)
    (op_mutate cfg) (op_replace cfg) (op_requires_children_fitness cfg).
Definition as_gevent {G} (e : event G) : gevent (individual G) :=
  match e with
  | OnStart m => GStart m | OnInitialPopulation m pop => GInitialPopulation m pop | OnNewBest m b => GNewBest m b
  | OnIterationStart m => GIterationStart m | OnNewGeneration m pop => GNewGeneration m pop | OnBestFit m b => GBestFit m b
  | OnIterationEnd m => GIterationEnd m | OnEnd m pop b => GEnd m pop b
  end.
