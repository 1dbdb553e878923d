(** * Vocabulary for the solver properties: what can be read off a trace of callbacks *)
From Verif Require Import GaModel.
Open Scope nat_scope.

Inductive callback := KStart | KInitial | KNewBest | KIterStart | KNewGeneration | KBestFit | KIterEnd | KEnd.
Definition kind {G} (e : event G) : callback :=
  match e with
  | OnStart _ => KStart | OnInitialPopulation _ _ => KInitial | OnNewBest _ _ => KNewBest
  | OnIterationStart _ => KIterStart | OnNewGeneration _ _ => KNewGeneration | OnBestFit _ _ => KBestFit
  | OnIterationEnd _ => KIterEnd | OnEnd _ _ _ => KEnd
  end.
Definition event_metrics {G} (e : event G) : metrics :=
  match e with
  | OnStart m | OnInitialPopulation m _ | OnNewBest m _ | OnIterationStart m | OnNewGeneration m _
  | OnBestFit m _ | OnIterationEnd m | OnEnd m _ _ => m
  end.
(** The callback with the generation number it reports. *)
Definition tagged {G} (e : event G) : callback * nat := (kind e, m_generation (event_metrics e)).

(** The populations shown to the probe. *)
Definition shown {G} (e : event G) : option (list (individual G)) :=
  match e with OnInitialPopulation _ pop | OnNewGeneration _ pop | OnEnd _ pop _ => Some pop | _ => None end.
Definition new_best {G} (e : event G) : option (individual G) :=
  match e with OnNewBest _ b => Some b | _ => None end.

(** The callbacks of generation [g]; [nb] tells whether on_new_best is among them. *)
Definition block (g : nat) (nb : bool) : list (callback * nat) :=
  [(KIterStart, g); (KNewGeneration, g); (KBestFit, g)] ++ (if nb then [(KNewBest, g)] else []) ++ [(KIterEnd, g)].
(** The blocks of generations g, g+1, ... *)
Fixpoint blocks (g : nat) (nbs : list bool) : list (callback * nat) :=
  match nbs with [] => [] | nb :: nbs => block g nb ++ blocks (S g) nbs end.

(** [P] holds of every individual of every population shown to the probe in [evs]. *)
Definition all_shown {G} (evs : list (event G)) (P : individual G -> Prop) : Prop :=
  forall e q x, e ∈ evs -> shown e = Some q -> x ∈ q -> P x.
(** [b] is strictly better (smaller) than everything shown in [evs]. *)
Definition improves_on {G} (evs : list (event G)) (b : individual G) : Prop :=
  all_shown evs (fun x => flt (fitness b) (fitness x) = true).

(** What a generation may rely on so as not to panic: [Inv] holds of populations, [Kid] of single children;
    [n] is the number of children crossover makes. *)
Record well_behaved {G St} (cfg : config G St) (Inv : list (individual G) -> Prop) (Pool : list (individual G) -> Prop)
    (Kid : individual G -> Prop) (n : nat) : Prop := {
  wb_fitness : forall pop, Inv (eval_pop cfg pop) -> Forall (fun x => is_nan (fitness x) = false) (eval_pop cfg pop);
  wb_size : 0 < population_size cfg;
  wb_generate : forall s, exists pop s', op_generate cfg (population_size cfg) s = Ok (pop, s') /\ pop <> [] /\ Inv (eval_pop cfg pop);
  wb_select : forall m pop s, Inv pop -> Forall (fun x => fitness x = op_fitness cfg (chromosome x)) pop -> exists sel s', op_select cfg m pop s = Ok (sel, s') /\
    exists pool, omapM (index pop) sel = Ok pool /\ Pool pool;
  wb_crossover : forall m pool s, Pool pool -> exists ch s', op_crossover cfg m pool s = Ok (ch, s') /\ length ch = n /\ Forall Kid ch;
  wb_mutate : forall m c s, Kid c -> exists c' s', op_mutate cfg m c s = Ok (c', s') /\ Kid c';
  wb_eval : forall c, Kid c -> Kid (eval_ind cfg c);
  wb_replace : forall m pop ch s, Inv pop -> length ch = n -> Forall Kid ch -> exists pop' s', op_replace cfg m pop ch s = Ok (pop', s') /\
    length pop' = population_size cfg /\ Inv (eval_pop cfg pop') }.

Global Instance callback_eq_dec : EqDecision callback.
Proof. solve_decision. Defined.
(** The number of iterations that were started. *)
Definition iterations {G} (evs : list (event G)) : nat := length (filter (fun e => kind e = KIterStart) evs).

(** ** One generation, in terms of the operators *)
Definition evaluate {G} (f : list G -> f64) (pop : list (individual G)) : list (individual G) :=
  (fun x => Ind (chromosome x) (f (chromosome x))) <$> pop.
(** Mutation is applied once to each child, in order. *)
Inductive mutated {G St} (cfg : config G St) (m : metrics) : list (individual G) -> St -> list (individual G) -> St -> Prop :=
| mutated_nil s : mutated cfg m [] s [] s
| mutated_cons c c' cs cs' s s1 s2 :
    op_mutate cfg m c s = Ok (c', s1) -> mutated cfg m cs s1 cs' s2 -> mutated cfg m (c :: cs) s (c' :: cs') s2.
(** [q'] is made from the evaluated population [q]: selection, crossover of the selected individuals in the
    order of selection, mutation of each child, evaluation of the children if replacement asks for it,
    replacement, evaluation. *)
Definition next_population {G St} (cfg : config G St) (m : metrics) (q : list (individual G)) (s : St) (q' : list (individual G)) (s' : St) : Prop :=
  exists sel s1 pool ch s2 ch' s3 raw,
    op_select cfg m q s = Ok (sel, s1) /\ Forall2 (fun i x => q !! i = Some x) sel pool /\
    op_crossover cfg m pool s1 = Ok (ch, s2) /\ mutated cfg m ch s2 ch' s3 /\
    op_replace cfg m q (if op_requires_children_fitness cfg then evaluate (op_fitness cfg) ch' else ch') s3 = Ok (raw, s') /\
    q' = evaluate (op_fitness cfg) raw.
(** The populations of generation 0, 1, 2, ... *)
Definition population_of {G} (e : event G) : option (list (individual G)) :=
  match e with OnInitialPopulation _ pop | OnNewGeneration _ pop => Some pop | _ => None end.
Definition populations {G} (evs : list (event G)) : list (list (individual G)) := omap population_of evs.
