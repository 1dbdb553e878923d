(** * Vocabulary for the builder properties: what a sequence of calls has set *)
From Verif Require Import BuilderModel.
Open Scope nat_scope.

Section Last.
Context {F M C Sel R P Pr : Type}.
Notation call := (builder_call F M C Sel R P Pr).
Definition durations (c : call) : option N := match c with SetMaxDuration d => Some d | _ => None end.
Definition limits (c : call) : option N := match c with SetMaxGenerationCount n => Some n | _ => None end.
Definition sizes (c : call) : option N := match c with SetPopulationSize n => Some n | _ => None end.
Definition fitnesses (c : call) : option F := match c with SetFitness x => Some x | _ => None end.
Definition mutations (c : call) : option M := match c with SetMutationOperator x => Some x | _ => None end.
Definition crossovers (c : call) : option C := match c with SetCrossoverOperator x => Some x | _ => None end.
Definition selections (c : call) : option Sel := match c with SetSelectionOperator x => Some x | _ => None end.
Definition replacements (c : call) : option R := match c with SetReplacementOperator x => Some x | _ => None end.
Definition generators (c : call) : option P := match c with SetPopulationGenerator x => Some x | _ => None end.
Definition probes (c : call) : option Pr := match c with SetProbe x => Some x | _ => None end.
(** A size or a generation count of zero. *)
Definition invalid_call (c : call) : Prop :=
  match c with SetPopulationSize n | SetMaxGenerationCount n => n = 0%N | _ => False end.
End Last.

(** The last value set. *)
Definition last_set {A B} (what : A -> option B) (calls : list A) : option B := last (omap what calls).

Section LastPreset.
Context {F : Type}.
Definition p_durations (c : preset_call F) : option N := match c with PMaxDuration d => Some d | _ => None end.
Definition p_limits (c : preset_call F) : option N := match c with PMaxGenerationCount n => Some n | _ => None end.
Definition p_sizes (c : preset_call F) : option N := match c with PPopulationSize n => Some n | _ => None end.
Definition p_dims (c : preset_call F) : option N := match c with PDim n => Some n | _ => None end.
Definition p_fitnesses (c : preset_call F) : option F := match c with PFitness x => Some x | _ => None end.
Definition p_invalid (c : preset_call F) : Prop :=
  match c with PPopulationSize n | PMaxGenerationCount n | PDim n => n = 0%N | _ => False end.
End LastPreset.

(** The error reported for the first missing item, in the order fitness, mutation, crossover, selection,
    replacement, generator, probe. *)
Fixpoint first_missing (l : list (bool * config_error)) : option config_error :=
  match l with [] => None | (present, e) :: l => if present then first_missing l else Some e end.
Definition is_set {A} (o : option A) : bool := match o with Some _ => true | None => false end.
