(** * Individuals (src/ga/individual.rs) *)
From Verif Require Export Rng.
Open Scope nat_scope.

(** src/ga/individual.rs:66-69 [struct Individual]; the chromosome is a vector of genes. *)
Record individual (G : Type) := Ind { chromosome : list G; fitness : f64 }.
Arguments Ind {_} _ _.
Arguments chromosome {_} _.
Arguments fitness {_} _.

(** src/ga/individual.rs:130-137 [From<T> for Individual<T>]: fitness is f64::MIN until evaluated. *)
Definition ind_from {G} (ch : list G) : individual G := Ind ch fmin.

(** src/ga/individual.rs:147-166 [Ord::cmp]: the comparison of the fitness values, panicking
    (unimplemented!) when they are not comparable. *)
Definition key_cmp (a b : f64) : outcome comparison :=
  match fcmp a b with
  | Some c => Ok c
  | None => Panic
  end.
Definition ind_cmp {G} (a b : individual G) : outcome comparison := key_cmp (fitness a) (fitness b).

(** [Iterator::min()]: the first minimum; None when empty.  Calls [Ord::cmp] (acc, x) and keeps the
    accumulator unless it is Greater.  [key] is the fitness of an element. *)
Fixpoint iter_min_from {A} (key : A -> f64) (acc : A) (l : list A) : outcome A :=
  match l with
  | [] => Ok acc
  | x :: xs =>
      c ← key_cmp (key acc) (key x);
      iter_min_from key (match c with Gt => x | _ => acc end) xs
  end.
Definition iter_min {A} (key : A -> f64) (l : list A) : outcome (option A) :=
  match l with
  | [] => Ok None
  | x :: xs => m ← iter_min_from key x xs; Ok (Some m)
  end.

(** [Iterator::max()]: the last maximum. *)
Fixpoint iter_max_from {A} (key : A -> f64) (acc : A) (l : list A) : outcome A :=
  match l with
  | [] => Ok acc
  | x :: xs =>
      c ← key_cmp (key acc) (key x);
      iter_max_from key (match c with Gt => acc | _ => x end) xs
  end.
Definition iter_max {A} (key : A -> f64) (l : list A) : outcome (option A) :=
  match l with
  | [] => Ok None
  | x :: xs => m ← iter_max_from key x xs; Ok (Some m)
  end.

(** ** What they compute *)
Lemma key_cmp_Ok a b c : key_cmp a b = Ok c <-> fcmp a b = Some c.
Proof. unfold key_cmp. destruct (fcmp a b); split; congruence. Qed.
Lemma fcmp_flt a b : fcmp a b = Some Lt <-> flt a b = true.
Proof. unfold fcmp, flt, SFltb. destruct (SFcompare a b) as [[]|]; split; congruence. Qed.
Lemma fcmp_not_nan a b c : fcmp a b = Some c -> is_nan a = false /\ is_nan b = false.
Proof. pose proof (fcmp_key a b) as H. intros E. rewrite E in H. destruct c; tauto. Qed.
Lemma fcmp_Gt_flt a b : fcmp a b = Some Gt -> flt b a = true.
Proof. pose proof (fcmp_key a b) as H. intros E. rewrite E in H. apply flt_key. tauto. Qed.
Lemma fcmp_not_Gt_fle a b c : fcmp a b = Some c -> c <> Gt -> fle a b = true.
Proof.
  pose proof (fcmp_key a b) as H. intros E Hc. rewrite E in H. apply fle_key. destruct c; [| |congruence].
  - destruct H as (? & ? & Hk). split_and!; auto. rewrite Hk. fkeyd; lia.
  - destruct H as (? & ? & Hk). split_and!; auto. fkeyd; lia.
Qed.

Section MinMax.
Context {A : Type} (key : A -> f64).

Lemma iter_min_from_spec l : forall acc m, iter_min_from key acc l = Ok m -> is_nan (key acc) = false ->
  m ∈ acc :: l /\ fle (key m) (key acc) = true /\ Forall (fun x => fle (key m) (key x) = true) l.
Proof.
  induction l as [|x xs IH]; intros acc m H Hn; cbn [iter_min_from] in H.
  - injection H as <-. split; [left|]. split; [apply fle_refl; auto|constructor].
  - apply obind_Ok in H as (c & Hc & H). apply key_cmp_Ok in Hc.
    destruct (fcmp_not_nan _ _ _ Hc) as [_ Hx].
    destruct c.
    + destruct (IH _ _ H Hn) as (Hi & Ha & Hall).
      pose proof (fcmp_not_Gt_fle _ _ _ Hc ltac:(discriminate)) as Hle.
      split; [rewrite !elem_of_cons in *; tauto|]. split; [auto|]. constructor; [eapply fle_trans; eauto|auto].
    + destruct (IH _ _ H Hn) as (Hi & Ha & Hall).
      pose proof (fcmp_not_Gt_fle _ _ _ Hc ltac:(discriminate)) as Hle.
      split; [rewrite !elem_of_cons in *; tauto|]. split; [auto|]. constructor; [eapply fle_trans; eauto|auto].
    + destruct (IH _ _ H Hx) as (Hi & Ha & Hall).
      pose proof (flt_le _ _ (fcmp_Gt_flt _ _ Hc)) as Hle.
      split; [rewrite !elem_of_cons in *; tauto|]. split; [eapply fle_trans; eauto|]. constructor; auto.
Qed.
Lemma iter_max_from_spec l : forall acc m, iter_max_from key acc l = Ok m -> is_nan (key acc) = false ->
  m ∈ acc :: l /\ fle (key acc) (key m) = true /\ Forall (fun x => fle (key x) (key m) = true) l.
Proof.
  induction l as [|x xs IH]; intros acc m H Hn; cbn [iter_max_from] in H.
  - injection H as <-. split; [left|]. split; [apply fle_refl; auto|constructor].
  - apply obind_Ok in H as (c & Hc & H). apply key_cmp_Ok in Hc.
    destruct (fcmp_not_nan _ _ _ Hc) as [_ Hx].
    destruct c.
    + destruct (IH _ _ H Hx) as (Hi & Ha & Hall).
      pose proof (fcmp_not_Gt_fle _ _ _ Hc ltac:(discriminate)) as Hle.
      split; [rewrite !elem_of_cons in *; tauto|]. split; [eapply fle_trans; eauto|]. constructor; auto.
    + destruct (IH _ _ H Hx) as (Hi & Ha & Hall).
      pose proof (fcmp_not_Gt_fle _ _ _ Hc ltac:(discriminate)) as Hle.
      split; [rewrite !elem_of_cons in *; tauto|]. split; [eapply fle_trans; eauto|]. constructor; auto.
    + destruct (IH _ _ H Hn) as (Hi & Ha & Hall).
      pose proof (flt_le _ _ (fcmp_Gt_flt _ _ Hc)) as Hle.
      split; [rewrite !elem_of_cons in *; tauto|]. split; [auto|]. constructor; [eapply fle_trans; eauto|auto].
Qed.

Lemma iter_min_from_ok l : forall acc, is_nan (key acc) = false -> Forall (fun x => is_nan (key x) = false) l ->
  exists m, iter_min_from key acc l = Ok m.
Proof.
  induction l as [|x xs IH]; intros acc Ha Hl; [cbn; eauto|]. inversion_clear Hl as [|? ? Hx Hxs].
  cbn [iter_min_from]. unfold key_cmp. destruct (fcmp (key acc) (key x)) as [c|] eqn:E.
  - cbn [mbind outcome_bind]. apply IH; auto. destruct c; auto.
  - apply fcmp_nan in E. rewrite Ha, Hx in E. destruct E; discriminate.
Qed.
Lemma iter_max_from_ok l : forall acc, is_nan (key acc) = false -> Forall (fun x => is_nan (key x) = false) l ->
  exists m, iter_max_from key acc l = Ok m.
Proof.
  induction l as [|x xs IH]; intros acc Ha Hl; [cbn; eauto|]. inversion_clear Hl as [|? ? Hx Hxs].
  cbn [iter_max_from]. unfold key_cmp. destruct (fcmp (key acc) (key x)) as [c|] eqn:E.
  - cbn [mbind outcome_bind]. apply IH; auto. destruct c; auto.
  - apply fcmp_nan in E. rewrite Ha, Hx in E. destruct E; discriminate.
Qed.
End MinMax.
