(** * Base: outcomes of Rust computations and list helpers. *)
From stdpp Require Export base list numbers list_numbers sorting.

(** A Rust computation returns a value, panics (assert!, unwrap on None, index out of
    bounds, empty gen_range, ...), or is still running when the fuel given to an
    unbounded loop is exhausted. *)
Inductive outcome (A : Type) : Type :=
| Ok (a : A)
| Panic
| Diverge.
Arguments Ok {_} _.
Arguments Panic {_}.
Arguments Diverge {_}.

Global Instance outcome_ret : MRet outcome := @Ok.
Global Instance outcome_bind : MBind outcome := fun A B f m =>
  match m with Ok a => f a | Panic => Panic | Diverge => Diverge end.
Global Instance outcome_fmap : FMap outcome := fun A B f m =>
  match m with Ok a => Ok (f a) | Panic => Panic | Diverge => Diverge end.

(** [assert!(b)] *)
Definition rassert (b : bool) : outcome unit := if b then Ok tt else Panic.

(** [opt.unwrap()] / [opt.expect(..)] and bounds-checked indexing [v[i]] *)
Definition unwrap {A} (o : option A) : outcome A :=
  match o with Some a => Ok a | None => Panic end.
Definition index {A} (l : list A) (i : nat) : outcome A := unwrap (l !! i).

(** [v.swap(i, j)], panics when an index is out of bounds. *)
Definition swap {A} (i j : nat) (l : list A) : outcome (list A) :=
  match l !! i, l !! j with
  | Some a, Some b => Ok (<[j := a]> (<[i := b]> l))
  | _, _ => Panic
  end.

(** [v[i] = x], panics when out of bounds. *)
Definition assign {A} (l : list A) (i : nat) (x : A) : outcome (list A) :=
  if decide (i < length l) then Ok (<[i := x]> l) else Panic.

(** Monadic map over a list, stopping at the first panic. *)
Fixpoint omapM {A B} (f : A -> outcome B) (l : list A) : outcome (list B) :=
  match l with
  | [] => Ok []
  | x :: xs => y ← f x; ys ← omapM f xs; Ok (y :: ys)
  end.

(** Monadic left fold ([for x in l { s = f(s, x) }]). *)
Fixpoint ofold {A S} (f : S -> A -> outcome S) (s : S) (l : list A) : outcome S :=
  match l with
  | [] => Ok s
  | x :: xs => s' ← f s x; ofold f s' xs
  end.

Lemma obind_Ok {A B} (m : outcome A) (f : A -> outcome B) b :
  (m ≫= f) = Ok b <-> exists a, m = Ok a /\ f a = Ok b.
Proof.
  split; [destruct m as [a| |]; cbn; intros H; try discriminate; eauto|].
  intros (a & -> & H); exact H.
Qed.

Lemma rassert_Ok b u : rassert b = Ok u <-> b = true.
Proof. destruct b, u; cbn; split; congruence. Qed.

Lemma unwrap_Ok {A} (o : option A) a : unwrap o = Ok a <-> o = Some a.
Proof. destruct o; cbn; split; congruence. Qed.

Lemma index_Ok {A} (l : list A) i a : index l i = Ok a <-> l !! i = Some a.
Proof. apply unwrap_Ok. Qed.

Lemma assign_Ok {A} (l : list A) i x l' :
  assign l i x = Ok l' <-> i < length l /\ l' = <[i := x]> l.
Proof. unfold assign; case_decide; split; [intros [=]|intros [? ->]|discriminate|tauto]; auto. Qed.

Ltac oinv1 :=
  match goal with
  | H : Ok _ = Ok _ |- _ => injection H as H
  | H : mret _ = Ok _ |- _ => injection H as H
  | H : Panic = Ok _ |- _ => discriminate H
  | H : Diverge = Ok _ |- _ => discriminate H
  | H : (_ ≫= _) = Ok _ |- _ =>
      let a := fresh "v" in let Ha := fresh "Hv" in
      apply obind_Ok in H as (a & Ha & H)
  | H : rassert _ = Ok _ |- _ => apply rassert_Ok in H
  | H : index _ _ = Ok _ |- _ => apply index_Ok in H
  | H : unwrap _ = Ok _ |- _ => apply unwrap_Ok in H
  | H : assign _ _ _ = Ok _ |- _ => apply assign_Ok in H as [? ?]
  end.
Ltac oinv := repeat (oinv1; cbv beta in * ); subst.

Lemma ofold_cons {A S} (f : S -> A -> outcome S) s x l :
  ofold f s (x :: l) = (s' ← f s x; ofold f s' l).
Proof. reflexivity. Qed.
Lemma ofold_cons_Ok {A S} (f : S -> A -> outcome S) s x l s1 :
  f s x = Ok s1 -> ofold f s (x :: l) = ofold f s1 l.
Proof. intros H. cbn. rewrite H. reflexivity. Qed.

Lemma ofold_app {A S} (f : S -> A -> outcome S) s l1 l2 :
  ofold f s (l1 ++ l2) = (s' ← ofold f s l1; ofold f s' l2).
Proof.
  revert s; induction l1 as [|x xs IH]; intros s; cbn; [reflexivity|].
  destruct (f s x); cbn; auto.
Qed.

(** Invariant rule for [ofold]. *)
Lemma ofold_inv {A S} (f : S -> A -> outcome S) (P : S -> Prop) s l s' :
  (forall a x a', P a -> x ∈ l -> f a x = Ok a' -> P a') ->
  P s -> ofold f s l = Ok s' -> P s'.
Proof.
  revert s; induction l as [|x xs IH]; intros s Hstep Hs H; cbn in H.
  - injection H as <-; exact Hs.
  - apply obind_Ok in H as (s1 & H1 & H2).
    eapply (IH s1); [|eapply Hstep; [exact Hs|left|exact H1]|exact H2].
    intros a y a' Ha Hy; apply Hstep; [exact Ha|right; exact Hy].
Qed.

Lemma swap_Ok {A} i j (l l' : list A) :
  swap i j l = Ok l' ->
  exists a b, l !! i = Some a /\ l !! j = Some b /\ l' = <[j := a]> (<[i := b]> l).
Proof.
  unfold swap. destruct (l !! i) as [a|] eqn:Hi; [|discriminate].
  destruct (l !! j) as [b|] eqn:Hj; [|discriminate].
  intros [= <-]; eauto.
Qed.

Lemma swap_ok_iff {A} i j (l : list A) :
  (exists l', swap i j l = Ok l') <-> i < length l /\ j < length l.
Proof.
  rewrite <- !lookup_lt_is_Some. unfold swap.
  destruct (l !! i), (l !! j); split; intros H; eauto.
  all: try (destruct H as [? H]; discriminate).
  all: destruct H as [[? ?] [? ?]]; discriminate.
Qed.

(** The transposition of two indices. *)
Definition transp (i j k : nat) : nat :=
  if decide (k = i) then j else if decide (k = j) then i else k.

Lemma insert_swap_lookup {A} (l : list A) i j a b k :
  l !! i = Some a -> l !! j = Some b ->
  <[j := a]> (<[i := b]> l) !! k = l !! transp i j k.
Proof.
  intros Hi Hj.
  assert (Hi' : i < length l) by (apply lookup_lt_Some in Hi; exact Hi).
  assert (Hj' : j < length l) by (apply lookup_lt_Some in Hj; exact Hj).
  unfold transp. destruct (decide (k = j)) as [->|Hkj].
  - rewrite list_lookup_insert by (rewrite insert_length; exact Hj').
    destruct (decide (j = i)) as [->|]; congruence.
  - rewrite list_lookup_insert_ne by congruence.
    destruct (decide (k = i)) as [->|Hki].
    + rewrite list_lookup_insert by exact Hi'. congruence.
    + rewrite list_lookup_insert_ne by congruence. reflexivity.
Qed.

Lemma insert_swap_perm {A} (l : list A) i j a b :
  l !! i = Some a -> l !! j = Some b -> <[j := a]> (<[i := b]> l) ≡ₚ l.
Proof.
  intros Hi Hj. apply Permutation_inj. split; [rewrite !insert_length; reflexivity|].
  exists (transp i j). split.
  - intros x y. unfold transp. repeat case_decide; congruence.
  - intros k. apply insert_swap_lookup; auto.
Qed.

Lemma swap_perm {A} i j (l l' : list A) : swap i j l = Ok l' -> l' ≡ₚ l.
Proof. intros (a & b & Hi & Hj & ->)%swap_Ok. apply insert_swap_perm; auto. Qed.

Lemma swap_length {A} i j (l l' : list A) : swap i j l = Ok l' -> length l' = length l.
Proof. intros H%swap_perm. rewrite H; reflexivity. Qed.

(** ** Executions that do not panic *)
Definition is_Ok {A} (m : outcome A) : Prop := exists a, m = Ok a.

Lemma is_Ok_Ok {A} (a : A) : is_Ok (Ok a). Proof. eexists; reflexivity. Qed.
Global Hint Resolve is_Ok_Ok : core.

Lemma filter_all {A} (P : A -> Prop) `{forall x, Decision (P x)} l : Forall P l -> filter P l = l.
Proof. induction 1; cbn; [reflexivity|]. rewrite decide_True by auto. f_equal; auto. Qed.
Lemma filter_none {A} (P : A -> Prop) `{forall x, Decision (P x)} l :
  Forall (fun x => ~ P x) l -> filter P l = [].
Proof. induction 1; cbn; [reflexivity|]. rewrite decide_False by auto. auto. Qed.

Lemma StronglySorted_lookup {A} (R : relation A) (l : list A) i j x y :
  StronglySorted R l -> i < j -> l !! i = Some x -> l !! j = Some y -> R x y.
Proof.
  intros Hs. revert i j. induction Hs as [|z zs Hzs IH Hall]; intros i j Hij Hx Hy; [discriminate|].
  destruct j as [|j]; [lia|]. destruct i as [|i]; cbn in *.
  - injection Hx as ->. rewrite Forall_lookup in Hall. eauto.
  - apply (IH i j); auto; lia.
Qed.

Lemma insert_mid {A} (l k : list A) x y i : i = length l -> <[i := y]> (l ++ x :: k) = l ++ y :: k.
Proof. intros ->. rewrite insert_app_r_alt by lia. rewrite Nat.sub_diag. reflexivity. Qed.
Lemma lookup_mid {A} (l k : list A) x i : i = length l -> (l ++ x :: k) !! i = Some x.
Proof. intros ->. rewrite lookup_app_r by lia. rewrite Nat.sub_diag. reflexivity. Qed.

Lemma length_pos_ne {A} (l : list A) : 0 < length l <-> l <> [].
Proof. destruct l; cbn; split; intros; try lia; congruence. Qed.
