(** * Vocabulary for the crossover properties (independent of the model) *)
From stdpp Require Import base list sorting.
Open Scope nat_scope.

Section Spec.
Context {G : Type}.
Implicit Types p q c : list G.

(** The children are position-wise recombinations of equal-length parents: same length, and at each
    locus the children hold exactly the two parental genes of that locus, one each. *)
Definition recombination p1 p2 c1 c2 : Prop :=
  length c1 = length p1 /\ length c2 = length p1 /\
  forall l a b, p1 !! l = Some a -> p2 !! l = Some b ->
    (c1 !! l = Some a /\ c2 !! l = Some b) \/ (c1 !! l = Some b /\ c2 !! l = Some a).

(** One cut: everything before [cut] from [p], everything from [cut] on from [q]. *)
Definition cut_once (cut : nat) p q : list G := take cut p ++ drop cut q.

(** Two cuts: the middle segment [a, b) comes from [q]. *)
Definition cut_twice (a b : nat) p q : list G :=
  take a p ++ take (b - a) (drop a q) ++ drop b p.

(** Alternating: the gene at locus [l] comes from [q] iff an odd number of cut points are <= l. *)
Definition cuts_before (cuts : list nat) (l : nat) : nat := length (filter (fun k => k <= l) cuts).
Definition alternates (cuts : list nat) p q c : Prop :=
  forall l, c !! l = if Nat.even (cuts_before cuts l) then p !! l else q !! l.

(** [x] occurs before [y] in [l]. *)
Definition before (l : list G) (x y : G) : Prop :=
  exists i j, i < j /\ l !! i = Some x /\ l !! j = Some y.

(** [c] carries the genes p[b..e) at the same indices. *)
Definition keeps_segment p c (b e : nat) : Prop :=
  forall l, b <= l < e -> c !! l = p !! l.

(** Order crossover: the substring p[b..e) stays in place, the other genes fill the remaining places
    from left to right in the order of [q]. *)
Definition order_child `{EqDecision G} p q (b e : nat) : list G :=
  let sub := take (e - b) (drop b p) in
  let others := filter (fun g => g ∉ sub) q in
  take b others ++ sub ++ drop b others.

(** Partially mapped crossover: the genes of the segment p[b..e) are mapped to the genes of [q] at the same places, again and again until the
    result is none of the segment's genes: [mapped g h] says that this leads from [g] to [h]. *)
Inductive mapped p q (b e : nat) : G -> G -> Prop :=
| mapped_free g : g ∉ take (e - b) (drop b p) -> mapped p q b e g g
| mapped_by i g g' h : b <= i < e -> p !! i = Some g -> q !! i = Some g' -> mapped p q b e g' h -> mapped p q b e g h.
(** The child keeps the segment and has the mapped genes of [q] everywhere else. *)
Definition partially_mapped_child p q (b e : nat) c : Prop :=
  length c = length p /\ keeps_segment p c b e /\ forall l g, ~ b <= l < e -> q !! l = Some g -> exists h, mapped p q b e g h /\ c !! l = Some h.

(** Precedence preserving crossover: the parents take turns as [mask] says ([true]: the first); the one whose turn it is gives its first remaining
    gene, which is then struck out of both. *)
Fixpoint taking_turns `{EqDecision G} (mask : list bool) p q : list G :=
  match mask with
  | [] => []
  | b :: mask =>
      match (if b then p else q) with
      | [] => []
      | g :: _ => g :: taking_turns mask (filter (fun x => x <> g) p) (filter (fun x => x <> g) q)
      end
  end.

(** The children follow one source mask: where it is true the children equal their own parent,
    elsewhere the parents' genes are exchanged. *)
Definition follows (mask : nat -> bool) p1 p2 c1 c2 : Prop :=
  forall l, c1 !! l = (if mask l then p1 else p2) !! l /\ c2 !! l = (if mask l then p2 else p1) !! l.
End Spec.

(** Processing a pool in consecutive pairs, threading a state: [out] consists of the results of [single]
    on (pool[0],pool[1]), (pool[2],pool[3]), ... in this order, and nothing else. *)
Definition pairwise_results {I S R : Type} (single : I -> I -> S -> R) (ok : (I * I) * S -> R)
    (pool : list I) (s : S) (out : list I) (s' : S) : Prop :=
  length out = length pool /\
  exists st : nat -> S, st 0 = s /\ st (Nat.div2 (length pool)) = s' /\
    forall i, 2 * i + 1 < length pool ->
      exists a b c d, pool !! (2 * i) = Some a /\ pool !! (2 * i + 1) = Some b /\
        out !! (2 * i) = Some c /\ out !! (2 * i + 1) = Some d /\
        single a b (st i) = ok ((c, d), st (i + 1)).
