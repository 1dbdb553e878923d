(** * When MultiPoint alternates at its cut points *)
From Verif Require Export CrossoverProofs.
Open Scope nat_scope.

Section Multi.
Context {G : Type}.
Lemma cuts_before_cons c cuts l : cuts_before (c :: cuts) l = (if decide (c <= l) then 1 else 0) + cuts_before cuts l.
Proof. unfold cuts_before. rewrite filter_cons. destruct (decide (c <= l)); reflexivity. Qed.
Theorem multi_point_iff k (p1 p2 : list G) r : length p1 = length p2 -> 1 <= k <= length p1 ->
  exists c0 cuts c1 c2 r', multi_point k p1 p2 r = Ok ((c1, c2), r') /\ StronglySorted (≤) (c0 :: cuts) /\ NoDup (c0 :: cuts) /\ length (c0 :: cuts) = k /\ Forall (fun x => x < length p1) (c0 :: cuts) /\
    (exists s r1, sample_indices (length p1) k r = Ok (s, r1) /\ c0 :: cuts ≡ₚ s) /\
    (Nat.odd c0 = true -> alternates (c0 :: cuts) p1 p2 c1 /\ alternates (c0 :: cuts) p2 p1 c2) /\
    (Nat.even c0 = true -> alternates cuts p1 p2 c1 /\ alternates cuts p2 p1 c2) /\
    ((exists a b, p1 !! c0 = Some a /\ p2 !! c0 = Some b /\ a <> b) -> alternates (c0 :: cuts) p1 p2 c1 -> Nat.odd c0 = true).
Proof.
  intros Hl Hk. destruct (multi_point_structure k p1 p2 r Hl Hk) as (cs & c0 & c1 & c2 & r' & E & Hs & Hnd & Hlc & Hall & Hc0 & Hsm & Hf). destruct cs as [|x cuts]; [discriminate|]. injection Hc0 as ->.
  exists c0, cuts, c1, c2, r'. split; [exact E|]. split; [exact Hs|]. split; [exact Hnd|]. split; [exact Hlc|]. split; [exact Hall|]. split; [exact Hsm|].
  assert (Later : forall l, l < c0 -> cuts_before cuts l = 0).
  { intros l Hlt. unfold cuts_before. inversion Hs as [|? ? _ Hge]; subst. clear -Hge Hlt. induction Hge as [|y cuts Hy Hge IH]; [reflexivity|]. rewrite filter_cons_False by lia. exact IH. }
  assert (Even : forall l, Nat.even c0 = true -> bool_decide (l < c0) || Nat.even (c0 + cuts_before (c0 :: cuts) l - 1) = Nat.even (cuts_before cuts l)).
  { intros l Ev. case_bool_decide as Hlt; cbn [orb]; [rewrite Later by exact Hlt; reflexivity|]. rewrite cuts_before_cons, decide_True by lia. replace (c0 + (1 + cuts_before cuts l) - 1) with (c0 + cuts_before cuts l) by lia. rewrite Nat.even_add, Ev. destruct (Nat.even (cuts_before cuts l)); reflexivity. }
  assert (Odd : forall l, Nat.odd c0 = true -> bool_decide (l < c0) || Nat.even (c0 + cuts_before (c0 :: cuts) l - 1) = Nat.even (cuts_before (c0 :: cuts) l)).
  { intros l Od. case_bool_decide as Hlt; cbn [orb]; rewrite cuts_before_cons; [rewrite decide_False by lia; rewrite Later by exact Hlt; reflexivity|]. rewrite decide_True by lia. replace (c0 + (1 + cuts_before cuts l) - 1) with (c0 + cuts_before cuts l) by lia.
    change (1 + cuts_before cuts l) with (S (cuts_before cuts l)). rewrite Nat.even_add, Nat.even_succ. rewrite <- (Nat.negb_odd c0), Od. rewrite <- Nat.negb_odd. destruct (Nat.odd (cuts_before cuts l)); reflexivity. }
  split; [|split].
  - intros Od. split; intros l; destruct (Hf l) as [H1 H2]; [rewrite H1|rewrite H2]; rewrite Odd by exact Od; destruct (Nat.even (cuts_before (c0 :: cuts) l)); reflexivity.
  - intros Ev. split; intros l; destruct (Hf l) as [H1 H2]; [rewrite H1|rewrite H2]; rewrite Even by exact Ev; destruct (Nat.even (cuts_before cuts l)); reflexivity.
  - intros (a & b & Ha & Hb & Ne) Alt. destruct (Nat.odd c0) eqn:Od; [reflexivity|]. exfalso. assert (Ev : Nat.even c0 = true) by (rewrite <- Nat.negb_odd, Od; reflexivity).
    specialize (Alt c0). destruct (Hf c0) as [H1 _]. rewrite Even in H1 by exact Ev. rewrite cuts_before_cons, decide_True in Alt by lia. change (1 + cuts_before cuts c0) with (S (cuts_before cuts c0)) in Alt. rewrite Nat.even_succ, <- Nat.negb_even in Alt.
    rewrite H1 in Alt. destruct (Nat.even (cuts_before cuts c0)); cbn [negb] in Alt; congruence.
Qed.
End Multi.
