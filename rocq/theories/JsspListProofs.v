(** * List lemmas for the job shop proofs: neighbours in a chain, minima, updates *)
From Verif Require Export JsspModel.
Open Scope nat_scope.

(** The element after, and the one before, i in l *)
Fixpoint next (l : list nat) (i : nat) : option nat :=
  match l with [] => None | x :: l' => if decide (x = i) then head l' else next l' i end.
Fixpoint prev_from (p : option nat) (l : list nat) (i : nat) : option nat :=
  match l with [] => None | x :: l' => if decide (x = i) then p else prev_from (Some x) l' i end.
Definition prev (l : list nat) (i : nat) : option nat := prev_from None l i.

Lemma next_app a i b : i ∉ a -> next (a ++ i :: b) i = head b.
Proof.
  induction a as [|x a IH]; intros H; cbn; [rewrite decide_True by reflexivity; reflexivity|].
  apply not_elem_of_cons in H as [? ?]. rewrite decide_False by congruence. auto.
Qed.
Lemma prev_from_app p a i b : i ∉ a -> prev_from p (a ++ i :: b) i = match last a with Some x => Some x | None => p end.
Proof.
  revert p. induction a as [|x a IH]; intros p H; cbn; [rewrite decide_True by reflexivity; reflexivity|].
  apply not_elem_of_cons in H as [? ?]. rewrite decide_False by congruence. rewrite IH by assumption. destruct a as [|y a]; [reflexivity|].
  cbn. destruct (last (y :: a)) eqn:E; [reflexivity|]. apply last_None in E. discriminate.
Qed.
Lemma prev_app a i b : i ∉ a -> prev (a ++ i :: b) i = last a.
Proof. intros H. unfold prev. rewrite prev_from_app by assumption. destruct (last a); reflexivity. Qed.
Lemma next_not_in l i : i ∉ l -> next l i = None.
Proof. induction l as [|x l IH]; intros H; cbn; [reflexivity|]. apply not_elem_of_cons in H as [? ?]. rewrite decide_False by congruence. auto. Qed.
Lemma prev_from_not_in p l i : i ∉ l -> prev_from p l i = None.
Proof. revert p. induction l as [|x l IH]; intros p H; cbn; [reflexivity|]. apply not_elem_of_cons in H as [? ?]. rewrite decide_False by congruence. auto. Qed.
Lemma prev_not_in l i : i ∉ l -> prev l i = None.
Proof. apply prev_from_not_in. Qed.
Lemma split_in (l : list nat) i : i ∈ l -> exists a b, l = a ++ i :: b /\ i ∉ a.
Proof.
  induction l as [|x l IH]; intros H; [apply elem_of_nil in H; tauto|]. destruct (decide (x = i)) as [->|Hx].
  - exists [], l. split; [reflexivity|apply not_elem_of_nil].
  - apply elem_of_cons in H as [?|H]; [congruence|]. destruct (IH H) as (a & b & -> & Ha). exists (x :: a), b. split; [reflexivity|].
    apply not_elem_of_cons. auto.
Qed.
Lemma next_snoc l j i : j ∉ l -> NoDup l -> next (l ++ [j]) i = if decide (last l = Some i) then Some j else next l i.
Proof.
  intros Hj Hl. destruct (decide (i ∈ l)) as [Hi|Hi].
  - destruct (split_in l i Hi) as (a & b & -> & Ha). rewrite <- app_assoc. cbn [app]. rewrite !next_app by assumption.
    destruct b as [|y b]; cbn.
    + rewrite stdpp.list.last_snoc, decide_True by reflexivity. reflexivity.
    + rewrite decide_False; [reflexivity|]. rewrite last_app, last_cons. intros E. apply NoDup_app in Hl as (_ & _ & Hl).
      apply NoDup_cons in Hl as [Hl _]. apply Hl. cbn in E. destruct (last (y :: b)) as [z|] eqn:Ez.
      * apply last_Some in Ez as [b' Ez]. rewrite Ez. injection E as <-. apply elem_of_app. right. apply elem_of_list_here.
      * apply last_None in Ez. discriminate.
  - rewrite decide_False.
    + destruct (decide (i = j)) as [->|Hij]; [rewrite next_app by assumption; cbn; rewrite next_not_in by assumption; reflexivity|].
      rewrite !next_not_in; [reflexivity|assumption|]. rewrite elem_of_app, elem_of_list_singleton. tauto.
    + intros E. apply Hi. apply last_Some in E as [l' ->]. apply elem_of_app. right. apply elem_of_list_here.
Qed.
Lemma prev_snoc l j i : j ∉ l -> prev (l ++ [j]) i = if decide (i = j) then last l else prev l i.
Proof.
  intros Hj. case_decide as E; [subst; apply prev_app; assumption|].
  destruct (decide (i ∈ l)) as [Hi|Hi].
  - destruct (split_in l i Hi) as (a & b & -> & Ha). rewrite <- app_assoc. cbn [app]. rewrite !prev_app by assumption. reflexivity.
  - rewrite !prev_not_in; [reflexivity|assumption|]. rewrite elem_of_app, elem_of_list_singleton. tauto.
Qed.

(** ** Minima and maxima *)
Lemma foldl_min_le l x : (foldl N.min x l <= x)%N /\ (forall y, y ∈ l -> (foldl N.min x l <= y)%N) /\ (foldl N.min x l = x \/ foldl N.min x l ∈ l).
Proof.
  revert x. induction l as [|z l IH]; intros x; cbn [foldl].
  - split; [lia|]. split; [intros y H; apply elem_of_nil in H; tauto|auto].
  - destruct (IH (N.min x z)) as (A & B & C). split; [lia|]. split.
    + intros y [->|H]%elem_of_cons; [lia|auto].
    + destruct C as [C|C]; [|right; right; exact C]. destruct (N.min_spec x z) as [[_ E]|[_ E]]; rewrite E in C; [left; rewrite E; exact C|right; rewrite E, C; left].
Qed.
Lemma list_min_None l : list_min l = None <-> l = [].
Proof. destruct l; cbn; split; congruence. Qed.
Lemma list_min_Some l x : list_min l = Some x -> x ∈ l /\ forall y, y ∈ l -> (x <= y)%N.
Proof.
  destruct l as [|z l]; [discriminate|]. cbn. intros [= <-]. destruct (foldl_min_le l z) as (A & B & C). split.
  - destruct C as [->|C]; [left|right; exact C].
  - intros y [->|H]%elem_of_cons; auto.
Qed.
Lemma list_min_ex l x : x ∈ l -> exists y, list_min l = Some y.
Proof. destruct l; [intros H; apply elem_of_nil in H; tauto|eexists; reflexivity]. Qed.
Lemma foldl_max_ge l x : (x <= foldl N.max x l)%N /\ (forall y, y ∈ l -> (y <= foldl N.max x l)%N) /\ (foldl N.max x l = x \/ foldl N.max x l ∈ l).
Proof.
  revert x. induction l as [|z l IH]; intros x; cbn [foldl].
  - split; [lia|]. split; [intros y H; apply elem_of_nil in H; tauto|auto].
  - destruct (IH (N.max x z)) as (A & B & C). split; [lia|]. split.
    + intros y [->|H]%elem_of_cons; [lia|auto].
    + destruct C as [C|C]; [|right; right; exact C]. destruct (N.max_spec x z) as [[_ E]|[_ E]]; rewrite E in C; [right; rewrite E, C; left|left; rewrite E; exact C].
Qed.
Lemma list_max_Some l x : list_max_N l = Some x -> x ∈ l /\ forall y, y ∈ l -> (y <= x)%N.
Proof.
  destruct l as [|z l]; [discriminate|]. cbn. intros [= <-]. destruct (foldl_max_ge l z) as (A & B & C). split.
  - destruct C as [->|C]; [left|right; exact C].
  - intros y [->|H]%elem_of_cons; auto.
Qed.
Lemma list_max_ex l : l <> [] -> exists y, list_max_N l = Some y.
Proof. destruct l; [congruence|eexists; reflexivity]. Qed.

(** ** Outcomes *)
Lemma index_eq {A} (l : list A) i a : l !! i = Some a -> index l i = Ok a.
Proof. unfold index. intros ->. reflexivity. Qed.
Lemma uadd_Ok a b : (a + b <= usize_max)%N -> uadd a b = Ok (a + b)%N.
Proof. intros H. unfold uadd. rewrite (proj2 (N.leb_le _ _) H). reflexivity. Qed.
Lemma assign_eq {A} (l : list A) i x : i < length l -> assign l i x = Ok (<[i := x]> l).
Proof. intros H. unfold assign. rewrite decide_True by exact H. reflexivity. Qed.

Lemma idle_starts_spec m pf d ft : (forall t, t ∈ ft -> t <> usize_max -> (t + d <= usize_max)%N) ->
  exists l, idle_starts m pf d ft = Ok l /\
    forall t, t ∈ l <-> t ∈ ft /\ t <> usize_max /\ (pf <= t)%N /\ is_idle m t (t + d) = true.
Proof.
  induction ft as [|t ts IH]; intros H; cbn [idle_starts].
  - exists []. split; [reflexivity|]. intros t. rewrite elem_of_nil. tauto.
  - destruct IH as (l & -> & Hl); [intros; apply H; [right|]; assumption|].
    destruct (N.eqb_spec t usize_max) as [E|E]; cbn [negb andb].
    + exists l. split; [reflexivity|]. intros t'. rewrite Hl, elem_of_cons. split; [intros (? & ?); auto|]. intros ([->|?] & ? & ?); [congruence|auto].
    + destruct (N.leb_spec pf t) as [L|L].
      * rewrite uadd_Ok by (apply H; [left|exact E]). cbn [mbind outcome_bind].
        destruct (is_idle m t (t + d)) eqn:I.
        -- exists (t :: l). split; [reflexivity|]. intros t'. rewrite !elem_of_cons, Hl. split.
           ++ intros [->|(? & ?)]; auto.
           ++ intros ([->|?] & ? & ?); auto.
        -- exists l. split; [reflexivity|]. intros t'. rewrite Hl, elem_of_cons. split; [intros (? & ?); auto|]. intros ([->|?] & ? & ? & ?); [congruence|auto].
      * exists l. split; [reflexivity|]. intros t'. rewrite Hl, elem_of_cons. split; [intros (? & ?); auto|]. intros ([->|?] & ? & ? & ?); [lia|auto].
Qed.
Lemma is_idle_spec m s e : is_idle m s e = true <-> forall r, r ∈ m_busy m -> (e <= r.1)%N \/ (r.2 <= s)%N.
Proof.
  unfold is_idle. rewrite negb_true_iff. induction (m_busy m) as [|[a b] l IH]; cbn [existsb].
  - split; [intros _ r H; apply elem_of_nil in H; tauto|reflexivity].
  - rewrite orb_false_iff, IH. cbn [fst snd]. split.
    + intros [A B] r [->|H]%elem_of_cons; [|auto]. cbn [fst snd]. apply andb_false_iff in A as [A|A]; [left|right]; apply N.ltb_ge in A; lia.
    + intros H. split; [|intros r Hr; apply H; right; exact Hr]. apply andb_false_iff.
      destruct (H (a, b)) as [A|A]; [left|left|right]; cbn [fst snd] in A; apply N.ltb_ge; lia.
Qed.

(** ** Exchanging two neighbours of a chain *)
Definition tr (u v x : nat) : nat := if decide (x = u) then v else if decide (x = v) then u else x.
Lemma tr_invol u v x : tr v u (tr u v x) = x.
Proof. unfold tr. repeat case_decide; congruence. Qed.
Lemma tr_other u v x : x <> u -> x <> v -> tr u v x = x.
Proof. intros H K. unfold tr. rewrite !decide_False by assumption. reflexivity. Qed.
Lemma map_tr_other u v l : u ∉ l -> v ∉ l -> map (tr u v) l = l.
Proof.
  induction l as [|x l IH]; intros H K; [reflexivity|]. apply not_elem_of_cons in H as [? ?]. apply not_elem_of_cons in K as [? ?].
  cbn [map]. rewrite tr_other, IH by congruence. reflexivity.
Qed.
Lemma map_tr_swap a u v b : NoDup (a ++ u :: v :: b) -> map (tr u v) (a ++ u :: v :: b) = a ++ v :: u :: b.
Proof.
  intros H. apply NoDup_app in H as (_ & Ha & Hb). apply NoDup_cons in Hb as [Hu Hb]. apply NoDup_cons in Hb as [Hv Hb]. apply not_elem_of_cons in Hu as [Huv Hu].
  rewrite map_app. cbn [map]. rewrite !map_tr_other.
  - unfold tr. rewrite (decide_True (P := u = u)) by reflexivity. rewrite (decide_False (P := v = u)) by congruence. rewrite (decide_True (P := v = v)) by reflexivity. reflexivity.
  - exact Hu.
  - exact Hv.
  - intros H. apply (Ha u H). left.
  - intros H. apply (Ha v H). right. left.
Qed.
Lemma next_split l u v : next l u = Some v -> exists a b, l = a ++ u :: v :: b /\ u ∉ a.
Proof.
  induction l as [|x l IH]; cbn; [discriminate|]. destruct (decide (x = u)) as [->|Hx].
  - destruct l as [|y l]; [discriminate|]. intros [= ->]. exists [], l. split; [reflexivity|apply not_elem_of_nil].
  - intros H. destruct (IH H) as (a & b & -> & Ha). exists (x :: a), b. split; [reflexivity|]. apply not_elem_of_cons. auto.
Qed.
Lemma swap_split (a : list nat) (u v : nat) (b : list nat) : NoDup (a ++ u :: v :: b) -> u <> v /\ u ∉ a /\ v ∉ a /\ u ∉ b /\ v ∉ b /\ NoDup a /\ NoDup b /\ (forall x, x ∈ a -> x ∉ b).
Proof.
  intros H. apply NoDup_app in H as (Na & Ha & Hb). apply NoDup_cons in Hb as [Hu Hb]. apply NoDup_cons in Hb as [Hv Hb]. apply not_elem_of_cons in Hu as [Huv Hu].
  split; [exact Huv|]. split; [intros K; apply (Ha u K); left|]. split; [intros K; apply (Ha v K); right; left|]. split; [exact Hu|]. split; [exact Hv|].
  split; [exact Na|]. split; [exact Hb|]. intros x K L. apply (Ha x K). right. right. exact L.
Qed.
Lemma next_swap a u v b i : NoDup (a ++ u :: v :: b) ->
  next (a ++ v :: u :: b) i = if decide (i = v) then Some u else if decide (i = u) then head b else if decide (last a = Some i) then Some v else next (a ++ u :: v :: b) i.
Proof.
  intros H. destruct (swap_split a u v b H) as (Huv & Hua & Hva & Hub & Hvb & Na & Nb & Hab).
  destruct (decide (i = v)) as [->|Hiv]; [rewrite next_app by assumption; reflexivity|].
  destruct (decide (i = u)) as [->|Hiu].
  { change (a ++ v :: u :: b) with (a ++ [v] ++ (u :: b)). rewrite app_assoc, next_app; [reflexivity|]. rewrite elem_of_app, elem_of_list_singleton. tauto. }
  destruct (decide (i ∈ a)) as [Ha|Ha].
  - destruct (split_in a i Ha) as (a1 & a2 & -> & H1). rewrite <- !app_assoc. cbn [app]. rewrite !next_app by exact H1.
    destruct a2 as [|x a2]; cbn [app head].
    + rewrite stdpp.list.last_snoc, decide_True by reflexivity. reflexivity.
    + rewrite decide_False; [reflexivity|]. rewrite last_app, last_cons. intros E. destruct (last (x :: a2)) as [z|] eqn:Ez; [|apply last_None in Ez; discriminate].
      injection E as ->. apply NoDup_app in Na as (_ & _ & Na). apply NoDup_cons in Na as [Na _]. apply Na.
      apply last_Some in Ez as [l' ->]. apply elem_of_app. right. left.
  - rewrite decide_False by (intros E; apply Ha; apply last_Some in E as [l' ->]; apply elem_of_app; right; left).
    destruct (decide (i ∈ b)) as [Hb|Hb].
    + destruct (split_in b i Hb) as (b1 & b2 & -> & H1).
      replace (a ++ v :: u :: b1 ++ i :: b2) with ((a ++ v :: u :: b1) ++ i :: b2) by (rewrite <- app_assoc; reflexivity).
      replace (a ++ u :: v :: b1 ++ i :: b2) with ((a ++ u :: v :: b1) ++ i :: b2) by (rewrite <- app_assoc; reflexivity).
      rewrite !next_app; [reflexivity| |]; rewrite elem_of_app, !elem_of_cons; tauto.
    + rewrite !next_not_in; [reflexivity| |]; rewrite elem_of_app, !elem_of_cons; tauto.
Qed.
Lemma prev_swap a u v b i : NoDup (a ++ u :: v :: b) ->
  prev (a ++ v :: u :: b) i = if decide (i = v) then last a else if decide (i = u) then Some v else if decide (head b = Some i) then Some u else prev (a ++ u :: v :: b) i.
Proof.
  intros H. destruct (swap_split a u v b H) as (Huv & Hua & Hva & Hub & Hvb & Na & Nb & Hab).
  destruct (decide (i = v)) as [->|Hiv]; [rewrite prev_app by assumption; reflexivity|].
  destruct (decide (i = u)) as [->|Hiu].
  { change (a ++ v :: u :: b) with (a ++ [v] ++ (u :: b)). rewrite app_assoc, prev_app; [apply stdpp.list.last_snoc|]. rewrite elem_of_app, elem_of_list_singleton. tauto. }
  destruct (decide (i ∈ a)) as [Ha|Ha].
  - rewrite decide_False by (intros E; apply (Hab i Ha); destruct b; [discriminate|injection E as ->; left]).
    destruct (split_in a i Ha) as (a1 & a2 & -> & H1). rewrite <- !app_assoc. cbn [app]. rewrite !prev_app by exact H1. reflexivity.
  - destruct (decide (i ∈ b)) as [Hb|Hb].
    + destruct (split_in b i Hb) as (b1 & b2 & -> & H1).
      replace (a ++ v :: u :: b1 ++ i :: b2) with ((a ++ v :: u :: b1) ++ i :: b2) by (rewrite <- app_assoc; reflexivity).
      replace (a ++ u :: v :: b1 ++ i :: b2) with ((a ++ u :: v :: b1) ++ i :: b2) by (rewrite <- app_assoc; reflexivity).
      rewrite !prev_app by (rewrite elem_of_app, !elem_of_cons; tauto). destruct b1 as [|y b1]; cbn [app head].
      * rewrite decide_True by reflexivity. rewrite last_app. cbn. reflexivity.
      * rewrite decide_False by (intros E; injection E as ->; apply H1; left). rewrite !last_app, !last_cons.
        destruct (last b1); reflexivity.
    + rewrite decide_False by (intros E; apply Hb; destruct b; [discriminate|injection E as ->; left]).
      rewrite !prev_not_in; [reflexivity| |]; rewrite elem_of_app, !elem_of_cons; tauto.
Qed.
